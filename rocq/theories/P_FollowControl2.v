(** * Hard braking, and the choice among the candidates *)

From Coq Require Import List Bool ZArith QArith Qabs Qround Qminmax Lqa Lia.
From Verif Require Import M_FollowControl S_FollowControl P_FollowControl.
Import ListNotations.
Open Scope Q_scope.

Definition qn (n : nat) : Q := inject_Z (Z.of_nat n).

Lemma qn_succ n : qn (S n) == qn n + 1.
Proof. unfold qn. rewrite Nat2Z.inj_succ. unfold Z.succ. rewrite inject_Z_plus. reflexivity. Qed.

Lemma qn_nonneg n : 0 <= qn n.
Proof. unfold qn. change 0 with (inject_Z 0). rewrite <- Zle_Qle. lia. Qed.

Lemma qn_le m n : (m <= n)%nat -> qn m <= qn n.
Proof. intros. unfold qn. rewrite <- Zle_Qle. lia. Qed.

(** The speed lost in [n] frames of increasingly hard braking. *)
Definition lost (c : controller) (n : nat) : Q :=
  max_deceleration_rate (dynamics c) * (step_time c * step_time c) * (qn n * (qn n + 1) / 2).

Lemma lost_succ c n :
  lost c (S n) == lost c n
                  + max_deceleration_rate (dynamics c) * (step_time c * step_time c) * (qn n + 1).
Proof. unfold lost. rewrite qn_succ. field. Qed.

Lemma lost_mono c m n : sane c -> (m <= n)%nat -> lost c m <= lost c n.
Proof.
  intros C. induction 1 as [|n L IH]; [lra|]. rewrite lost_succ.
  assert (0 <= max_deceleration_rate (dynamics c) * (step_time c * step_time c) * (qn n + 1)).
  { destruct C. pose proof (qn_nonneg n). repeat apply Qmult_le_0_compat; lra. }
  lra.
Qed.

(** Whatever the controller may answer. *)
Definition answers (c : controller) (a v a' : Q) : Prop :=
  exists fuel cast time distance, accelerate fuel cast c time distance a v = Value a'.

Lemma accelerate_hard fuel cast c time distance a v :
  0 <= v + (a + max_acceleration_rate (dynamics c) * step_time c) * step_time c ->
  target c < v + (a - max_deceleration_rate (dynamics c) * step_time c) * step_time c ->
  accelerate fuel cast c time distance a v
  = Value (a - max_deceleration_rate (dynamics c) * step_time c).
Proof.
  intros B F. unfold accelerate. cbv zeta.
  apply lt_false in B. rewrite B. apply lt_iff in F. rewrite F. reflexivity.
Qed.

Lemma hard_braking c v0 n a v :
  sane c -> 0 <= target c -> target c < v0 - lost c n ->
  driven (answers c) (step_time c) 0 v0 n a v ->
  a == - (qn n * (max_deceleration_rate (dynamics c) * step_time c)) /\ v == v0 - lost c n.
Proof.
  intros C T. revert a v. induction n as [|n IH]; intros a v F D.
  - inversion D; subst. unfold lost, qn. simpl. split; field.
  - inversion D as [|n' b u a' v' D' A E]; subst. destruct A as (fuel & cast & time & distance & A).
    pose proof (lost_mono c n (S n) C ltac:(lia)) as M.
    destruct (IH b u ltac:(lra) D') as [IA IV].
    pose proof (lost_succ c n) as L.
    set (jd := max_deceleration_rate (dynamics c)) in *. set (dt := step_time c) in *.
    set (ja := max_acceleration_rate (dynamics c)) in *.
    assert (P1 : 0 < jd) by apply C. assert (P2 : 0 < dt) by apply C.
    assert (P3 : 0 < ja) by apply C.
    assert (E1 : u + (b - jd * dt) * dt == v0 - lost c (S n)).
    { rewrite IV, IA, L. ring. }
    assert (X : 0 < ja * dt * dt) by (repeat apply Qmult_lt_0_compat; assumption).
    assert (Y : 0 < jd * dt * dt) by (repeat apply Qmult_lt_0_compat; assumption).
    rewrite accelerate_hard in A; fold dt jd ja; [fold dt jd in A|lra|rewrite E1; exact F].
    injection A as <-. split.
    + rewrite IA, qn_succ. ring.
    + rewrite E, E1. reflexivity.
Qed.

Lemma hard_braking_runs c v0 n :
  sane c -> 0 <= target c -> target c < v0 - lost c n ->
  exists a v, driven (answers c) (step_time c) 0 v0 n a v.
Proof.
  intros C T. induction n as [|n IH]; intros F.
  - exists 0, v0. constructor.
  - pose proof (lost_mono c n (S n) C ltac:(lia)) as M.
    destruct (IH ltac:(lra)) as (b & u & D).
    destruct (hard_braking c v0 n b u C T ltac:(lra) D) as [IA IV].
    pose proof (lost_succ c n) as L.
    set (jd := max_deceleration_rate (dynamics c)) in *. set (dt := step_time c) in *.
    set (ja := max_acceleration_rate (dynamics c)) in *.
    assert (P1 : 0 < jd) by apply C. assert (P2 : 0 < dt) by apply C.
    assert (P3 : 0 < ja) by apply C.
    assert (E1 : u + (b - jd * dt) * dt == v0 - lost c (S n)).
    { rewrite IV, IA, L. ring. }
    assert (X : 0 < ja * dt * dt) by (repeat apply Qmult_lt_0_compat; assumption).
    assert (Y : 0 < jd * dt * dt) by (repeat apply Qmult_lt_0_compat; assumption).
    exists (b - jd * dt), (u + (b - jd * dt) * dt). econstructor; [exact D| |reflexivity].
    exists O, (fun _ => 0%Z), None, 0. apply accelerate_hard; fold dt jd ja; [lra|].
    rewrite E1. exact F.
Qed.

(** When the braking is harder than what brings the vehicle to a standstill, there is no
    acceleration left to choose. *)
Lemma too_hard c k s :
  sane c -> max_acceleration_rate (dynamics c) <= max_deceleration_rate (dynamics c) ->
  16 * local_epsilon <= max_deceleration_rate (dynamics c) * step_time c ->
  (3 <= k)%nat -> 0 < s -> 2 * s <= (qn k - 2) * (qn k - 2) ->
  forall a v,
  a == - (qn k * (max_deceleration_rate (dynamics c) * step_time c)) ->
  v == s * (max_deceleration_rate (dynamics c) * (step_time c * step_time c)) ->
  limits c a v = Error.
Proof.
  intros C R EPS K S B a v A V.
  destruct (with_jerk_stop (step_time c) v (max_deceleration_rate (dynamics c)) s) as
    (n & N & _ & U & L & J); try apply C; try assumption.
  set (jd := max_deceleration_rate (dynamics c)) in *. set (dt := step_time c) in *.
  set (ja := max_acceleration_rate (dynamics c)) in *.
  assert (P1 : 0 < jd) by apply C. assert (P2 : 0 < dt) by apply C.
  assert (P : 0 < jd * dt) by (apply Qmult_lt_0_compat; assumption).
  assert (NK : (n <= Z.of_nat k - 2)%Z).
  { destruct (Z_lt_le_dec n 2) as [N1 | N2]; [lia|]. specialize (L N2).
    assert (K3 : qn k == inject_Z (Z.of_nat k - 2) + 2).
    { unfold qn, Z.sub. rewrite inject_Z_plus. change (inject_Z (- (2))) with (-(2)). ring. }
    assert (W : (2 * inject_Z n - 1) * (2 * inject_Z n - 1)
                <= (2 * inject_Z (Z.of_nat k - 2)) * (2 * inject_Z (Z.of_nat k - 2))).
    { eapply Qle_trans; [exact L|]. set (M := inject_Z (Z.of_nat k - 2)) in *. clearbody M.
      assert (B' : 2 * s <= M * M).
      { eapply Qle_trans; [exact B|]. rewrite K3. apply Qle_lteq. right. ring. }
      assert (E4 : 2 * M * (2 * M) == 4 * (M * M)) by ring. rewrite E4. lra. }
    set (m := (Z.of_nat k - 2)%Z) in *.
    assert (Z1 : ((2 * n - 1) * (2 * n - 1) <= (2 * m) * (2 * m))%Z).
    { rewrite Zle_Qle. unfold Z.sub. repeat rewrite ?inject_Z_mult, ?inject_Z_plus.
      change (inject_Z (- (1))) with (-(1)). change (inject_Z 2) with 2. lra. }
    assert (0 <= m)%Z by (unfold m; lia). nia. }
  assert (NQ : 1 <= inject_Z n) by (change 1 with (inject_Z 1); rewrite <- Zle_Qle; exact N).
  assert (KQ : inject_Z n <= qn k - 2).
  { unfold qn. setoid_replace (inject_Z (Z.of_nat k) - 2) with (inject_Z (Z.of_nat k - 2)).
    - rewrite <- Zle_Qle. exact NK.
    - unfold Z.sub. rewrite inject_Z_plus. reflexivity. }
  set (q := inject_Z n) in *. clearbody q.
  assert (SQ : s / q <= q / 2 + (5 # 8)).
  { apply Qle_shift_div_r; [lra|].
    setoid_replace ((q / 2 + (5 # 8)) * q) with ((1 # 2) * (q * q) + (5 # 8) * q) by field.
    assert (X : (2 * q + 1) * (2 * q + 1) == 4 * (q * q) + 4 * q + 1) by ring.
    rewrite X in U. lra. }
  assert (JB : - (jd * dt * (q + (1 # 8))) <= with_jerk dt v 0 jd).
  { rewrite J. assert (jd * dt * (s / q + (q - 1) / 2) <= jd * dt * (q + (1 # 8))).
    { apply Qmult_le_l; [exact P|].
      setoid_replace ((q - 1) / 2) with (q / 2 - (1 # 2)) by field.
      assert (q / 2 + q / 2 == q) by field. lra. }
    lra. }
  unfold limits. cbv zeta. fold jd dt ja.
  set (W := with_jerk dt v 0 jd) in *. set (W1 := with_jerk dt v (target c) ja).
  set (LO := Qmax _ _). set (HI := Qmin _ _).
  assert (A2 : Qmax W (- max_deceleration (dynamics c)) <= LO) by apply Qmax_l.
  pose proof (Qmax_l W (- max_deceleration (dynamics c))).
  assert (B1 : HI <= a + ja * dt) by apply Qmin_r.
  assert (JA : ja * dt <= jd * dt) by (apply Qmult_le_compat_r; lra).
  assert (KEY : jd * dt * (q + (1 # 8)) <= jd * dt * (qn k - (15 # 8))).
  { apply Qmult_le_l; [exact P|]. lra. }
  assert (E : lt (HI + local_epsilon) (LO - local_epsilon) = true).
  { apply lt_iff. pose proof epsilon_pos.
    assert (X : a == - (jd * dt * qn k)) by (rewrite A; ring). lra. }
  rewrite E. reflexivity.
Qed.

Lemma accelerate_error fuel cast c time distance a v :
  ordinary c a v -> limits c a v = Error ->
  accelerate fuel cast c time distance a v = Error.
Proof.
  intros [B F] L. unfold accelerate. cbv zeta.
  apply lt_false in B. rewrite B. apply lt_false in F. rewrite F. rewrite L. reflexivity.
Qed.

(** ** The choice among the candidates *)

Lemma stops_better_iff x y : stops_better x y = true <-> preferred x y.
Proof.
  unfold stops_better, preferred.
  destruct (le 0 x) eqn:E1; destruct (le 0 y) eqn:E2; deciding; rewrite ?lt_iff.
  - split; [lra|]. intros [(_ & [H | H]) | H]; lra.
  - split; [intros _; left; lra | reflexivity].
  - split; [discriminate|]. lra.
  - split; [intros H; right; lra|]. intros [H | H]; lra.
Qed.

Lemma preferred_split y b x : preferred y x -> preferred y b \/ preferred b x.
Proof.
  unfold preferred. intros H.
  destruct (Qlt_le_dec b 0) as [B | B].
  - destruct (Qlt_le_dec y 0) as [Y | Y]; [|left; left; auto].
    destruct H as [H | (H1 & H2 & H3)]; [lra|].
    destruct (Qlt_le_dec (Qabs y) (Qabs b)); [left; right; auto|].
    right. right. repeat split; lra.
  - destruct (Qlt_le_dec y b) as [L | L].
    + destruct (Qlt_le_dec y 0) as [Y | Y]; [|left; left; lra].
      destruct H as [H | (H1 & H2 & H3)]; [lra|]. right. left. lra.
    + destruct H as [(H1 & [H2 | H2]) | (H1 & H2 & H3)]; right; left; lra.
Qed.

Lemma preferred_chain y b x : ~ preferred y b -> ~ preferred b x -> ~ preferred y x.
Proof. intros A B C. destruct (preferred_split y b x C); auto. Qed.

Lemma preferred_asym x y : preferred x y -> ~ preferred y x.
Proof. unfold preferred. lra. Qed.

Lemma preferred_irrefl x : ~ preferred x x.
Proof. unfold preferred. lra. Qed.

Definition stop_left (fuel : nat) (c : controller) (distance acceleration speed a x : Q) : Prop :=
  exists p, predict_stop fuel c a distance acceleration speed = Value (Some p) /\
            x = distance - travelled p.

Lemma choose_stop_best fuel c distance acceleration speed l best chosen a :
  choose_stop fuel c distance acceleration speed l best chosen = Value (Some a) ->
  exists x,
    ((In a l /\ stop_left fuel c distance acceleration speed a x) \/ (chosen = Some a /\ x = best)) /\
    ~ preferred best x /\
    forall b y, In b l -> stop_left fuel c distance acceleration speed b y -> ~ preferred y x.
Proof.
  revert best chosen. induction l as [|b l IH]; simpl; intros best chosen H.
  - injection H as ->. exists best. split; [auto|]. split; [apply preferred_irrefl|]. intros ? ? [].
  - follow H. destruct r as [p|].
    + destruct (stops_better (distance - travelled p) best) eqn:E.
      * apply stops_better_iff in E. apply IH in H. destruct H as (x & W & N & F). exists x.
        assert (BX : ~ preferred best x).
        { eapply preferred_chain; [apply preferred_asym, E | exact N]. }
        split; [|split].
        -- destruct W as [(I & W) | (W & ->)]; [left; auto|]. injection W as ->.
           left. split; [auto|]. exists p. auto.
        -- exact BX.
        -- intros b' y [<- | I] (p' & P' & ->).
           ++ rewrite R in P'. injection P' as <-. exact N.
           ++ apply (F b' _ I). exists p'. auto.
      * assert (E' : ~ preferred (distance - travelled p) best).
        { intros Q. apply stops_better_iff in Q. congruence. }
        apply IH in H. destruct H as (x & W & N & F). exists x. split; [|split].
        -- destruct W as [(I & W) | W]; auto.
        -- exact N.
        -- intros b' y [<- | I] (p' & P' & ->).
           ++ rewrite R in P'. injection P' as <-.
              eapply preferred_chain; [exact E' | exact N].
           ++ apply (F b' _ I). exists p'. auto.
    + apply IH in H. destruct H as (x & W & N & F). exists x. split; [|split].
      * destruct W as [(I & W) | W]; auto.
      * exact N.
      * intros b' y [<- | I] (p' & P' & ->); [congruence|]. apply (F b' _ I). exists p'. auto.
Qed.

Definition arrival_of (fuel : nat) (cast : Q -> Z) (c : controller)
    (time distance acceleration speed a late left : Q) : Prop :=
  exists p, predict_arrival fuel cast c a time distance acceleration speed = Value (Some p) /\
            late = time - took p /\ left = distance - travelled p.

Lemma choose_arrival_best fuel cast c time distance acceleration speed l mt md chosen mt' md' a :
  choose_arrival fuel cast c time distance acceleration speed l mt md chosen
  = Value (mt', md', Some a) ->
  ((In a l /\ arrival_of fuel cast c time distance acceleration speed a mt' md')
   \/ (chosen = Some a /\ mt' = mt /\ md' = md)) /\
  Qabs mt' <= Qabs mt + qn (length l) * local_epsilon /\
  forall b t d, In b l -> arrival_of fuel cast c time distance acceleration speed b t d ->
  Qabs mt' <= Qabs t + qn (length l) * local_epsilon.
Proof.
  revert mt md chosen. induction l as [|b l IH]; simpl; intros mt md chosen H.
  - injection H as -> -> ->. split; [auto|]. split; [setoid_replace (qn 0 * local_epsilon) with 0 by reflexivity; lra|].
    intros ? ? ? [].
  - pose proof (qn_succ (length l)) as QS.
    assert (QE : qn (S (length l)) * local_epsilon == qn (length l) * local_epsilon + local_epsilon).
    { rewrite QS. ring. }
    pose proof epsilon_pos as EP.
    follow H. destruct r as [p|].
    + destruct (arrives_better _ _ mt md) eqn:E.
      * apply IH in H. destruct H as (W & N & F).
        assert (C : Qabs (time - took p) <= Qabs mt + local_epsilon).
        { unfold arrives_better in E. apply orb_true_iff in E.
          destruct E as [E | E]; deciding; [lra|].
          pose proof (Qabs_triangle (time - took p - mt) mt) as T.
          setoid_replace (time - took p - mt + mt) with (time - took p) in T by ring. lra. }
        split; [|split].
        -- destruct W as [(I & W) | (W & -> & ->)]; [left; auto|]. injection W as ->.
           left. split; [auto|]. exists p. auto.
        -- lra.
        -- intros b' t d [<- | I] Q.
           ++ destruct Q as (p' & P' & -> & ->). rewrite R in P'. injection P' as <-. lra.
           ++ specialize (F b' t d I Q). lra.
      * apply IH in H. destruct H as (W & N & F). split; [|split].
        -- destruct W as [(I & W) | W]; auto.
        -- lra.
        -- intros b' t d [<- | I] Q.
           ++ destruct Q as (p' & P' & -> & ->). rewrite R in P'. injection P' as <-.
              assert (C : Qabs mt <= Qabs (time - took p) + local_epsilon).
              { unfold arrives_better in E. apply orb_false_iff in E. destruct E as [E1 E2].
                destruct (lt (Qabs (time - took p - mt)) local_epsilon) eqn:G; deciding.
                - pose proof (Qabs_triangle (mt - (time - took p)) (time - took p)) as T.
                  setoid_replace (mt - (time - took p) + (time - took p)) with mt in T by ring.
                  rewrite (Qabs_Qminus mt) in T. lra.
                - cbn [negb andb] in E1. deciding. lra. }
              lra.
           ++ specialize (F b' t d I Q). lra.
    + apply IH in H. destruct H as (W & N & F). split; [|split].
      * destruct W as [(I & W) | W]; auto.
      * lra.
      * intros b' t d [<- | I] Q.
        -- destruct Q as (p' & P' & _). congruence.
        -- specialize (F b' t d I Q). lra.
Qed.

Lemma arrival_candidates_length lo hi : (length (arrival_candidates lo hi) <= 32)%nat.
Proof.
  unfold arrival_candidates. simpl length. rewrite app_length. simpl length.
  destruct (lt lo 0 && lt 0 hi); destruct (lt local_epsilon _); simpl length; lia.
Qed.
