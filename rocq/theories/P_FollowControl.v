(** * Facts about the controller on polyline trajectories *)

From Coq Require Import List Bool ZArith QArith Qabs Qround Qminmax Lqa Lia.
From Verif Require Import M_FollowControl S_FollowControl.
Import ListNotations.
Open Scope Q_scope.

Lemma le_iff a b : le a b = true <-> a <= b.
Proof. apply Qle_bool_iff. Qed.

Lemma le_false a b : le a b = false <-> b < a.
Proof.
  unfold le. destruct (Qle_bool a b) eqn:E.
  - split; [discriminate|]. intros H. apply Qle_bool_iff in E. lra.
  - split; [|reflexivity]. intros _. apply Qnot_le_lt. intros H.
    apply Qle_bool_iff in H. congruence.
Qed.

Lemma lt_iff a b : lt a b = true <-> a < b.
Proof. unfold lt. rewrite negb_true_iff. apply le_false. Qed.

Lemma lt_false a b : lt a b = false <-> b <= a.
Proof. unfold lt. rewrite negb_false_iff. apply le_iff. Qed.

Ltac deciding :=
  repeat match goal with
  | H : le _ _ = true |- _ => apply le_iff in H
  | H : le _ _ = false |- _ => apply le_false in H
  | H : lt _ _ = true |- _ => apply lt_iff in H
  | H : lt _ _ = false |- _ => apply lt_false in H
  | H : _ && _ = true |- _ => apply andb_true_iff in H; destruct H
  | H : _ || _ = false |- _ => apply orb_false_iff in H; destruct H
  end.

Lemma andthen_value A B (o : outcome A) (f : A -> outcome B) b :
  andthen o f = Value b -> exists a, o = Value a /\ f a = Value b.
Proof. destruct o; simpl; intros H; try discriminate. eauto. Qed.

Ltac follow H :=
  let a := fresh "r" in let E := fresh "R" in
  apply andthen_value in H; destruct H as (a & E & H).

Record sane (c : controller) : Prop := Sane {
  sane_step : 0 < step_time c;
  sane_acceleration : 0 < max_acceleration (dynamics c);
  sane_acceleration_rate : 0 < max_acceleration_rate (dynamics c);
  sane_deceleration : 0 < max_deceleration (dynamics c);
  sane_deceleration_rate : 0 < max_deceleration_rate (dynamics c) }.

Lemma epsilon_pos : 0 < local_epsilon.
Proof. reflexivity. Qed.

Lemma Qmax_l a b : a <= Qmax a b. Proof. apply Q.le_max_l. Qed.
Lemma Qmax_r a b : b <= Qmax a b. Proof. apply Q.le_max_r. Qed.
Lemma Qmin_l a b : Qmin a b <= a. Proof. apply Q.le_min_l. Qed.
Lemma Qmin_r a b : Qmin a b <= b. Proof. apply Q.le_min_r. Qed.

Ltac minmax :=
  repeat match goal with
  | |- context [Qmax ?a ?b] =>
      pose proof (Qmax_l a b); pose proof (Qmax_r a b); let m := fresh in
      set (m := Qmax a b) in *; clearbody m
  | |- context [Qmin ?a ?b] =>
      pose proof (Qmin_l a b); pose proof (Qmin_r a b); let m := fresh in
      set (m := Qmin a b) in *; clearbody m
  | H : context [Qmax ?a ?b] |- _ =>
      pose proof (Qmax_l a b); pose proof (Qmax_r a b); let m := fresh in
      set (m := Qmax a b) in *; clearbody m
  | H : context [Qmin ?a ?b] |- _ =>
      pose proof (Qmin_l a b); pose proof (Qmin_r a b); let m := fresh in
      set (m := Qmin a b) in *; clearbody m
  end.

Lemma limits_facts c acceleration speed lo hi :
  limits c acceleration speed = Value (lo, hi) ->
  acceleration - max_deceleration_rate (dynamics c) * step_time c <= lo /\
  - max_deceleration (dynamics c) <= lo /\
  with_jerk (step_time c) speed 0 (max_deceleration_rate (dynamics c)) <= lo /\
  hi <= acceleration + max_acceleration_rate (dynamics c) * step_time c /\
  hi <= max_acceleration (dynamics c) /\
  hi <= with_jerk (step_time c) speed (target c) (max_acceleration_rate (dynamics c)) /\
  lo <= hi + 2 * local_epsilon /\
  - local_epsilon <= speed + lo * step_time c <= target c + local_epsilon /\
  - local_epsilon <= speed + hi * step_time c <= target c + local_epsilon.
Proof.
  unfold limits. cbv zeta.
  set (J0 := with_jerk _ speed 0 _). set (J1 := with_jerk _ speed (target c) _).
  intros H.
  destruct (lt _ _) eqn:E in H; [discriminate|].
  destruct (_ || _) eqn:G in H; [discriminate|].
  injection H as <- <-. deciding.
  rewrite !Qred_correct.
  set (LO := Qmax _ _) in *. set (HI := Qmin (Qmin J1 _) _) in *.
  assert (A1 : acceleration - max_deceleration_rate (dynamics c) * step_time c <= LO) by apply Qmax_r.
  assert (A2 : Qmax J0 (- max_deceleration (dynamics c)) <= LO) by apply Qmax_l.
  pose proof (Qmax_l J0 (- max_deceleration (dynamics c))).
  pose proof (Qmax_r J0 (- max_deceleration (dynamics c))).
  assert (B1 : HI <= acceleration + max_acceleration_rate (dynamics c) * step_time c) by apply Qmin_r.
  assert (B2 : HI <= Qmin J1 (max_acceleration (dynamics c))) by apply Qmin_l.
  pose proof (Qmin_l J1 (max_acceleration (dynamics c))).
  pose proof (Qmin_r J1 (max_acceleration (dynamics c))).
  pose proof (Qmin_l (speed + HI * step_time c) (target c)).
  pose proof (Qmin_r (speed + HI * step_time c) (target c)).
  repeat split; try lra.
Qed.

(** [a] is one of the two ends or lies between them, whichever is the greater. *)
Definition amid (lo hi a : Q) : Prop := (lo <= a <= hi) \/ (hi <= a <= lo).

Lemma amid_lo lo hi : amid lo hi lo.
Proof. unfold amid. destruct (Qlt_le_dec hi lo); [right | left]; lra. Qed.

Lemma amid_hi lo hi : amid lo hi hi.
Proof. unfold amid. destruct (Qlt_le_dec hi lo); [right | left]; lra. Qed.

Lemma between_value lo hi i :
  between lo hi i == lo + inject_Z (Z.of_nat i) * ((hi - lo) / 30).
Proof. unfold between. rewrite Qred_correct. reflexivity. Qed.

Lemma amid_31 lo hi a : one_of_31 lo hi a -> amid lo hi a.
Proof.
  intros (i & L & E). unfold amid.
  assert (T : hi == lo + 30 * ((hi - lo) / 30)) by field.
  set (t := (hi - lo) / 30) in *. clearbody t.
  assert (I0 : 0 <= inject_Z (Z.of_nat i)) by (change 0 with (inject_Z 0); rewrite <- Zle_Qle; lia).
  assert (I1 : inject_Z (Z.of_nat i) <= 30) by (change 30 with (inject_Z 30); rewrite <- Zle_Qle; lia).
  set (q := inject_Z (Z.of_nat i)) in *. clearbody q.
  destruct (Qlt_le_dec t 0) as [N | P].
  - right. split; nra.
  - left. split; nra.
Qed.

Lemma amid_seq lo hi a s n :
  (s + n <= 31)%nat -> In a (map (between lo hi) (seq s n)) -> one_of_31 lo hi a.
Proof.
  intros L I. apply in_map_iff in I. destruct I as (i & <- & I). apply in_seq in I.
  exists i. split; [lia|]. apply between_value.
Qed.

Lemma clamp_amid x lo hi a : clamp x lo hi = Value a -> amid lo hi a.
Proof.
  unfold clamp. destruct (lt hi lo) eqn:E; [discriminate|]. intros H. injection H as <-.
  deciding. left.
  destruct (lt x lo) eqn:E1; deciding; [lra|].
  destruct (lt hi x) eqn:E2; deciding; lra.
Qed.

(** The state is neither one that goes backwards nor one that is too fast. *)
Definition ordinary (c : controller) (acceleration speed : Q) : Prop :=
  0 <= speed + (acceleration + max_acceleration_rate (dynamics c) * step_time c) * step_time c /\
  speed + (acceleration - max_deceleration_rate (dynamics c) * step_time c) * step_time c
    <= target c.

Lemma clamp_acceleration_amid c x acceleration speed lo hi a :
  ordinary c acceleration speed -> limits c acceleration speed = Value (lo, hi) ->
  clamp_acceleration c x acceleration speed = Value a -> amid lo hi a.
Proof.
  intros [N F] L. unfold clamp_acceleration.
  destruct (lt _ 0) eqn:E1; deciding; [lra|].
  destruct (lt (target c) _) eqn:E2; deciding; [lra|].
  rewrite L. simpl. apply clamp_amid.
Qed.

Lemma last_steps_amid c time distance acceleration speed lo hi a :
  ordinary c acceleration speed -> limits c acceleration speed = Value (lo, hi) ->
  last_steps c time distance acceleration speed = Value a -> amid lo hi a.
Proof.
  intros O L. unfold last_steps.
  repeat match goal with
  | |- (if ?b then _ else _) = _ -> _ => destruct b
  end; intros H; try discriminate; eapply clamp_acceleration_amid; eauto.
Qed.

Lemma choose_stop_in fuel c distance acceleration speed l best chosen a :
  choose_stop fuel c distance acceleration speed l best chosen = Value (Some a) ->
  In a l \/ chosen = Some a.
Proof.
  revert best chosen. induction l as [|x l IH]; simpl; intros best chosen H.
  - injection H as ->. auto.
  - follow H. destruct r as [p|].
    + destruct (stops_better _ _); apply IH in H; destruct H as [H | H]; auto.
      injection H as ->. auto.
    + apply IH in H. tauto.
Qed.

Lemma choose_arrival_in fuel cast c time distance acceleration speed l mt md chosen mt' md' a :
  choose_arrival fuel cast c time distance acceleration speed l mt md chosen
  = Value (mt', md', Some a) ->
  In a l \/ chosen = Some a.
Proof.
  revert mt md chosen. induction l as [|x l IH]; simpl; intros mt md chosen H.
  - injection H as _ _ ->. auto.
  - follow H. destruct r as [p|].
    + destruct (arrives_better _ _ _ _); apply IH in H; destruct H as [H | H]; auto.
      injection H as ->. auto.
    + apply IH in H. tauto.
Qed.

Lemma arrival_candidate lo hi a :
  In a (arrival_candidates lo hi) -> one_of_31 lo hi a \/ (a = 0 /\ lo < 0 /\ 0 < hi).
Proof.
  unfold arrival_candidates. intros H. apply in_inv in H. destruct H as [<- | H].
  - left. exists 0%nat. split; [lia|]. simpl. field.
  - apply in_app_or in H. destruct H as [H | H];
      [|apply in_app_or in H; destruct H as [[<- | []] | H]].
    + destruct (lt lo 0 && lt 0 hi) eqn:E; [|destruct H]. deciding.
      destruct H as [<- | []]. auto.
    + left. exists 30%nat. split; [lia|]. change (inject_Z (Z.of_nat 30)) with 30. field.
    + left. destruct (lt local_epsilon _); [|destruct H].
      eapply amid_seq with (s := 1%nat); [|exact H]. unfold number_of_candidates. lia.
Qed.

Lemma arrival_amid lo hi a : In a (arrival_candidates lo hi) -> amid lo hi a.
Proof.
  intros H. apply arrival_candidate in H. destruct H as [H | (-> & L & H)].
  - apply amid_31, H.
  - left. lra.
Qed.

Lemma accelerate_cases fuel cast c time distance acceleration speed a :
  accelerate fuel cast c time distance acceleration speed = Value a ->
  (speed + (acceleration + max_acceleration_rate (dynamics c) * step_time c) * step_time c < 0 /\
   a = acceleration + max_acceleration_rate (dynamics c) * step_time c) \/
  (target c < speed
              + (acceleration - max_deceleration_rate (dynamics c) * step_time c) * step_time c /\
   a = acceleration - max_deceleration_rate (dynamics c) * step_time c) \/
  (ordinary c acceleration speed /\
   exists lo hi, limits c acceleration speed = Value (lo, hi) /\ amid lo hi a).
Proof.
  unfold accelerate. cbv zeta. intros H.
  destruct (lt _ 0) eqn:E1 in H; deciding.
  { injection H as <-. left. auto. }
  destruct (lt (target c) _) eqn:E2 in H; deciding.
  { injection H as <-. auto. }
  right. right.
  assert (O : ordinary c acceleration speed) by (split; assumption).
  split; [exact O|]. follow H. destruct r as [lo hi]. exists lo, hi. split; [assumption|].
  destruct (lt distance _) in H; [injection H as <-; apply amid_lo|].
  destruct (lt (Qabs _) _) in H; [injection H as <-; apply amid_lo|].
  destruct time as [source|].
  - unfold accelerate_timed in H. follow H.
    destruct (_ && _) in H; [eapply last_steps_amid; eassumption|].
    destruct (le _ _) in H; [eapply last_steps_amid; eassumption|].
    follow H. destruct r0 as [[mt md] [x|]]; [|discriminate].
    destruct (le mt _) in H; [injection H as <-; apply amid_hi|].
    destruct (le _ mt) in H; [injection H as <-; apply amid_lo|].
    destruct (_ && _) in H; [discriminate|]. injection H as <-.
    apply choose_arrival_in in R1. destruct R1 as [I | I]; [|discriminate].
    apply arrival_amid, I.
  - unfold accelerate_untimed in H. rewrite R in H. cbn [andthen] in H. follow H.
    destruct r as [x|]; [|discriminate]. injection H as <-.
    apply choose_stop_in in R0. destruct R0 as [I | I]; [|discriminate].
    apply amid_31. eapply amid_seq with (s := 0%nat); [|exact I].
    unfold number_of_candidates. lia.
Qed.

(** ** The acceleration that meets a jerk limit *)

Lemma round_sqrt_facts x :
  0 <= x -> (0 <= round_sqrt x)%Z /\
  4 * x < (2 * inject_Z (round_sqrt x) + 1) * (2 * inject_Z (round_sqrt x) + 1) /\
  ((1 <= round_sqrt x)%Z ->
   (2 * inject_Z (round_sqrt x) - 1) * (2 * inject_Z (round_sqrt x) - 1) <= 4 * x).
Proof.
  intros X. unfold round_sqrt.
  set (f := Qfloor (4 * x)). set (m := Z.sqrt f). set (n := ((m + 1) / 2)%Z).
  pose proof (Qfloor_le (4 * x)) as F1. pose proof (Qlt_floor (4 * x)) as F2. fold f in F1, F2.
  assert (F0 : (0 <= f)%Z).
  { unfold f. change 0%Z with (Qfloor 0). apply Qfloor_resp_le. lra. }
  pose proof (Z.sqrt_spec f F0) as [M1 M2]. fold m in M1, M2.
  assert (M0 : (0 <= m)%Z) by apply Z.sqrt_nonneg.
  assert (N : (2 * n <= m + 1 < 2 * n + 2)%Z) by (unfold n; split; lia || (pose proof (Z.div_mod (m+1) 2); pose proof (Z.mod_pos_bound (m+1) 2); lia)).
  assert (N0 : (0 <= n)%Z) by (unfold n; apply Z.div_pos; lia).
  split; [exact N0|]. split.
  - assert (U : (f + 1 <= (2 * n + 1) * (2 * n + 1))%Z) by nia.
    rewrite Zle_Qle in U. repeat rewrite ?inject_Z_mult, ?inject_Z_plus in U.
    change (inject_Z 1) with 1 in U. change (inject_Z 2) with 2 in U.
    rewrite inject_Z_plus in F2. change (inject_Z 1) with 1 in F2. lra.
  - intros N1. assert (U : ((2 * n - 1) * (2 * n - 1) <= f)%Z) by nia.
    rewrite Zle_Qle in U. unfold Z.sub in U.
    repeat rewrite ?inject_Z_mult, ?inject_Z_plus in U. change (- (1))%Z with (-1)%Z in U.
    change (inject_Z (-1)) with (-(1)) in U. change (inject_Z 2) with 2 in U. lra.
Qed.

Lemma discrete_steps_pos dt delta rate : (1 <= discrete_steps dt delta rate)%Z.
Proof. unfold discrete_steps. lia. Qed.

Lemma ramp_comp n dt a a' jerk v v' :
  a == a' -> v == v' -> ramp n dt a jerk v == ramp n dt a' jerk v'.
Proof.
  revert a a' v v'. induction n as [|n IH]; simpl; intros a a' v v' A V; [exact V|].
  apply IH; [rewrite A | rewrite A, V]; reflexivity.
Qed.

Lemma ramp_closed n dt a jerk v :
  ramp n dt a jerk v ==
  v + inject_Z (Z.of_nat n) * dt * (a + jerk * dt * (inject_Z (Z.of_nat n) - 1) / 2).
Proof.
  revert a v. induction n as [|n IH]; intros a v.
  - simpl. change (inject_Z 0) with 0. field.
  - cbn [ramp]. rewrite IH. rewrite Nat2Z.inj_succ. unfold Z.succ. rewrite inject_Z_plus.
    change (inject_Z 1) with 1. field.
Qed.

Lemma ramp_with_jerk dt current wanted rate :
  0 < dt ->
  ramp (Z.to_nat (discrete_steps dt (wanted - current) rate)) dt
    (with_jerk dt current wanted rate)
    (if le 0 (wanted - current) then - Qabs rate else Qabs rate) current == wanted.
Proof.
  intros D. rewrite ramp_closed. pose proof (discrete_steps_pos dt (wanted - current) rate) as N.
  rewrite Z2Nat.id by lia. unfold with_jerk.
  set (n := discrete_steps dt (wanted - current) rate) in *.
  assert (P : 1 <= inject_Z n) by (change 1 with (inject_Z 1); rewrite <- Zle_Qle; exact N).
  set (q := inject_Z n) in *. clearbody q.
  destruct (le 0 (wanted - current)); field; split; lra.
Qed.

(** Braking to a standstill, in terms of [s], the speed divided by [rate * dt^2]. *)
Lemma with_jerk_stop dt speed rate s :
  0 < dt -> 0 < rate -> 0 < s -> speed == s * (rate * (dt * dt)) ->
  exists n, (1 <= n)%Z /\ n = discrete_steps dt (0 - speed) rate /\
    8 * s < (2 * inject_Z n + 1) * (2 * inject_Z n + 1) /\
    ((2 <= n)%Z -> (2 * inject_Z n - 1) * (2 * inject_Z n - 1) <= 8 * s) /\
    with_jerk dt speed 0 rate == - (rate * dt * (s / inject_Z n + (inject_Z n - 1) / 2)).
Proof.
  intros D J S V. set (n := discrete_steps dt (0 - speed) rate). exists n.
  assert (N : (1 <= n)%Z) by apply discrete_steps_pos.
  assert (K : 0 < rate * (dt * dt)) by (repeat apply Qmult_lt_0_compat; assumption).
  assert (P : 0 < speed) by (rewrite V; apply Qmult_lt_0_compat; assumption).
  assert (X : 2 * Qabs (0 - speed) / (Qabs rate * (dt * dt)) == 2 * s).
  { rewrite (Qabs_neg (0 - speed)) by lra. rewrite (Qabs_pos rate) by lra.
    rewrite V. field. split; lra. }
  assert (X0 : 0 <= 2 * Qabs (0 - speed) / (Qabs rate * (dt * dt))) by (rewrite X; lra).
  pose proof (round_sqrt_facts _ X0) as (R0 & R1 & R2).
  split; [exact N|]. split; [reflexivity|].
  unfold n, discrete_steps in *. set (r := round_sqrt _) in *.
  assert (Cx : 4 * (2 * Qabs (0 - speed) / (Qabs rate * (dt * dt))) == 8 * s)
    by (rewrite X; ring).
  rewrite Cx in R1, R2. clear Cx.
  split; [|split].
  - destruct (Z.max_spec 1 r) as [[L E] | [L E]]; rewrite E; [exact R1|].
    assert (r = 1 \/ r = 0)%Z as [-> | ->] by lia; [exact R1|].
    change (inject_Z 0) with 0 in R1. change (inject_Z 1) with 1. lra.
  - intros L. assert (E : Z.max 1 r = r) by lia. rewrite E. apply R2. lia.
  - unfold with_jerk. cbv zeta.
    change (discrete_steps dt (0 - speed) rate) with (Z.max 1 r).
    assert (F : le 0 (0 - speed) = false) by (apply le_false; lra). rewrite F.
    assert (Q1 : 1 <= inject_Z (Z.max 1 r)) by (change 1 with (inject_Z 1); rewrite <- Zle_Qle; lia).
    set (q := inject_Z (Z.max 1 r)) in *. clearbody q.
    rewrite (Qabs_pos rate) by lra. setoid_replace (0 - speed) with (- (s * (rate * (dt * dt)))) by (rewrite V; ring).
    field. split; lra.
Qed.
