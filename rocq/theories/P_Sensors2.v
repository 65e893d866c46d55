(** * Proofs about the sensors: schedules, planes, lidars *)

From Coq Require Import ZArith QArith List Bool String Lia Lqa.
From Verif Require Import M_Sensors S_Sensors P_Sensors.
Import ListNotations.
Open Scope Q_scope.

(** ** Schedules *)

Fixpoint scheduled (duration previous : Q) (times : list Q) : list bool :=
  match times with
  | [] => []
  | t :: r =>
      if due t previous duration then true :: scheduled duration t r
      else false :: scheduled duration previous r
  end.

Lemma due_spec t previous duration :
  due t previous duration = true <-> duration - (2 # 1000) <= t - previous.
Proof. unfold due. rewrite Qle_bool_iff. split; intros H; lra. Qed.

Lemma latest_cons start t times b ms i last :
  latest start (t :: times) (b :: ms) (S i) last <->
  latest (if b then t else start) times ms i last.
Proof.
  unfold latest. split.
  - intros [[-> N]|(j & J & M & E & N)].
    + pose proof (N 0%nat ltac:(lia)) as N0. simpl in N0. subst b. left. split; auto.
      intros j J. apply (N (S j)). lia.
    + destruct j as [|j]; simpl in M, E.
      * subst b. injection E as ->. left. split; auto. intros j2 J2. apply (N (S j2)). lia.
      * right. exists j. split; [lia|]. split; [auto|]. split; [auto|]. intros j' J'. apply (N (S j')). lia.
  - intros [[-> N]|(j & J & M & E & N)].
    + destruct b.
      * right. exists 0%nat. split; [lia|]. split; [auto|]. split; [auto|].
        intros [|j'] J'; [lia|]. simpl. apply N. lia.
      * left. split; auto. intros [|j] J; [auto|]. simpl. apply N. lia.
    + right. exists (S j). split; [lia|]. split; [auto|]. split; [auto|].
      intros [|j'] J'; [lia|]. simpl. apply N. lia.
Qed.

Lemma latest_0 start times ms last : latest start times ms 0 last <-> last = start.
Proof.
  split; [intros [[-> _]|(j & J & _)]; [auto|lia]|].
  intros ->. left. split; auto. intros j J. lia.
Qed.

Lemma scheduled_spec duration times : forall start,
  on_schedule start duration times (scheduled duration start times).
Proof.
  induction times as [|t times IH]; intros start; simpl.
  - split; [reflexivity|]. intros [|i] t; discriminate.
  - destruct (due t start duration) eqn:D.
    + destruct (IH t) as [L H]. split; [simpl; auto|]. intros [|i] u E; cbn [nth nth_error] in *.
      * injection E as <-. apply due_spec in D. split; [|auto]. intros _. exists start. rewrite latest_0. auto.
      * rewrite (H _ _ E). split; intros (last & A & B); exists last; (split; [|exact B]).
        -- rewrite latest_cons. exact A.
        -- rewrite latest_cons in A. exact A.
    + destruct (IH start) as [L H]. split; [simpl; auto|]. intros [|i] u E; cbn [nth nth_error] in *.
      * injection E as <-. split; [discriminate|]. intros (last & A & B). rewrite latest_0 in A. subst last.
        apply due_spec in B. congruence.
      * rewrite (H _ _ E). split; intros (last & A & B); exists last; (split; [|exact B]).
        -- rewrite latest_cons. exact A.
        -- rewrite latest_cons in A. exact A.
Qed.

(** There is just one way to be on schedule. *)
Lemma on_schedule_unique start duration times : forall ms,
  on_schedule start duration times ms -> ms = scheduled duration start times.
Proof.
  revert start. induction times as [|t times IH]; intros start ms [L H].
  - destruct ms; [reflexivity|discriminate].
  - destruct ms as [|b ms]; [discriminate|]. cbn [scheduled].
    pose proof (H 0%nat t eq_refl) as H0. cbn [nth] in H0.
    assert (B : b = due t start duration).
    { apply eq_true_iff_eq. rewrite H0, due_spec. split.
      - intros (last & A & C). apply latest_0 in A. subst. exact C.
      - intros C. exists start. rewrite latest_0. auto. }
    assert (R : on_schedule (if b then t else start) duration times ms).
    { split; [simpl in L; lia|]. intros i u E. rewrite (H (S i) u E).
      split; intros (last & A & C); exists last; (split; [|exact C]); now apply latest_cons. }
    apply IH in R. rewrite R, <- B. destruct b; reflexivity.
Qed.

Lemma uniform_schedule start duration dt times ms k : (0 < dt)%Q ->
  (forall i t, nth_error times i = Some t -> t == start + inject_Z (Z.of_nat i) * dt) ->
  (0 < k)%nat -> duration - (2 # 1000) <= inject_Z (Z.of_nat k) * dt ->
  (forall k', (k' < k)%nat -> ~ duration - (2 # 1000) <= inject_Z (Z.of_nat k') * dt) ->
  on_schedule start duration times ms ->
  forall i, (i < List.length times)%nat ->
    (nth i ms false = true <-> exists m, i = (S m * k)%nat).
Proof.
  intros DT U K E LEAST [L H].
  assert (AT : forall i, (i < List.length times)%nat -> exists t, nth_error times i = Some t).
  { intros i I. destruct (nth_error times i) eqn:X; eauto. apply nth_error_None in X. lia. }
  assert (GE : forall a b, (a <= b)%nat ->
            (duration - (2 # 1000) <= inject_Z (Z.of_nat b) * dt - inject_Z (Z.of_nat a) * dt <-> (a + k <= b)%nat)).
  { intros a b AB. assert (X : inject_Z (Z.of_nat b) * dt - inject_Z (Z.of_nat a) * dt == inject_Z (Z.of_nat (b - a)) * dt).
    { rewrite Nat2Z.inj_sub by lia. unfold Z.sub. rewrite inject_Z_plus, inject_Z_opp. ring. }
    rewrite X. split.
    - intros D. destruct (le_lt_dec (a + k) b); auto. exfalso. apply (LEAST (b - a)%nat); [lia|exact D].
    - intros D. eapply Qle_trans; [exact E|]. apply Qmult_le_compat_r; [|lra]. rewrite <- Zle_Qle. lia. }
  induction i as [i IH] using lt_wf_ind. intros I. destruct (AT i I) as [t T]. rewrite (H i t T).
  (* the last marked frame is the last multiple *)
  assert (P : forall last, latest start times ms i last -> exists a, (a <= i)%nat /\
     last == start + inject_Z (Z.of_nat a) * dt /\ (exists m, a = (m * k)%nat) /\ (i <= a + k)%nat /\ ((0 < i)%nat -> (a < i)%nat)).
  { intros last [[-> N]|(j & J & M & EJ & N)].
    - exists 0%nat. split; [lia|]. split; [ring|]. split; [exists 0%nat; lia|]. split; [|lia].
      destruct (le_lt_dec i k) as [|KI]; [lia|]. exfalso.
      pose proof (N k KI) as NK. assert (X : nth k ms false = true); [|congruence].
      apply IH; [lia|lia|]. exists 0%nat. lia.
    - exists j. split; [lia|]. split; [apply U; exact EJ|].
      apply IH in M; [|lia|lia]. destruct M as [m ->]. split; [exists (S m); reflexivity|]. split; [|lia].
      destruct (le_lt_dec i (S m * k + k)) as [|KI]; [lia|]. exfalso.
      pose proof (N (S (S m) * k)%nat ltac:(lia)) as NK.
      assert (X : nth (S (S m) * k)%nat ms false = true); [|congruence].
      apply IH; [lia|lia|]. exists (S m). lia. }
  assert (EX : exists last, latest start times ms i last).
  { clear -L I. assert (Y : forall n, (n <= i)%nat ->
      (exists j t, (j < n)%nat /\ nth j ms false = true /\ nth_error times j = Some t /\ forall j', (j < j' < n)%nat -> nth j' ms false = false)
      \/ forall j, (j < n)%nat -> nth j ms false = false).
    { induction n as [|n IHn]; intros B; [right; lia|]. destruct (nth n ms false) eqn:NM.
      - left. destruct (nth_error times n) as [t|] eqn:NT.
        + exists n, t. split; [lia|]. split; auto. split; auto. intros j' J'. lia.
        + apply nth_error_None in NT. lia.
      - destruct (IHn ltac:(lia)) as [(j & t & A & C & D & F)|A].
        + left. exists j, t. split; [lia|]. split; auto. split; auto. intros j' J'.
          destruct (Nat.eq_dec j' n) as [->|NE]; [auto|apply F; lia].
        + right. intros j J. destruct (Nat.eq_dec j n) as [->|NE]; [auto|apply A; lia]. }
    destruct (Y i (Nat.le_refl i)) as [(j & t & A & C & D & F)|A].
    - exists t. right. exists j. auto.
    - exists start. left. auto. }
  split.
  - intros (last & LA & D). destruct (P last LA) as (a & AI & AE & (m & ->) & UP & _).
    rewrite AE, (U i t T) in D. assert (m * k + k <= i)%nat.
    { apply GE; [lia|]. lra. }
    exists m. lia.
  - intros (m & ->). destruct EX as (last & LA). exists last. split; [exact LA|].
    destruct (P last LA) as (a & AI & AE & (m' & ->) & UP & LT).
    rewrite AE, (U _ t T).
    assert (duration - (2 # 1000) <= inject_Z (Z.of_nat (S m * k)) * dt - inject_Z (Z.of_nat (m' * k)) * dt).
    { apply GE; [lia|]. assert (m' * k < S m * k)%nat by (apply LT; lia).
      assert (m' < S m)%nat by (apply Nat.mul_lt_mono_pos_r with k; lia).
      assert (m' * k <= m * k)%nat by (apply Nat.mul_le_mono_r; lia). lia. }
    lra.
Qed.

(** ** What a detection sensor samples *)
Section detection.
Context {G : geometry} {N : Type}.
Variable noise : pose G -> N -> list (status G) -> Q -> N * list (status G).

Lemma sampling_schedule c fs : forall previous kept ch,
  sampling c previous kept fs = Some ch ->
  marks ch = scheduled (update_duration c) previous (map (fun x : frame G * list nat => now (fst x)) fs).
Proof.
  induction fs as [|[f li] fs IH]; intros previous kept ch S; cbn [sampling] in S.
  - injection S as <-. reflexivity.
  - cbn [map scheduled fst]. destruct (due (now f) previous (update_duration c)).
    + destruct (find (own c) (statuses f)); [|discriminate].
      destruct (select _ _ _ _ _) as [chosen kept']. destruct (sampling _ _ _ fs) as [ch'|] eqn:S'; [|discriminate].
      injection S as <-. cbn [marks map]. f_equal. eapply IH. exact S'.
    + destruct (sampling _ _ _ fs) as [ch'|] eqn:S'; [|discriminate].
      injection S as <-. cbn [marks map]. f_equal. eapply IH. exact S'.
Qed.

(** The result of the condition of the range, when the plane is that of [p]. *)
Definition chosen_by (c : detection_config) (li : list nat) (ego p : pose G) (s : status G) : bool :=
  negb (own c s) &&
  (Qle_bool 0 (range c) &&
   Qle_bool (distance2 (position (where_ s)) (position ego)) (range c * range c)) &&
  (Qle_bool (z_of (position ego) - 1) (z_of (position (where_ s))) ||
   Qle_bool 0 (offset (plane_of p) (position (where_ s)))) &&
  (all_in_range c || mem (s_name s) li).

(** Which pose the plane used in a frame is that of. *)
Definition plane_pose (kept : option (pose G)) (ego : pose G) : pose G :=
  match kept with
  | None => ego
  | Some p => if Qle_bool (angle G (facing ego) (facing p)) (4 # 100) then p else ego
  end.

Lemma plane_pose_again kept ego : plane_pose (Some (plane_pose kept ego)) ego = plane_pose kept ego.
Proof.
  unfold plane_pose. destruct kept as [p|].
  - destruct (Qle_bool (angle G (facing ego) (facing p)) (4 # 100)) eqn:E; [rewrite E; reflexivity|].
    destruct (Qle_bool (angle G (facing ego) (facing ego)) (4 # 100)); reflexivity.
  - destruct (Qle_bool (angle G (facing ego) (facing ego)) (4 # 100)); reflexivity.
Qed.

Lemma select_spec c li ego l : forall kept,
  exists kept', select c li ego (option_map plane_of kept) l =
    (filter (chosen_by c li ego (plane_pose kept ego)) l, option_map plane_of kept') /\
    (kept' = kept \/ kept' = Some (plane_pose kept ego)).
Proof.
  induction l as [|s l IH]; intros kept; cbn [select filter].
  - exists kept. auto.
  - unfold in_range, above, chosen_by at 1. destruct (own c s); cbn [negb andb].
    { destruct (IH kept) as (kept' & -> & K). exists kept'. auto. }
    destruct (Qle_bool 0 (range c) && Qle_bool (distance2 (position (where_ s)) (position ego)) (range c * range c)); cbn [negb andb].
    2: { destruct (IH kept) as (kept' & -> & K). exists kept'. auto. }
    destruct (Qle_bool (z_of (position ego) - 1) (z_of (position (where_ s)))); cbn [orb andb].
    { destruct (IH kept) as (kept' & -> & K). exists kept'. auto. }
    set (P := match option_map plane_of kept with Some p => _ | None => _ end).
    assert (E : P = plane_of (plane_pose kept ego)).
    { unfold P, plane_pose. destruct kept as [p|]; [|reflexivity]. cbn [option_map plane_of p_facing].
      destruct (Qle_bool _ _); reflexivity. }
    rewrite E. destruct (IH (Some (plane_pose kept ego))) as (kept' & S & K).
    cbn [option_map] in S. rewrite plane_pose_again in S, K.
    destruct (Qle_bool 0 (offset (plane_of (plane_pose kept ego)) (position (where_ s)))); rewrite S; exists kept'; (split; [reflexivity|]);
      destruct K as [->| ->]; auto.
Qed.

(** The pose of the ego in a frame. *)
Definition ego_in (c : detection_config) (x : frame G * list nat) (p : pose G) : Prop :=
  exists e, find (own c) (statuses (fst x)) = Some e /\ p = where_ e.

Lemma sampling_ego c fs : forall previous kept ch,
  sampling c previous kept fs = Some ch ->
  forall i (x : frame G * list nat) m, nth_error fs i = Some x -> nth_error ch i = Some (Some m) ->
  exists e, find (own c) (statuses (fst x)) = Some e.
Proof.
  induction fs as [|[f li] fs IH]; intros previous kept ch S i x m X M; [destruct i; discriminate|].
  cbn [sampling] in S. destruct (due (now f) previous (update_duration c)).
  - destruct (find (own c) (statuses f)) as [e|] eqn:E; [|discriminate].
    destruct (select _ _ _ _ _) as [chosen kept']. destruct (sampling _ _ _ fs) as [ch'|] eqn:S'; [|discriminate].
    injection S as <-. destruct i as [|i]; cbn [nth_error] in *; [injection X as <-; eauto|eauto].
  - destruct (sampling _ _ _ fs) as [ch'|] eqn:S'; [|discriminate].
    injection S as <-. destruct i as [|i]; cbn [nth_error] in *; [discriminate|eauto].
Qed.

Lemma noisy_nth c fs : forall ch n outs, List.length ch = List.length fs ->
  List.length outs = List.length (numbered 0 ch) ->
  (forall i (x : frame G * list nat) m, nth_error fs i = Some x -> nth_error ch i = Some (Some m) ->
     exists e, find (own c) (statuses (fst x)) = Some e) ->
  exists states, nth_error states 0 = Some n /\
    List.length (numbered 0 (noisy noise c n fs ch outs)) = List.length (numbered 0 outs) /\
    forall k j a t, nth_error (numbered 0 outs) k = Some (j, (a, t)) ->
      exists i b x e n1 n2 m, nth_error (numbered 0 ch) j = Some (i, b) /\
        nth_error (numbered 0 (noisy noise c n fs ch outs)) k = Some (i, m) /\
        nth_error fs i = Some x /\ find (own c) (statuses (fst x)) = Some e /\
        nth_error states k = Some n1 /\ nth_error states (S k) = Some n2 /\ noise (where_ e) n1 a t = (n2, m).
Proof.
  induction fs as [|x fs IH]; intros ch n outs L LO EGO; (destruct ch as [|o ch]; [|try discriminate]); try discriminate.
  - destruct outs; [|discriminate]. exists [n]. split; [reflexivity|]. split; [reflexivity|].
    intros [|k] j a t X; discriminate.
  - simpl in L. assert (EGO' : forall i (y : frame G * list nat) m, nth_error fs i = Some y -> nth_error ch i = Some (Some m) ->
      exists e, find (own c) (statuses (fst y)) = Some e) by (intros i y m Y M; apply (EGO (S i) y m); auto).
    destruct o as [b|].
    + cbn [numbered] in LO. rewrite numbered_shift in LO. cbn [List.length] in LO. rewrite map_length in LO.
      destruct outs as [|o outs]; [discriminate|]. cbn [List.length] in LO.
      destruct o as [[a0 t0]|].
      * cbn [noisy]. destruct (EGO 0%nat x b eq_refl eq_refl) as (e0 & E0). rewrite E0.
        destruct (noise (where_ e0) n a0 t0) as [n0 m0] eqn:N0.
        destruct (IH ch n0 outs ltac:(lia) ltac:(lia) EGO') as (states & S0 & LEN & H).
        exists (n :: states). split; [reflexivity|]. cbn [numbered]. rewrite !(numbered_shift _ 0). cbn [List.length].
        rewrite !map_length, LEN. split; [reflexivity|].
        intros [|k] j a t X; cbn [nth_error] in X.
        -- injection X as <- <- <-. exists 0%nat, b, x, e0, n, n0, m0. cbn [nth_error].
           destruct states as [|z states]; [discriminate|]. injection S0 as ->. auto 10.
        -- rewrite nth_error_map in X. destruct (nth_error (numbered 0 outs) k) as [[j' [a' t']]|] eqn:E'; [|discriminate].
           injection X as <- <- <-. destruct (H k j' a' t' E') as (i & b' & y & e & n1 & n2 & m & A & B & C & D & E & F & I).
           exists (S i), b', y, e, n1, n2, m. cbn [nth_error fst]. rewrite !nth_error_map, A, B. auto 10.
      * cbn [noisy]. destruct (IH ch n outs ltac:(lia) ltac:(lia) EGO') as (states & S0 & LEN & H).
        exists states. split; [exact S0|]. cbn [numbered]. rewrite !(numbered_shift _ 0).
        rewrite !map_length, LEN. split; [reflexivity|].
        intros k j a t X.
        rewrite nth_error_map in X. destruct (nth_error (numbered 0 outs) k) as [[j' [a' t']]|] eqn:E'; [|discriminate].
        injection X as <- <- <-. destruct (H k j' a' t' E') as (i & b' & y & e & n1 & n2 & m & A & B & C & D & E & F & I).
        exists (S i), b', y, e, n1, n2, m. cbn [nth_error fst]. rewrite !nth_error_map, A, B. auto 10.
    + cbn [numbered] in LO. rewrite numbered_shift in LO. rewrite map_length in LO. cbn [noisy].
      assert (X : noisy noise c n (x :: fs) (None :: ch) outs = None :: noisy noise c n fs ch outs) by (destruct outs as [|[[? ?]|]]; reflexivity).
      rewrite ?X. destruct (IH ch n outs ltac:(lia) ltac:(lia) EGO') as (states & S0 & LEN & H).
      exists states. split; [exact S0|]. cbn [numbered]. rewrite !(numbered_shift _ 0).
      rewrite !map_length, LEN. split; [reflexivity|].
      intros k j a t Y. destruct (H k j a t Y) as (i & b' & y & e & n1 & n2 & m & A & B & C & D & E & F & I).
      exists (S i), b', y, e, n1, n2, m. cbn [nth_error fst]. rewrite !nth_error_map, A, B. auto 10.
Qed.

Lemma sampling_chosen c fs : forall previous kept ch,
  sampling c previous (option_map plane_of kept) fs = Some ch ->
  forall i x m, nth_error fs i = Some x -> nth_error ch i = Some (Some m) ->
  exists ego p, ego_in c x ego /\ m = filter (chosen_by c (snd x) ego p) (statuses (fst x)) /\
    (p = ego \/ (Qle_bool (angle G (facing ego) (facing p)) (4 # 100) = true /\
       (kept = Some p \/ exists j y, (j < i)%nat /\ nth_error fs j = Some y /\ ego_in c y p))).
Proof.
  induction fs as [|[f li] fs IH]; intros previous kept ch S i x m X M; [destruct i; discriminate|].
  cbn [sampling] in S. destruct (due (now f) previous (update_duration c)).
  - destruct (find (own c) (statuses f)) as [e|] eqn:E; [|discriminate].
    destruct (select_spec c li (where_ e) (statuses f) kept) as (kept' & SEL & K). rewrite SEL in S.
    destruct (sampling _ _ _ fs) as [ch'|] eqn:S'; [|discriminate]. injection S as <-.
    destruct i as [|i]; cbn [nth_error] in *.
    + injection X as <-. injection M as <-. exists (where_ e), (plane_pose kept (where_ e)).
      split; [exists e; auto|]. split; [reflexivity|]. unfold plane_pose. destruct kept as [p|]; [|auto].
      destruct (Qle_bool _ _) eqn:A; auto.
    + destruct (IH _ _ _ S' i x m X M) as (ego & p & EGO & -> & H). exists ego, p.
      split; [auto|]. split; [auto|]. destruct H as [->|(A & H)]; [auto|]. right. split; [auto|].
      destruct H as [H|(j & y & J & Y & P)].
      * subst kept'. destruct K as [K|K]; [auto|]. injection K as ->.
        unfold plane_pose in *. destruct kept as [q|].
        -- destruct (Qle_bool (angle G (facing (where_ e)) (facing q)) (4 # 100)); [auto|].
           right. exists 0%nat, (f, li). split; [lia|]. split; [reflexivity|]. exists e. auto.
        -- right. exists 0%nat, (f, li). split; [lia|]. split; [reflexivity|]. exists e. auto.
      * right. exists (Datatypes.S j), y. split; [lia|]. auto.
  - destruct (sampling _ _ _ fs) as [ch'|] eqn:S'; [|discriminate]. injection S as <-.
    destruct i as [|i]; cbn [nth_error] in *; [discriminate|].
    destruct (IH _ _ _ S' i x m X M) as (ego & p & EGO & -> & H). exists ego, p.
    split; [auto|]. split; [auto|]. destruct H as [->|(A & H)]; [auto|]. right. split; [auto|].
    destruct H as [H|(j & y & J & Y & P)]; [auto|]. right. exists (Datatypes.S j), y. split; [lia|]. auto.
Qed.
End detection.
