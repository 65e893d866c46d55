(** * Theorems about the longitudinal speed planner (C29, C30, C64). *)
From Coq Require Import List Bool Arith QArith Qminmax Lqa Lia.
From Verif Require Import M_SpeedPlan P_SpeedPlan.
Import ListNotations.
Local Open Scope Q_scope.

Lemma goal_min : forall c t, goal c t == Qmin t (max_speed c).
Proof.
  intros c t. destruct (goal_spec c t) as [[-> H]|[-> H]].
  - rewrite Q.min_l; lra.
  - rewrite Q.min_r; lra.
Qed.

(** ** C29: one step *)

(** For every step time, non-negative limits, current speed within the maximum, acceleration and
    target: the step is defined; the speed moves toward the (limited) target and does not pass it; the
    acceleration is within its limits, is the one that produced the new speed, points toward the
    target, and its magnitude grows by no more than the rate allows. *)
Theorem C29_step : forall dt c target v a,
  0 < dt -> limits_ok c -> - max_speed c <= v <= max_speed c -> - max_speed c <= target ->
  exists v' a' j', dynamic_states dt c target v a = Some (v', a', j') /\
    (v <= Qmin target (max_speed c) -> v <= v' <= Qmin target (max_speed c)) /\
    (Qmin target (max_speed c) <= v -> Qmin target (max_speed c) <= v' <= v) /\
    - max_dec c <= a' <= max_acc c /\
    v' == v + a' * dt /\ j' * dt == a' - a /\
    (v <= Qmin target (max_speed c) -> 0 <= a' <= Qmax 0 (a + dt * max_acc_rate c)) /\
    (Qmin target (max_speed c) < v -> Qmin 0 (a - dt * max_dec_rate c) <= a' <= 0).
Proof.
  intros dt c target v a POS OK [V0 V1] T. pose proof (goal_min c target) as G. set (q := Qmin target (max_speed c)) in *. clearbody q.
  destruct (Qlt_le_dec (goal c target) v) as [D|U].
  - destruct (step_down dt POS c OK target v a V1 T D) as (v' & a' & j' & E & V & J & A0 & A1 & B & _ & R).
    exists v', a', j'. split; auto. destruct OK. pose proof (mul_le dt POS _ _ A0).
    split; [intros; lra|]. split; [intros; lra|]. split; [lra|]. split; auto. split; auto.
    split; [intros; lra|]. intros _. split; auto.
    destruct R as [R|[R R']].
    + eapply Qle_trans; [apply Q.le_min_r|]; auto.
    + rewrite R. apply Q.le_min_l.
  - destruct (step_up dt POS c OK target v a V0 U) as (v' & a' & j' & E & V & J & A0 & A1 & B & _ & R).
    exists v', a', j'. split; auto. destruct OK. pose proof (mul_le dt POS _ _ A0).
    split; [intros; lra|]. split; [intros; lra|]. split; [lra|]. split; auto. split; auto.
    split; [|intros; lra]. intros _. split; auto.
    destruct R as [R|[R R']].
    + eapply Qle_trans; [exact R|apply Q.le_max_r].
    + rewrite R. apply Q.le_max_l.
Qed.
(** The planner is not lazy either: it reaches the target, or it accelerates (decelerates) as hard as
    one of the limits allows. *)
Theorem C29_full_effort : forall dt c target v a v' a' j',
  0 < dt -> limits_ok c -> - max_speed c <= v <= max_speed c -> - max_speed c <= target ->
  dynamic_states dt c target v a = Some (v', a', j') ->
  v' == Qmin target (max_speed c) \/
  (v <= Qmin target (max_speed c) /\ (a' == max_acc c \/ a' == Qmax 0 (a + dt * max_acc_rate c))) \/
  (Qmin target (max_speed c) < v /\ (a' == - max_dec c \/ a' == Qmin 0 (a - dt * max_dec_rate c))).
Proof.
  intros dt c target v a v' a' j' POS OK [V0 V1] T H. pose proof (goal_min c target) as G. set (q := Qmin target (max_speed c)) in *. clearbody q.
  destruct (Qlt_le_dec (goal c target) v) as [D|U].
  - destruct (step_down dt POS c OK target v a V1 T D) as (v1 & a1 & j1 & E & V & J & A0 & A1 & B & C & _).
    rewrite E in H. injection H as -> -> ->.
    destruct C as [C|[C|[C|[C C']]]]; [left; lra|right; right; split; [lra|auto]|right; right; split; [lra|right]|right; right; split; [lra|right]].
    + rewrite C, Q.min_r; lra.
    + rewrite C, Q.min_l; lra.
  - destruct (step_up dt POS c OK target v a V0 U) as (v1 & a1 & j1 & E & V & J & A0 & A1 & B & C & _).
    rewrite E in H. injection H as -> -> ->.
    destruct C as [C|[C|[C|[C C']]]]; [left; lra|right; left; split; [lra|auto]|right; left; split; [lra|right]|right; left; split; [lra|right]].
    + rewrite C, Q.max_r; lra.
    + rewrite C, Q.max_l; lra.
Qed.
(** The original claim also bounded every change of the acceleration by the rate limits. It is false:
    the acceleration drops at once when the target comes near. *)
Definition C29_rate_claim : Prop := forall dt c target v a v' a' j',
  0 < dt -> limits_ok c -> - max_speed c <= v <= max_speed c -> - max_speed c <= target ->
  dynamic_states dt c target v a = Some (v', a', j') ->
  - (dt * max_dec_rate c) <= a' - a <= dt * max_acc_rate c.
Lemma default_ok : limits_ok default_limits.
Proof. constructor; cbn; lra. Qed.
Theorem C29_rate_refuted : ~ C29_rate_claim.
Proof.
  intros C.
  specialize (C (1#10) default_limits 10 (99#10) 3 _ _ _ ltac:(lra) default_ok ltac:(cbn; lra) ltac:(cbn; lra) eq_refl).
  vm_compute in C. destruct C as [C _]. apply C. reflexivity.
Qed.
(** A speed above the maximum is cut at once, however hard the braking that takes. *)
Definition C29_overspeed_claim : Prop := forall dt c target v a v' a' j',
  0 < dt -> limits_ok c -> dynamic_states dt c target v a = Some (v', a', j') -> - max_dec c <= a'.
Theorem C29_overspeed_refuted : ~ C29_overspeed_claim.
Proof.
  intros C.
  specialize (C (1#10) default_limits 10 60 0 _ _ _ ltac:(lra) default_ok eq_refl).
  vm_compute in C. apply C. reflexivity.
Qed.
Example C29_nonvacuous :
  exists v' a' j', dynamic_states (1#10) default_limits 20 10 0 = Some (v', a', j') /\ v' == 1003#100 /\ a' == 3#10 /\ j' == 3.
Proof. do 3 eexists. split; [reflexivity|]. vm_compute. repeat split. Qed.

(** ** C30: repeated planning *)

(** From any speed and acceleration the speed becomes the (limited) target after finitely many steps
    and stays there for ever. *)
Theorem C30_reaches_and_stays : forall dt c target v a,
  0 < dt -> 0 < max_acc c -> 0 < max_acc_rate c -> 0 < max_dec c -> 0 < max_dec_rate c ->
  0 <= max_speed c -> - max_speed c <= target ->
  exists N, forall n, (N <= n)%nat ->
  exists v' a', plan_steps dt c n target (v, a) = Some (v', a') /\ v' == Qmin target (max_speed c).
Proof.
  intros dt c target v a POS A AR D DR S T.
  assert (OK : limits_ok c) by (constructor; lra).
  destruct (converges dt POS c OK A AR D DR target v a T) as [N H]. exists N. intros n L.
  destruct (H n L) as (v' & a' & E & F). exists v', a'. split; auto. rewrite F. apply goal_min.
Qed.
Lemma fuel_more : forall dt c target n v a ret d m, running_loop dt c n target v a ret = Distance d -> (n <= m)%nat ->
  running_loop dt c m target v a ret = Distance d.
Proof.
  intros dt c target. induction n as [|n IH]; intros v a ret d m H L; [discriminate|].
  destruct m as [|m]; [lia|]. cbn in *. destruct (dynamic_states dt c target v a) as [[[v' a'] j']|]; [|discriminate].
  destruct (reached target v'); auto. apply IH; auto. lia.
Qed.
(** The prediction of the running distance terminates. *)
Theorem C30_prediction_terminates : forall dt c target v a,
  0 < dt -> 0 < max_acc c -> 0 < max_acc_rate c -> 0 < max_dec c -> 0 < max_dec_rate c ->
  0 <= max_speed c -> - max_speed c <= target <= max_speed c + (1#100) ->
  exists N d, forall n, (N <= n)%nat -> running_distance dt c n target v a = Distance d.
Proof.
  intros dt c target v a POS A AR D DR S [T0 T1]. unfold running_distance.
  destruct (reached target v); [exists O, 0; auto|].
  destruct (C30_reaches_and_stays dt c target v a POS A AR D DR S T0) as [N H].
  destruct (H (Datatypes.S N)) as (v' & a' & E & F); [lia|].
  assert (R : reached target v' = true).
  { apply reached_iff. destruct (Qlt_le_dec (max_speed c) target).
    - rewrite Q.min_r in F by lra. lra.
    - rewrite Q.min_l in F by lra. lra. }
  destruct (loop_stops dt c N target v a 0 _ E R) as [d L].
  exists (Datatypes.S N), d. intros n G. eapply fuel_more; eauto.
Qed.
(** In particular the stop distance (target 0) that every NPC computes each frame. *)
Corollary C30_stop_distance_terminates : forall dt c v a,
  0 < dt -> 0 < max_acc c -> 0 < max_acc_rate c -> 0 < max_dec c -> 0 < max_dec_rate c -> 0 <= max_speed c ->
  exists N d, forall n, (N <= n)%nat -> running_distance dt c n 0 v a = Distance d.
Proof. intros. apply C30_prediction_terminates; auto. lra. Qed.

(** Without the two conditions it does not: for a target above the maximum speed ... *)
Theorem C30_target_above_maximum_never_ends : forall dt c target v a n,
  0 < dt -> limits_ok c -> max_speed c + (1#100) < target -> reached target v = false ->
  running_distance dt c n target v a = Running.
Proof.
  intros dt c target v a n POS OK T R. unfold running_distance. rewrite R.
  apply loop_goes_on with (P := fun _ _ => True); auto. intros v0 a0 _.
  destruct (step_any dt POS c OK target v0 a0) as (v' & a' & j' & E & [_ B] & _).
  exists v', a', j'. split; auto. split; auto.
  destruct (reached target v') eqn:X; auto. apply reached_iff in X. lra.
Qed.
(** ... and without brakes. *)
Theorem C30_no_brakes_never_ends : forall dt c v a n,
  0 < dt -> limits_ok c -> max_dec c == 0 -> 1#100 < v <= max_speed c ->
  running_distance dt c n 0 v a = Running.
Proof.
  intros dt c v a n POS OK D [V0 V1]. unfold running_distance.
  assert (X : forall v, 1#100 < v -> reached 0 v = false).
  { intros w W. destruct (reached 0 w) eqn:X; auto. apply reached_iff in X. lra. }
  rewrite X by auto.
  apply loop_goes_on with (P := fun v _ => 1#100 < v <= max_speed c); auto. clear v a V0 V1. intros v a [V0 V1].
  assert (G : goal c 0 == 0) by (destruct (goal_spec c 0) as [[G _]|[_ G]]; lra).
  destruct OK.
  destruct (step_down dt POS c ltac:(constructor; auto) 0 v a) as (v' & a' & j' & E & V & _ & A0 & A1 & _); [lra|lra|lra|].
  exists v', a', j'. assert (Z : a' == 0) by lra.
  assert (W : v' == v) by (rewrite V, Z; lra).
  split; auto. split; [lra|]. apply X. lra.
Qed.
Definition C30_always_terminates_claim : Prop := forall dt c v a,
  0 < dt -> limits_ok c -> exists n d, running_distance dt c n 0 v a = Distance d.
Theorem C30_always_terminates_refuted : ~ C30_always_terminates_claim.
Proof.
  intros C.
  set (c := {| max_acc := 10; max_acc_rate := 3; max_dec := 0; max_dec_rate := 3; max_speed := 50 |}).
  assert (OK : limits_ok c) by (constructor; cbn; lra).
  destruct (C 1 c 1 0 ltac:(lra) OK) as (n & d & E).
  rewrite C30_no_brakes_never_ends in E; auto; try discriminate; cbn; lra.
Qed.
Example C30_nonvacuous :
  match running_distance 1 default_limits 4 0 10 0 with Distance _ => true | _ => false end = true /\
  match plan_steps 1 default_limits 2 10 (0, -(5)) with Some (v, _) => Qeq_bool v 3 | None => false end = true /\
  match plan_steps 1 default_limits 4 10 (0, -(5)) with Some (v, _) => Qeq_bool v 10 | None => false end = true.
Proof. vm_compute. auto. Qed.

(** ** C64: the predicted distance and the distance travelled *)

Lemma states_diff : forall dt c target v a v' a' j', 0 < dt -> dynamic_states dt c target v a = Some (v', a', j') ->
  a' * dt == v' - v /\ j' * dt == a' - a.
Proof.
  intros dt c target v a v' a' j' POS H. unfold dynamic_states in H.
  destruct (plan_jerk dt c _ v a) as [j|]; [|discriminate]. cbn [bind] in H.
  destruct (forward_accel dt c j a) as [b|]; [|discriminate]. cbn [bind] in H.
  destruct (forward_twist dt c b v) as [w|]; [|discriminate]. cbn [bind] in H.
  injection H as <- <- <-. unfold derivative. split; field; lra.
Qed.
(** When the prediction returns, it is the distance the entity travels until the target speed is
    reached for the first time, up to an error known exactly: the speed change times the step plus a
    sixth of the acceleration change times the squared step. *)
Theorem C64_prediction_error : forall dt c fuel target v a d,
  0 < dt -> reached target v = false -> running_distance dt c fuel target v a = Distance d ->
  exists n v' a', plan_steps dt c n target (v, a) = Some (v', a') /\ reached target v' = true /\
    (forall m s, (m < n)%nat -> plan_steps dt c m target (v, a) = Some s -> reached target (fst s) = false) /\
    d == trip dt c n target (v, a) + (v' - v) * dt + (a' - a) * dt * dt / 6.
Proof.
  intros dt c fuel target v a d POS R H. unfold running_distance in H. rewrite R in H.
  assert (X : exists n v' a', plan_steps dt c n target (v, a) = Some (v', a') /\ reached target v' = true /\
    (forall m s, (m < n)%nat -> plan_steps dt c m target (v, a) = Some s -> reached target (fst s) = false) /\
    d == 0 + trip dt c n target (v, a) + (v' - v) * dt + (a' - a) * dt * dt / 6).
  { revert v a R H. generalize 0 as ret. induction fuel as [|fuel IH]; intros ret v a R H; [discriminate|]. cbn in H.
    destruct (dynamic_states dt c target v a) as [[[v1 a1] j1]|] eqn:E; [|discriminate].
    destruct (states_diff _ _ _ _ _ _ _ _ POS E) as [D1 D2].
    assert (TR : travelled dt (v1, a1, j1) == moved dt v v1 + (v1 - v) * dt + (a1 - a) * dt * dt / 6).
    { unfold travelled, moved.
      transitivity (v1 * dt + (a1 * dt) * dt * (1#2) + (j1 * dt) * dt * dt * (1#6)); [field|].
      rewrite D1, D2. field. }
    destruct (reached target v1) eqn:R1.
    - injection H as <-. exists 1%nat, v1, a1. cbn. rewrite E. split; auto. split; auto. split.
      + intros m s L G. destruct m; [|lia]. cbn in G. injection G as <-. auto.
      + cbn. rewrite TR. ring.
    - destruct (IH _ _ _ R1 H) as (n & v' & a' & P & Q & F & I).
      exists (S n), v', a'. cbn [plan_steps trip fst snd]. rewrite E. split; auto. split; auto. split.
      + intros m s L G. destruct m; [cbn in G; injection G as <-; auto|].
        cbn [plan_steps fst snd] in G. rewrite E in G. apply (F m s); auto. lia.
      + rewrite I, TR. field. }
  destruct X as (n & v' & a' & P & Q & F & I). exists n, v', a'. split; auto. split; auto. split; auto.
  rewrite I. ring.
Qed.
(** So the stop distance of an entity that brakes is too short by about its speed times the step. *)
Corollary C64_stop_distance_too_short : forall dt c fuel v d,
  0 < dt -> limits_ok c -> 1#100 < v <= max_speed c -> running_distance dt c fuel 0 v 0 = Distance d ->
  exists n v' a', plan_steps dt c n 0 (v, 0) = Some (v', a') /\ reached 0 v' = true /\
    d <= trip dt c n 0 (v, 0) - (v - (1#100)) * dt.
Proof.
  intros dt c fuel v d POS OK [V0 V1] H.
  assert (R : reached 0 v = false).
  { destruct (reached 0 v) eqn:X; auto. apply reached_iff in X. lra. }
  destruct (C64_prediction_error dt c fuel 0 v 0 d POS R H) as (n & v' & a' & P & Q & F & D).
  exists n, v', a'. split; auto. split; auto.
  assert (A : a' <= 0).
  { assert (G : goal c 0 == 0) by (destruct OK; destruct (goal_spec c 0) as [[G _]|[_ G]]; lra).
    clear - P V0 V1 POS OK G.
    assert (W : forall n v a, 0 <= v <= max_speed c -> a <= 0 -> plan_steps dt c n 0 (v, a) = Some (v', a') -> a' <= 0).
    { clear n v V0 V1 P. destruct OK as [O1 O2 O3 O4 O5]. pose proof (Build_limits_ok c O1 O2 O3 O4 O5) as OK.
      induction n as [|n IH]; intros v a [V0 V1] A P; [injection P as <- <-; auto|].
      cbn [plan_steps fst snd] in P. destruct (Qlt_le_dec (goal c 0) v) as [D|U].
      - destruct (step_down dt POS c OK 0 v a) as (v1 & a1 & j1 & E & V & _ & A0 & _ & B & _); [lra|lra|lra|].
        rewrite E in P. apply (IH v1 a1); auto. pose proof (mul_le dt POS _ _ A0). lra.
      - destruct (step_up dt POS c OK 0 v a) as (v1 & a1 & j1 & E & V & _ & A0 & _ & B & _); [lra|lra|].
        rewrite E in P. pose proof (mul_le dt POS _ _ A0).
        apply (IH v1 a1); [lra| |auto].
        apply (div_neg dt POS a1 (v1 - v)); lra. }
    apply (W n v 0); auto; lra. }
  assert (B : a' * dt * dt <= 0).
  { pose proof (mul_le dt POS _ _ A) as B1. pose proof (mul_le dt POS _ _ B1). lra. }
  apply reached_iff in Q.
  assert (C : (v' - v) * dt <= ((1#100) - v) * dt) by (apply mul_le; auto; lra).
  assert (E : (a' - 0) * dt * dt / 6 == a' * dt * dt * (1#6)) by field. rewrite E in D. lra.
Qed.
Example C64_nonvacuous :
  match running_distance 1 default_limits 4 0 10 0 with
  | Distance d => Qle_bool d (trip 1 default_limits 3 0 (10, 0) - (999#100))
  | _ => false
  end = true.
Proof. vm_compute. auto. Qed.

Print Assumptions C29_step.
Print Assumptions C29_full_effort.
Print Assumptions C29_rate_refuted.
Print Assumptions C29_overspeed_refuted.
Print Assumptions C30_reaches_and_stays.
Print Assumptions C30_prediction_terminates.
Print Assumptions C30_stop_distance_terminates.
Print Assumptions C30_target_above_maximum_never_ends.
Print Assumptions C30_no_brakes_never_ends.
Print Assumptions C30_always_terminates_refuted.
Print Assumptions C64_prediction_error.
Print Assumptions C64_stop_distance_too_short.
