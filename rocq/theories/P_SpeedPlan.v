(** * Proofs about the longitudinal speed planner. *)
From Coq Require Import List Bool Arith QArith Lqa Qround Lia ZArith.
From Verif Require Import M_SpeedPlan.
Import ListNotations.
Local Open Scope Q_scope.

Lemma qlt_spec : forall a b, reflect (a < b) (qlt a b).
Proof.
  intros a b. unfold qlt. destruct (Qle_bool b a) eqn:E; cbn; constructor.
  - apply Qle_bool_iff in E. lra.
  - apply Qnot_le_lt. intros H. apply Qle_bool_iff in H. congruence.
Qed.
Lemma qle_spec : forall a b, reflect (a <= b) (Qle_bool a b).
Proof. intros a b. apply iff_reflect. symmetry. apply Qle_bool_iff. Qed.
Lemma qmin_spec : forall a b, (qmin a b == a /\ a <= b) \/ (qmin a b == b /\ b <= a).
Proof. intros a b. unfold qmin. destruct (qlt_spec b a); [right|left]; split; lra. Qed.
Lemma qmax_spec : forall a b, (qmax a b == a /\ b <= a) \/ (qmax a b == b /\ a <= b).
Proof. intros a b. unfold qmax. destruct (qlt_spec a b); [right|left]; split; lra. Qed.
Lemma clamp_some : forall x lo hi, lo <= hi -> exists y, clamp x lo hi = Some y /\ lo <= y <= hi /\
  (y == x \/ (y == lo /\ x <= lo) \/ (y == hi /\ hi <= x)).
Proof.
  intros x lo hi H. unfold clamp. destruct (qlt_spec hi lo) as [L|L]; [exfalso; lra|].
  destruct (qlt_spec x lo); [exists lo; split; auto; split; [lra|right; left; lra]|].
  destruct (qlt_spec hi x); [exists hi; split; auto; split; [lra|right; right; lra]|].
  exists x. split; auto. split; [lra|left; lra].
Qed.
Lemma clamp_none : forall x lo hi, hi < lo -> clamp x lo hi = None.
Proof. intros x lo hi H. unfold clamp. destruct (qlt_spec hi lo) as [L|L]; auto. exfalso; lra. Qed.

(** Admissible constraints: a non-empty range for each quantity. *)
Record limits_ok (c : limits) : Prop := {
  ok_acc : 0 <= max_acc c; ok_acc_rate : 0 <= max_acc_rate c;
  ok_dec : 0 <= max_dec c; ok_dec_rate : 0 <= max_dec_rate c; ok_speed : 0 <= max_speed c }.
(** The target after limiting it to the maximum speed. *)
Definition goal (c : limits) (target : Q) : Q := if qlt (max_speed c) target then max_speed c else target.
Lemma goal_spec : forall c t, (goal c t == t /\ t <= max_speed c) \/ (goal c t == max_speed c /\ max_speed c < t).
Proof. intros c t. unfold goal. destruct (qlt_spec (max_speed c) t); [right|left]; split; lra. Qed.

Section Step.
Variable dt : Q.
Hypothesis POS : 0 < dt.
Variable c : limits.
Hypothesis OK : limits_ok c.

Lemma div_dt : forall x, x / dt * dt == x.
Proof. intros x. field. lra. Qed.

Lemma mul_le : forall x y, x <= y -> x * dt <= y * dt.
Proof. intros x y H. apply Qmult_le_compat_r; lra. Qed.
Lemma mul_eq : forall x y, x * dt == y * dt -> x == y.
Proof. intros x y H. apply Qmult_inj_r in H; lra. Qed.
Lemma div_pos : forall q x, q * dt == x -> 0 <= x -> 0 <= q.
Proof. intros q x E H. apply Qnot_lt_le. intros L. assert (q * dt < 0 * dt) by (apply Qmult_lt_compat_r; auto). lra. Qed.
Lemma div_neg : forall q x, q * dt == x -> x <= 0 -> q <= 0.
Proof. intros q x E H. apply Qnot_lt_le. intros L. assert (0 * dt < q * dt) by (apply Qmult_lt_compat_r; auto). lra. Qed.

(** What one planning step does, in all cases. *)
Lemma step_up : forall target v a, - max_speed c <= v -> v <= goal c target ->
  exists v' a' j', dynamic_states dt c target v a = Some (v', a', j') /\
    v' == v + a' * dt /\ j' * dt == a' - a /\ 0 <= a' /\ a' <= max_acc c /\ v' <= goal c target /\
    (v' == goal c target \/ a' == max_acc c \/ a' == a + dt * max_acc_rate c \/ (a' == 0 /\ a + dt * max_acc_rate c <= 0)) /\
    (a' <= a + dt * max_acc_rate c \/ (a' == 0 /\ a + dt * max_acc_rate c <= 0)).
Proof.
  intros target v a LO UP. destruct OK as [H1 H2 H3 H4 H5].
  assert (G := goal_spec c target). unfold dynamic_states. fold (goal c target).
  set (t := goal c target) in *. unfold plan_jerk.
  unfold is_accelerating. destruct (qle_spec v t) as [_|N]; [|contradiction].
  pose proof (div_dt (t - v)) as Q. set (q := (t - v) / dt) in *. clearbody q.
  assert (Q0 : 0 <= q) by (apply (div_pos _ _ Q); lra).
  assert (HI : 0 <= qmin (max_acc c) q) by (destruct (qmin_spec (max_acc c) q) as [[-> _]|[-> _]]; auto).
  destruct (clamp_some (a + dt * max_acc_rate c) 0 _ HI) as (n & -> & [N0 N1] & N2). cbn [bind].
  pose proof (div_dt (n - a)) as J. set (j := (n - a) / dt) in *. clearbody j.
  unfold forward_accel.
  assert (R : max_dec c * -1 <= max_acc c) by lra.
  destruct (clamp_some (a + dt * j) _ _ R) as (m & -> & [M0 M1] & M2). cbn [bind].
  assert (NA : n <= max_acc c) by (destruct (qmin_spec (max_acc c) q) as [[E E']|[E E']]; lra).
  assert (NQ : n <= q) by (destruct (qmin_spec (max_acc c) q) as [[E E']|[E E']]; lra).
  assert (MN : m == n).
  { assert (a + dt * j == n) by lra. destruct M2 as [E|[[E F]|[E F]]]; lra. }
  unfold forward_twist.
  assert (S : -1 * max_speed c <= max_speed c) by lra.
  destruct (clamp_some (v + m * dt) _ _ S) as (w & -> & [W0 W1] & W2). cbn [bind].
  assert (VT : v + n * dt <= t) by (pose proof (mul_le _ _ NQ); lra).
  assert (VV : v <= v + n * dt) by (pose proof (mul_le _ _ N0); lra).
  assert (TS : t <= max_speed c) by lra.
  assert (WE : w == v + n * dt).
  { assert (v + m * dt == v + n * dt) by (rewrite MN; lra). destruct W2 as [E|[[E F]|[E F]]]; lra. }
  unfold derivative.
  pose proof (div_dt (w - v)) as D. set (a' := (w - v) / dt) in *. clearbody a'.
  assert (AN : a' == n) by (apply mul_eq; lra).
  pose proof (div_dt (a' - a)) as D'. set (j' := (a' - a) / dt) in *. clearbody j'.
  exists w, a', j'. split; [reflexivity|].
  split; [lra|]. split; [lra|]. split; [lra|]. split; [lra|]. split; [lra|]. split.
  - destruct N2 as [E|[[E F]|[E F]]].
    + right; right; left. lra.
    + right; right; right. lra.
    + destruct (qmin_spec (max_acc c) q) as [[X _]|[X _]].
      * right; left. lra.
      * left. assert (n == q) by lra. rewrite WE, H. lra.
  - destruct N2 as [E|[[E F]|[E F]]]; [left; lra|right; lra|left; lra].
Qed.

Lemma step_down : forall target v a, v <= max_speed c -> - max_speed c <= target -> goal c target < v ->
  exists v' a' j', dynamic_states dt c target v a = Some (v', a', j') /\
    v' == v + a' * dt /\ j' * dt == a' - a /\ a' <= 0 /\ - max_dec c <= a' /\ goal c target <= v' /\
    (v' == goal c target \/ a' == - max_dec c \/ a' == a - dt * max_dec_rate c \/ (a' == 0 /\ 0 <= a - dt * max_dec_rate c)) /\
    (a - dt * max_dec_rate c <= a' \/ (a' == 0 /\ 0 <= a - dt * max_dec_rate c)).
Proof.
  intros target v a UP LO DN. destruct OK as [H1 H2 H3 H4 H5].
  assert (G := goal_spec c target). unfold dynamic_states. fold (goal c target).
  set (t := goal c target) in *. unfold plan_jerk.
  unfold is_accelerating. destruct (qle_spec v t) as [N|_]; [exfalso; lra|].
  pose proof (div_dt (t - v)) as Q. set (q := (t - v) / dt) in *. clearbody q.
  assert (Q0 : q <= 0) by (apply (div_neg _ _ Q); lra).
  assert (HI : qmax (max_dec c * -1) q <= 0) by (destruct (qmax_spec (max_dec c * -1) q) as [[-> _]|[-> _]]; lra).
  destruct (clamp_some (a - dt * max_dec_rate c) _ 0 HI) as (n & -> & [N0 N1] & N2). cbn [bind].
  pose proof (div_dt (n - a)) as J. set (j := (n - a) / dt) in *. clearbody j.
  unfold forward_accel.
  assert (R : max_dec c * -1 <= max_acc c) by lra.
  destruct (clamp_some (a + dt * j) _ _ R) as (m & -> & [M0 M1] & M2). cbn [bind].
  assert (NA : - max_dec c <= n) by (destruct (qmax_spec (max_dec c * -1) q) as [[E E']|[E E']]; lra).
  assert (NQ : q <= n) by (destruct (qmax_spec (max_dec c * -1) q) as [[E E']|[E E']]; lra).
  assert (MN : m == n).
  { assert (a + dt * j == n) by lra. destruct M2 as [E|[[E F]|[E F]]]; lra. }
  unfold forward_twist.
  assert (S : -1 * max_speed c <= max_speed c) by lra.
  destruct (clamp_some (v + m * dt) _ _ S) as (w & -> & [W0 W1] & W2). cbn [bind].
  assert (VT : t <= v + n * dt) by (pose proof (mul_le _ _ NQ); lra).
  assert (VV : v + n * dt <= v) by (pose proof (mul_le _ _ N1); lra).
  assert (TS : - max_speed c <= t) by lra.
  assert (WE : w == v + n * dt).
  { assert (v + m * dt == v + n * dt) by (rewrite MN; lra). destruct W2 as [E|[[E F]|[E F]]]; lra. }
  unfold derivative.
  pose proof (div_dt (w - v)) as D. set (a' := (w - v) / dt) in *. clearbody a'.
  assert (AN : a' == n) by (apply mul_eq; lra).
  pose proof (div_dt (a' - a)) as D'. set (j' := (a' - a) / dt) in *. clearbody j'.
  exists w, a', j'. split; [reflexivity|].
  split; [lra|]. split; [lra|]. split; [lra|]. split; [lra|]. split; [lra|]. split.
  - destruct N2 as [E|[[E F]|[E F]]].
    + right; right; left. lra.
    + destruct (qmax_spec (max_dec c * -1) q) as [[X _]|[X _]].
      * right; left. lra.
      * left. assert (n == q) by lra. rewrite WE, H. lra.
    + right; right; right. lra.
  - destruct N2 as [E|[[E F]|[E F]]]; [left; lra|left; lra|right; lra].
Qed.

(** Whatever the speed, one step brings it within the maximum speed. *)
Lemma step_any : forall target v a,
  exists v' a' j', dynamic_states dt c target v a = Some (v', a', j') /\ - max_speed c <= v' <= max_speed c /\
  a' * dt == v' - v /\ j' * dt == a' - a.
Proof.
  intros target v a. destruct OK as [H1 H2 H3 H4 H5].
  unfold dynamic_states. fold (goal c target). set (t := goal c target) in *. unfold plan_jerk, is_accelerating.
  pose proof (div_dt (t - v)) as Q. set (q := (t - v) / dt) in *. clearbody q.
  assert (X : exists n, (if Qle_bool v t
     then clamp (a + dt * max_acc_rate c) 0 (qmin (max_acc c) q)
     else clamp (a - dt * max_dec_rate c) (qmax (max_dec c * -1) q) 0) = Some n).
  { destruct (qle_spec v t).
    - assert (Q0 : 0 <= q) by (apply (div_pos _ _ Q); lra).
      assert (HI : 0 <= qmin (max_acc c) q) by (destruct (qmin_spec (max_acc c) q) as [[-> _]|[-> _]]; auto).
      destruct (clamp_some (a + dt * max_acc_rate c) 0 _ HI) as (y & E & _). eauto.
    - assert (Q0 : q <= 0) by (apply (div_neg _ _ Q); lra).
      assert (HI : qmax (max_dec c * -1) q <= 0) by (destruct (qmax_spec (max_dec c * -1) q) as [[-> _]|[-> _]]; lra).
      destruct (clamp_some (a - dt * max_dec_rate c) _ 0 HI) as (y & E & _). eauto. }
  destruct X as [n ->]. cbn [bind]. unfold forward_accel.
  assert (R : max_dec c * -1 <= max_acc c) by lra.
  destruct (clamp_some (a + dt * ((n - a) / dt)) _ _ R) as (m & -> & _). cbn [bind]. unfold forward_twist.
  assert (S : -1 * max_speed c <= max_speed c) by lra.
  destruct (clamp_some (v + m * dt) _ _ S) as (w & -> & [W0 W1] & _). cbn [bind]. unfold derivative.
  exists w, ((w - v) / dt), (((w - v) / dt - a) / dt). split; [reflexivity|]. split; [lra|]. split; apply div_dt.
Qed.

(** ** Convergence *)

(** The speed stays at the target. *)
Lemma stay : forall n target v a, - max_speed c <= target -> v == goal c target ->
  exists v' a', plan_steps dt c n target (v, a) = Some (v', a') /\ v' == goal c target.
Proof.
  induction n as [|n IH]; intros target v a LO E; [exists v, a; split; auto|]. cbn [plan_steps fst snd].
  assert (G := goal_spec c target). assert (H5 := ok_speed c OK).
  destruct (step_up target v a) as (v' & a' & j' & -> & V & _ & A & _ & T & _); [lra|lra|].
  apply IH; auto. pose proof (mul_le _ _ A). lra.
Qed.

Lemma plan_app : forall n m target s, plan_steps dt c (n + m) target s =
  match plan_steps dt c n target s with Some s' => plan_steps dt c m target s' | None => None end.
Proof.
  induction n as [|n IH]; intros m target s; auto. cbn.
  destruct (dynamic_states dt c target (fst s) (snd s)) as [[[v a] j]|]; auto.
Qed.

Hypothesis ACC : 0 < max_acc c. Hypothesis ARATE : 0 < max_acc_rate c.
Hypothesis DEC : 0 < max_dec c. Hypothesis DRATE : 0 < max_dec_rate c.

(** Speed gained per step once the acceleration is not negative. *)
Definition up_gain : Q := qmin (max_acc c) (dt * max_acc_rate c) * dt.
Definition down_gain : Q := qmin (max_dec c) (dt * max_dec_rate c) * dt.
Lemma up_gain_pos : 0 < up_gain.
Proof.
  unfold up_gain. assert (0 < dt * max_acc_rate c) by nra.
  destruct (qmin_spec (max_acc c) (dt * max_acc_rate c)) as [[E _]|[E _]]; rewrite E; nra.
Qed.
Lemma down_gain_pos : 0 < down_gain.
Proof.
  unfold down_gain. assert (0 < dt * max_dec_rate c) by nra.
  destruct (qmin_spec (max_dec c) (dt * max_dec_rate c)) as [[E _]|[E _]]; rewrite E; nra.
Qed.
Lemma up_step : forall target v a, - max_speed c <= v -> v <= goal c target -> 0 <= a ->
  exists v' a' j', dynamic_states dt c target v a = Some (v', a', j') /\ 0 <= a' /\ v <= v' /\ v' <= goal c target /\
    (v' == goal c target \/ v + up_gain <= v').
Proof.
  intros target v a L U A. destruct (step_up target v a L U) as (v' & a' & j' & E & V & _ & A0 & A1 & T & C & _).
  exists v', a', j'. split; auto. split; auto. split; [pose proof (mul_le _ _ A0); lra|]. split; auto.
  assert (P : 0 < dt * max_acc_rate c) by nra.
  destruct C as [C|C]; auto. right.
  assert (GE : qmin (max_acc c) (dt * max_acc_rate c) <= a').
  { destruct (qmin_spec (max_acc c) (dt * max_acc_rate c)) as [[-> H]|[-> H]];
      destruct C as [C|[C|[C C']]]; lra. }
  unfold up_gain. pose proof (mul_le _ _ GE). lra.
Qed.
Lemma down_step : forall target v a, v <= max_speed c -> - max_speed c <= target -> goal c target < v -> a <= 0 ->
  exists v' a' j', dynamic_states dt c target v a = Some (v', a', j') /\ a' <= 0 /\ v' <= v /\ goal c target <= v' /\
    (v' == goal c target \/ v' + down_gain <= v).
Proof.
  intros target v a L U D A. destruct (step_down target v a L U D) as (v' & a' & j' & E & V & _ & A0 & A1 & T & C & _).
  exists v', a', j'. split; auto. split; auto. split; [pose proof (mul_le _ _ A0); lra|]. split; auto.
  assert (P : 0 < dt * max_dec_rate c) by nra.
  destruct C as [C|C]; auto. right.
  assert (GE : a' <= - qmin (max_dec c) (dt * max_dec_rate c)).
  { destruct (qmin_spec (max_dec c) (dt * max_dec_rate c)) as [[-> H]|[-> H]];
      destruct C as [C|[C|[C C']]]; lra. }
  unfold down_gain. pose proof (mul_le _ _ GE). lra.
Qed.

Lemma nat_above : forall x, exists n : nat, x <= inject_Z (Z.of_nat n).
Proof.
  intros x. exists (Z.to_nat (Z.max 0 (Qceiling x))). rewrite Z2Nat.id by lia.
  eapply Qle_trans; [apply Qle_ceiling|]. rewrite <- Zle_Qle. lia.
Qed.
Lemma steps_for : forall d g, 0 < g -> exists n : nat, d <= inject_Z (Z.of_nat n) * g.
Proof.
  intros d g G. destruct (nat_above (d / g)) as [n N]. exists n.
  assert (d / g * g == d) by (field; lra). nra.
Qed.

Lemma reach_up : forall target n v a, - max_speed c <= v -> - max_speed c <= target ->
  v <= goal c target -> 0 <= a -> goal c target - v <= inject_Z (Z.of_nat n) * up_gain ->
  exists v' a', plan_steps dt c n target (v, a) = Some (v', a') /\ v' == goal c target.
Proof.
  intros target. induction n as [|n IH]; intros v a L LT U A D.
  - exists v, a. split; auto. change (inject_Z (Z.of_nat 0)) with 0 in D. lra.
  - cbn [plan_steps fst snd].
    destruct (up_step target v a L U A) as (v' & a' & j' & -> & A' & V & T & [C|C]).
    + apply stay; auto.
    + apply IH; auto; [lra|]. rewrite Nat2Z.inj_succ in D. unfold Z.succ in D. rewrite inject_Z_plus in D.
      change (inject_Z 1) with 1 in D. lra.
Qed.
Lemma reach_down : forall target n v a, v <= max_speed c -> - max_speed c <= target ->
  goal c target <= v -> a <= 0 -> v - goal c target <= inject_Z (Z.of_nat n) * down_gain ->
  exists v' a', plan_steps dt c n target (v, a) = Some (v', a') /\ v' == goal c target.
Proof.
  intros target. induction n as [|n IH]; intros v a L LT U A D.
  - exists v, a. split; auto. change (inject_Z (Z.of_nat 0)) with 0 in D. lra.
  - destruct (Qeq_dec v (goal c target)) as [E|N]; [apply stay; auto|].
    assert (U' : goal c target < v) by (apply Qle_lteq in U as [U|U]; auto; exfalso; apply N; lra).
    cbn [plan_steps fst snd].
    destruct (down_step target v a L LT U' A) as (v' & a' & j' & -> & A' & V & T & [C|C]).
    + apply stay; auto.
    + apply IH; auto; [lra|]. rewrite Nat2Z.inj_succ in D. unfold Z.succ in D. rewrite inject_Z_plus in D.
      change (inject_Z 1) with 1 in D. lra.
Qed.

(** From any state whatsoever. *)
Lemma converges : forall target v a, - max_speed c <= target ->
  exists N, forall n, (N <= n)%nat ->
  exists v' a', plan_steps dt c n target (v, a) = Some (v', a') /\ v' == goal c target.
Proof.
  intros target v a LT. assert (G := goal_spec c target). assert (H5 := ok_speed c OK).
  assert (X : exists N v' a', plan_steps dt c N target (v, a) = Some (v', a') /\ v' == goal c target).
  { destruct (step_any target v a) as (v1 & a1 & j1 & E1 & [B1 B1'] & _).
    assert (Y : exists N v' a', plan_steps dt c N target (v1, a1) = Some (v', a') /\ v' == goal c target).
    { destruct (Qlt_le_dec (goal c target) v1) as [D|U].
      - destruct (step_down target v1 a1 B1' LT D) as (v2 & a2 & j2 & E2 & V & _ & A0 & _ & T & _).
        destruct (steps_for (v2 - goal c target) _ down_gain_pos) as [n N].
        destruct (reach_down target n v2 a2) as (v' & a' & E & F); auto; [pose proof (mul_le _ _ A0); lra|].
        exists (S n), v', a'. split; auto. cbn [plan_steps fst snd]. rewrite E2. auto.
      - destruct (step_up target v1 a1 B1 U) as (v2 & a2 & j2 & E2 & V & _ & A0 & _ & T & _).
        destruct (steps_for (goal c target - v2) _ up_gain_pos) as [n N].
        destruct (reach_up target n v2 a2) as (v' & a' & E & F); auto; [pose proof (mul_le _ _ A0); lra|].
        exists (S n), v', a'. split; auto. cbn [plan_steps fst snd]. rewrite E2. auto. }
    destruct Y as (N & v' & a' & E & F). exists (S N), v', a'. split; auto. cbn [plan_steps fst snd]. rewrite E1. auto. }
  destruct X as (N & v' & a' & E & F). exists N. intros n L.
  replace n with (N + (n - N))%nat by lia. rewrite plan_app, E. apply stay; auto.
Qed.
End Step.

(** ** The prediction *)
Lemma reached_iff : forall t v, reached t v = true <-> - (1#100) <= t - v <= (1#100).
Proof. intros t v. unfold reached. rewrite andb_true_iff, !Qle_bool_iff. tauto. Qed.

(** The loop looks at the states of repeated planning. *)
Lemma loop_stops : forall dt c n target v a ret s, plan_steps dt c (S n) target (v, a) = Some s -> reached target (fst s) = true ->
  exists d, running_loop dt c (S n) target v a ret = Distance d.
Proof.
  intros dt c. induction n as [|n IH]; intros target v a ret s H R.
  - cbn in *. destruct (dynamic_states dt c target v a) as [[[v' a'] j']|]; [|discriminate].
    injection H as <-. cbn in R. rewrite R. eauto.
  - remember (S n) as m. cbn in H |- *. destruct (dynamic_states dt c target v a) as [[[v' a'] j']|]; [|discriminate].
    destruct (reached target v'); [eauto|]. subst m. eapply IH; eauto.
Qed.
Lemma loop_goes_on : forall dt c target (P : Q -> Q -> Prop),
  (forall v a, P v a -> exists v' a' j', dynamic_states dt c target v a = Some (v', a', j') /\ P v' a' /\ reached target v' = false) ->
  forall n v a ret, P v a -> running_loop dt c n target v a ret = Running.
Proof.
  intros dt c target P H. induction n as [|n IH]; intros v a ret I; auto. cbn.
  destruct (H v a I) as (v' & a' & j' & -> & I' & R). rewrite R. auto.
Qed.
