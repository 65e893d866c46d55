(** * Theorems about constraints planned for a given time (C31). *)
From Coq Require Lqa.
From Coq Require Import QArith Qminmax Reals Lra Psatz.
From Verif Require Import M_TimePlan M_SpeedPlan P_SpeedPlan.
Local Open Scope R_scope.

(** The speed after [T] if the acceleration first changes at the constant rate [jerk] from [a] to
    [peak] and then stays [peak]. *)
Definition speed_after (v a jerk peak T : R) : R :=
  let t1 := (peak - a) / jerk in velocity v a jerk t1 + peak * (T - t1).

Definition nonneg (c : rlimits) : Prop :=
  0 <= r_acc c /\ 0 <= r_acc_rate c /\ 0 <= r_dec c /\ 0 <= r_dec_rate c /\ 0 <= r_speed c.

Lemma accelerating_iff : forall target v, accelerating target v = true <-> v <= target.
Proof. intros. unfold accelerating. destruct (Rle_dec v target); split; auto; discriminate. Qed.

(** An accelerating request that is accepted is met exactly: with the planned limits the speed is the
    target after the given time, either with one constant jerk throughout or by going to the planned
    acceleration at the rate limit and staying there. *)
Theorem C31_acceleration_meets_time : forall c target v a T c',
  0 < T -> 0 < r_acc_rate c -> v <= target ->
  plan_constraints c target v a T = Planned c' ->
  (velocity v a (r_acc_rate c') T = target \/
   (r_acc_rate c' = r_acc_rate c /\ (r_acc c' - a) / r_acc_rate c <= T /\
    speed_after v a (r_acc_rate c) (r_acc c') T = target)).
Proof.
  intros c target v a T c' HT HR V H. unfold plan_constraints in H.
  assert (AC : accelerating target v = true) by (apply accelerating_iff; auto).
  destruct (match quadratic_duration c target v a with
            | Some q => if Rge_dec q T then true else false
            | None => false end).
  - injection H as <-. left. unfold velocity. cbn. field. lra.
  - rewrite AC in H. set (r := r_acc_rate c) in *.
    set (d := r * T * r * T + 2 * r * (v + a * T - target)) in *.
    destruct (Rlt_dec d 0) as [L|L]; [discriminate|]. injection H as <-. right. cbn.
    split; auto. assert (S0 := sqrt_pos d). assert (SS : sqrt d * sqrt d = d) by (apply sqrt_sqrt; lra).
    set (s := sqrt d) in *. clearbody s. split.
    + apply Rmult_le_reg_r with r; auto. unfold Rdiv. rewrite Rmult_assoc, Rinv_l by lra. lra.
    + unfold speed_after, velocity.
      replace (r * T - s + a - a) with (r * T - s) by ring.
      assert (E : v + / 2 * r * ((r * T - s) / r) * ((r * T - s) / r) + a * ((r * T - s) / r) +
                  (r * T - s + a) * (T - (r * T - s) / r) = v + a * T + (r * T * r * T - s * s) / (2 * r)).
      { field. lra. }
      rewrite E, SS. unfold d. field. lra.
Qed.
(** ... and its limits are non-negative if the current acceleration is, and does not by itself exceed
    the target in the given time. *)
Theorem C31_acceleration_nonneg : forall c target v a T c',
  0 < T -> 0 < r_acc_rate c -> nonneg c -> 0 <= a -> v + a * T <= target ->
  plan_constraints c target v a T = Planned c' -> nonneg c'.
Proof.
  intros c target v a T c' HT HR (N1 & N2 & N3 & N4 & N5) A V H. unfold plan_constraints in H.
  assert (AT : 0 <= a * T) by (apply Rmult_le_pos; lra).
  assert (AC : accelerating target v = true) by (apply accelerating_iff; lra).
  destruct (match quadratic_duration c target v a with
            | Some q => if Rge_dec q T then true else false
            | None => false end).
  - injection H as <-. assert (R0 : 0 <= 2 * (target - v - a * T) / (T * T)).
    { unfold Rdiv. apply Rmult_le_pos; [lra|]. apply Rlt_le, Rinv_0_lt_compat. nra. }
    repeat split; cbn; auto.
  - rewrite AC in H. set (r := r_acc_rate c) in *.
    set (d := r * T * r * T + 2 * r * (v + a * T - target)) in *.
    destruct (Rlt_dec d 0) as [L|L]; [discriminate|]. injection H as <-.
    assert (RT : 0 <= r * T) by nra.
    assert (D : d <= (r * T) * (r * T)) by (unfold d; nra).
    assert (S : sqrt d <= r * T).
    { rewrite <- (sqrt_square (r * T)) by auto. apply sqrt_le_1; nra. }
    repeat split; cbn; auto. lra.
Qed.

(** The original claim said the same of every request. It is false, and not only in corner cases:
    every accepted request to slow down from a steady speed gets a negative deceleration limit. *)
Theorem C31_deceleration_negative : forall c target v T c',
  0 < T -> 0 < r_dec_rate c -> 0 <= r_dec c -> - r_speed c < v -> target < v ->
  plan_constraints c target v 0 T = Planned c' -> r_dec c' < 0.
Proof.
  intros c target v T c' HT HR HD HS V H. unfold plan_constraints in H.
  assert (AC : accelerating target v = false).
  { destruct (accelerating target v) eqn:E; auto. apply accelerating_iff in E. lra. }
  assert (Q : match quadratic_duration c target v 0 with
              | Some q => if Rge_dec q T then true else false
              | None => false end = false).
  { unfold quadratic_duration. rewrite AC. cbv zeta.
    destruct (Rlt_dec (velocity v 0 (- r_dec_rate c) ((0 - r_dec c) / r_dec_rate c)) target).
    - destruct (Rge_dec ((0 - r_dec c) / r_dec_rate c) T) as [G|G]; auto. exfalso.
      assert (X : (0 - r_dec c) / r_dec_rate c * r_dec_rate c = - r_dec c) by (field; lra). nra.
    - unfold constant_jerk_duration. rewrite AC. unfold nsqrt.
      destruct (Rlt_dec (0 * 0 + 2 * r_dec_rate c * (- r_speed c - v)) 0) as [L|L]; auto.
      exfalso. apply L. nra. }
  rewrite Q, AC in H. set (r := r_dec_rate c) in *.
  set (d := r * T * r * T - 2 * r * (v - 0 * T - target)) in *.
  destruct (Rlt_dec d 0) as [L|L]; [discriminate|]. injection H as <-. cbn.
  assert (RT : 0 < r * T) by nra.
  assert (D : d < (r * T) * (r * T)) by (unfold d; nra).
  assert (S : sqrt d < r * T).
  { rewrite <- (sqrt_square (r * T)) by lra. apply sqrt_lt_1; nra. }
  lra.
Qed.
Definition C31_nonneg_claim : Prop := forall c target v a T c',
  0 < T -> nonneg c -> plan_constraints c target v a T = Planned c' -> nonneg c'.
Definition sample : rlimits := {| r_acc := 10; r_acc_rate := 3; r_dec := 10; r_dec_rate := 3; r_speed := 50 |}.
Lemma sample_plan : exists c', plan_constraints sample 10 16 0 2 = Planned c' /\ r_dec c' = -6.
Proof.
  unfold plan_constraints.
  assert (AC : accelerating 10 16 = false).
  { unfold accelerating. destruct (Rle_dec 16 10); auto. lra. }
  assert (Q : match quadratic_duration sample 10 16 0 with
              | Some q => if Rge_dec q 2 then true else false
              | None => false end = false).
  { unfold quadratic_duration. rewrite AC. cbn. unfold velocity.
    destruct (Rlt_dec _ 10) as [L|L].
    - destruct (Rge_dec ((0 - 10) / 3) 2); auto. lra.
    - exfalso. apply L. lra. }
  rewrite Q, AC. cbn.
  assert (D : 3 * 2 * 3 * 2 - 2 * 3 * (16 - 0 * 2 - 10) = 0) by ring. rewrite D.
  destruct (Rlt_dec 0 0); [lra|]. eexists. split; [reflexivity|]. cbn. rewrite sqrt_0. ring.
Qed.
Theorem C31_nonneg_refuted : ~ C31_nonneg_claim.
Proof.
  intros C. destruct sample_plan as (c' & E & D).
  destruct (C sample 10 16 0 2 c') as (_ & _ & X & _); auto; [lra|repeat split; cbn; lra|]. lra.
Qed.
Example C31_nonvacuous_acceleration : exists c', plan_constraints sample 31 1 0 6 = Planned c' /\ r_acc c' = 6.
Proof.
  unfold plan_constraints.
  assert (AC : accelerating 31 1 = true) by (apply accelerating_iff; lra).
  assert (Q : match quadratic_duration sample 31 1 0 with
              | Some q => if Rge_dec q 6 then true else false
              | None => false end = false).
  { unfold quadratic_duration. rewrite AC. cbn. unfold velocity.
    destruct (Rlt_dec _ 31) as [L|L].
    - destruct (Rge_dec ((10 - 0) / 3) 6); auto. lra.
    - exfalso. apply L. lra. }
  rewrite Q, AC. cbn.
  assert (D : 3 * 6 * 3 * 6 + 2 * 3 * (1 + 0 * 6 - 31) = 12 * 12) by ring. rewrite D.
  destruct (Rlt_dec (12 * 12) 0); [lra|]. eexists. split; [reflexivity|]. cbn. rewrite sqrt_square by lra. ring.
Qed.

(** With a negative deceleration limit the next planning step of a braking entity is undefined: the
    range given to std::clamp is empty. *)
Theorem C31_negative_limit_undefined : forall (dt : Q) (c : limits) (target v a : Q),
  (max_dec c < 0)%Q -> (Qmin target (max_speed c) < v)%Q -> dynamic_states dt c target v a = None.
Proof.
  intros dt c target v a D V. unfold dynamic_states. fold (goal c target).
  assert (V' : (goal c target < v)%Q).
  { destruct (goal_spec c target) as [[E H]|[E H]]; rewrite E; eapply Qle_lt_trans; [|exact V| |exact V].
    - rewrite Q.min_l by auto. apply Qle_refl.
    - rewrite Q.min_r by (apply Qlt_le_weak; auto). apply Qle_refl. }
  unfold plan_jerk, is_accelerating. destruct (qle_spec v (goal c target)) as [L|L].
  - exfalso. apply (Qlt_not_le _ _ V' L).
  - rewrite clamp_none; auto.
    destruct (qmax_spec (max_dec c * -1) ((goal c target - v) / dt)%Q) as [[E H]|[E H]]; rewrite E; Lqa.lra.
Qed.

Print Assumptions C31_acceleration_meets_time.
Print Assumptions C31_acceleration_nonneg.
Print Assumptions C31_deceleration_negative.
Print Assumptions C31_nonneg_refuted.
Print Assumptions C31_negative_limit_undefined.
