(** Lemmas about roll, pitch and yaw. *)
From Coq Require Import Reals Lra Lia List Arith.
From Verif Require Import M_Ego M_Quaternion M_Imu S_Quaternion S_Imu P_Quaternion.
Import ListNotations.
Local Open Scope R_scope.

Ltac opened := unfold rotate, times, rotation_matrix; cbn -[Rdiv].

Lemma euler_unit r p y : unit (from_euler r p y).
Proof.
  pose proof (half_one r) as OR. pose proof (half_one p) as OP. pose proof (half_one y) as OY.
  unfold unit, from_euler. cbn -[Rdiv].
  set (a := sin (r * (1 / 2))) in *. set (b := cos (r * (1 / 2))) in *.
  set (c := sin (p * (1 / 2))) in *. set (d := cos (p * (1 / 2))) in *.
  set (e := sin (y * (1 / 2))) in *. set (f := cos (y * (1 / 2))) in *.
  transitivity ((a * a + b * b) * (c * c + d * d) * (e * e + f * f)); [ring |].
  rewrite OR, OP, OY. ring.
Qed.

Lemma euler_entries r p y :
  let q := from_euler r p y in
  vec_x (rotate q (ahead 1)) = cos p * cos y /\ vec_y (rotate q (ahead 1)) = cos p * sin y /\
  vec_z (rotate q (ahead 1)) = - sin p /\ vec_z (rotate q (leftward 1)) = cos p * sin r /\
  vec_z (rotate q (upward 1)) = cos p * cos r.
Proof.
  pose proof (half_cos r) as CR. pose proof (half_sin r) as SR. pose proof (half_one r) as OR.
  pose proof (half_cos p) as CP. pose proof (half_sin p) as SP.
  pose proof (half_cos y) as CY. pose proof (half_sin y) as SY. pose proof (half_one y) as OY.
  cbv zeta. rewrite <- CR, <- SR, <- CP, <- SP, <- CY, <- SY.
  unfold from_euler. opened.
  set (a := sin (r * (1 / 2))) in *. set (b := cos (r * (1 / 2))) in *.
  set (c := sin (p * (1 / 2))) in *. set (d := cos (p * (1 / 2))) in *.
  set (e := sin (y * (1 / 2))) in *. set (f := cos (y * (1 / 2))) in *.
  clearbody a b c d e f. clear CR SR CP SP CY SY.
  split; [| split; [| split; [| split]]];
    match goal with |- _ = ?r => transitivity (r * ((a * a + b * b) * (e * e + f * f))) end.
  1: { transitivity ((d * d - c * c) * (f * f - e * e) * (a * a + b * b)); [ring | rewrite OR, OY; ring]. }
  1: rewrite OR, OY; ring.
  1: { transitivity ((d * d - c * c) * (2 * (e * f)) * (a * a + b * b)); [ring | rewrite OR, OY; ring]. }
  1: rewrite OR, OY; ring.
  1: ring.
  1: rewrite OR, OY; ring.
  1: { transitivity ((d * d - c * c) * (2 * (a * b)) * (e * e + f * f)); [ring | rewrite OR, OY; ring]. }
  1: rewrite OR, OY; ring.
  1: { transitivity ((d * d - c * c) * (b * b - a * a) * (e * e + f * f)); [ring | rewrite OR, OY; ring]. }
  rewrite OR, OY; ring.
Qed.

(** The relations between the entries of a rotation matrix *)
Lemma orthogonal q : unit q ->
  let a := rotate q (ahead 1) in let b := rotate q (leftward 1) in let c := rotate q (upward 1) in
  vec_x a * vec_x a + vec_y a * vec_y a + vec_z a * vec_z a = 1 /\
  vec_z a * vec_z a + vec_z b * vec_z b + vec_z c * vec_z c = 1 /\
  vec_x a * vec_x b + vec_y a * vec_y b + vec_z a * vec_z b = 0 /\
  vec_x a * vec_x c + vec_y a * vec_y c + vec_z a * vec_z c = 0 /\
  vec_x a * vec_y b - vec_y a * vec_x b = vec_z c /\
  vec_x c * vec_y a - vec_y c * vec_x a = vec_z b.
Proof.
  unfold unit. intros U. cbv zeta. opened.
  set (x := q_x q) in *. set (y := q_y q) in *. set (z := q_z q) in *. set (w := q_w q) in *.
  clearbody x y z w.
  set (n := x * x + y * y + z * z + w * w) in *.
  repeat split.
  - transitivity (n * n); [unfold n; ring | rewrite U; ring].
  - transitivity (n * n); [unfold n; ring | rewrite U; ring].
  - ring.
  - ring.
  - match goal with |- _ = ?r => transitivity (n * r); [unfold n; ring | rewrite U; ring] end.
  - match goal with |- _ = ?r => transitivity (n * r); [unfold n; ring | rewrite U; ring] end.
Qed.

Lemma spanned q v :
  rotate q v = vec (vec_x v * vec_x (rotate q (ahead 1)) + vec_y v * vec_x (rotate q (leftward 1)) + vec_z v * vec_x (rotate q (upward 1)))
                   (vec_x v * vec_y (rotate q (ahead 1)) + vec_y v * vec_y (rotate q (leftward 1)) + vec_z v * vec_y (rotate q (upward 1)))
                   (vec_x v * vec_z (rotate q (ahead 1)) + vec_y v * vec_z (rotate q (leftward 1)) + vec_z v * vec_z (rotate q (upward 1))).
Proof. apply vec_eq; opened; ring. Qed.

(** A linear system of two equations *)
Lemma two_by_two a b x y x' y' : 0 < a * a + b * b ->
  a * x + b * y = a * x' + b * y' -> a * y - b * x = a * y' - b * x' -> x = x' /\ y = y'.
Proof.
  intros P E F.
  assert (X : (a * a + b * b) * (x - x') = 0).
  { transitivity (a * (a * x + b * y - (a * x' + b * y')) - b * (a * y - b * x - (a * y' - b * x'))); [ring |].
    rewrite E, F. ring. }
  assert (Y : (a * a + b * b) * (y - y') = 0).
  { transitivity (b * (a * x + b * y - (a * x' + b * y')) + a * (a * y - b * x - (a * y' - b * x'))); [ring |].
    rewrite E, F. ring. }
  apply Rmult_integral in X. apply Rmult_integral in Y. lra.
Qed.

Lemma determined p q : unit p -> unit q ->
  0 < vec_x (rotate q (ahead 1)) * vec_x (rotate q (ahead 1)) + vec_y (rotate q (ahead 1)) * vec_y (rotate q (ahead 1)) ->
  rotate p (ahead 1) = rotate q (ahead 1) ->
  vec_z (rotate p (leftward 1)) = vec_z (rotate q (leftward 1)) ->
  vec_z (rotate p (upward 1)) = vec_z (rotate q (upward 1)) -> same_orientation p q.
Proof.
  intros P Q N A B C v. rewrite (spanned p), (spanned q).
  destruct (orthogonal p P) as (_ & _ & P1 & P2 & P3 & P4).
  destruct (orthogonal q Q) as (_ & _ & Q1 & Q2 & Q3 & Q4).
  rewrite A, B in P1. rewrite A, C in P2. rewrite A, C in P3. rewrite A, B in P4. rewrite A, B, C.
  destruct (two_by_two _ _ (vec_x (rotate p (leftward 1))) (vec_y (rotate p (leftward 1)))
              (vec_x (rotate q (leftward 1))) (vec_y (rotate q (leftward 1))) N) as (-> & ->); [lra | lra |].
  destruct (two_by_two _ _ (vec_x (rotate p (upward 1))) (vec_y (rotate p (upward 1)))
              (vec_x (rotate q (upward 1))) (vec_y (rotate q (upward 1))) N) as (-> & ->); [lra | lra |].
  reflexivity.
Qed.

Lemma atan2_unit y x : x * x + y * y = 1 -> cos (atan2 y x) = x /\ sin (atan2 y x) = y.
Proof.
  intros E. destruct (atan2_direction y x) as (C & S).
  assert (H : hypot x y = 1).
  { unfold hypot. rewrite E. apply sqrt_1. }
  rewrite H in C, S. lra.
Qed.

Lemma horizontal q : unit q -> not_vertical q ->
  0 < vec_x (rotate q (ahead 1)) * vec_x (rotate q (ahead 1)) + vec_y (rotate q (ahead 1)) * vec_y (rotate q (ahead 1)).
Proof.
  intros U N. pose proof (square_nonneg (vec_x (rotate q (ahead 1)))) as X.
  pose proof (square_nonneg (vec_y (rotate q (ahead 1)))) as Y.
  destruct (Rle_lt_or_eq_dec 0 _ (Rplus_le_le_0_compat _ _ X Y)) as [L | E]; [exact L |].
  exfalso. apply (N (vec_z (rotate q (ahead 1)))).
  assert (E1 : vec_x (rotate q (ahead 1)) * vec_x (rotate q (ahead 1)) = 0) by lra.
  assert (E2 : vec_y (rotate q (ahead 1)) * vec_y (rotate q (ahead 1)) = 0) by lra.
  apply Rmult_integral in E1. apply Rmult_integral in E2.
  apply vec_eq; cbn [upward vec_x vec_y vec_z]; [tauto | tauto | reflexivity].
Qed.

(** Roll, pitch and yaw of an orientation make this orientation again. *)
Lemma euler_again q : unit q -> not_vertical q ->
  same_orientation (from_euler (vec_x (to_euler q)) (vec_y (to_euler q)) (vec_z (to_euler q))) q.
Proof.
  intros U N. pose proof (horizontal q U N) as H.
  destruct (orthogonal q U) as (O1 & O2 & _).
  assert (U' := U). unfold unit in U'.
  assert (E20 : entry20 q = vec_z (rotate q (ahead 1))).
  { unfold entry20. cbv zeta. rewrite U'. opened. field. }
  set (m20 := vec_z (rotate q (ahead 1))) in *.
  assert (B : -1 < m20 < 1).
  { split.
    - apply Rnot_le_lt. intros L. assert (1 <= m20 * m20) by (replace (m20 * m20) with ((- m20) * (- m20)) by ring; rewrite <- (Rmult_1_r 1) at 1; apply Rmult_le_compat; lra). lra.
    - apply Rnot_le_lt. intros L. assert (1 <= m20 * m20) by (rewrite <- (Rmult_1_r 1) at 1; apply Rmult_le_compat; lra). lra. }
  assert (NA : ~ 1 <= Rabs m20).
  { intros L. revert L. unfold Rabs. destruct (Rcase_abs m20); lra. }
  set (c := cos (- asin m20)).
  assert (CC : c * c = 1 - m20 * m20).
  { unfold c. rewrite cos_neg, cos_asin by lra. rewrite sqrt_sqrt; unfold Rsqr; lra. }
  assert (CP : 0 < c).
  { unfold c. rewrite cos_neg, cos_asin by lra. apply sqrt_lt_R0. unfold Rsqr. lra. }
  assert (SP : sin (- asin m20) = - m20) by (rewrite sin_neg, sin_asin; lra).
  set (m21 := vec_z (rotate q (leftward 1))) in *. set (m22 := vec_z (rotate q (upward 1))) in *.
  set (m00 := vec_x (rotate q (ahead 1))) in *. set (m10 := vec_y (rotate q (ahead 1))) in *.
  assert (T : to_euler q = vec (atan2 (m21 / c) (m22 / c)) (- asin m20) (atan2 (m10 / c) (m00 / c))).
  { unfold to_euler. cbv zeta. rewrite E20. destruct (Rle_dec 1 (Rabs m20)) as [L | _]; [tauto |].
    fold c. apply vec_eq; cbn [vec_x vec_y vec_z].
    - f_equal; f_equal; rewrite U'; unfold m21, m22; opened.
      + field.
      + transitivity ((q_x q * q_x q + q_y q * q_y q + q_z q * q_z q + q_w q * q_w q) -
                      2 * (q_x q * q_x q + q_y q * q_y q)); [rewrite U'; field | ring].
    - reflexivity.
    - unfold yaw_of. cbv zeta.
      change (2 / (q_x q * q_x q + q_y q * q_y q + q_z q * q_z q + q_w q * q_w q) *
              (q_x q * q_z q - q_w q * q_y q)) with (entry20 q).
      rewrite E20. destruct (Rle_dec 1 (Rabs m20)) as [L | _]; [tauto |]. fold c.
      f_equal; f_equal; rewrite U'; unfold m10, m00; opened.
      + field.
      + transitivity ((q_x q * q_x q + q_y q * q_y q + q_z q * q_z q + q_w q * q_w q) -
                      2 * (q_y q * q_y q + q_z q * q_z q)); [rewrite U'; field | ring]. }
  rewrite T. cbn [vec_x vec_y vec_z].
  destruct (atan2_unit (m21 / c) (m22 / c)) as (CR & SR).
  { transitivity ((m22 * m22 + m21 * m21) / (c * c)); [field; lra |].
    replace (m22 * m22 + m21 * m21) with (c * c) by lra. field. lra. }
  destruct (atan2_unit (m10 / c) (m00 / c)) as (CY & SY).
  { transitivity ((m00 * m00 + m10 * m10) / (c * c)); [field; lra |].
    replace (m00 * m00 + m10 * m10) with (c * c) by lra. field. lra. }
  destruct (euler_entries (atan2 (m21 / c) (m22 / c)) (- asin m20) (atan2 (m10 / c) (m00 / c)))
    as (F1 & F2 & F3 & F4 & F5).
  fold c in F1, F2, F4, F5. rewrite CY in F1. rewrite SY in F2. rewrite SP in F3. rewrite SR in F4. rewrite CR in F5.
  apply determined.
  - apply euler_unit.
  - exact U.
  - exact H.
  - apply vec_eq.
    + rewrite F1. fold m00. field. lra.
    + rewrite F2. fold m10. field. lra.
    + rewrite F3. fold m20. ring.
  - rewrite F4. fold m21. field. lra.
  - rewrite F5. fold m22. field. lra.
Qed.
