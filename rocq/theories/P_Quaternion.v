(** Lemmas about orientations. *)
From Coq Require Import Reals Lra.
From Verif Require Import M_Ego M_Quaternion S_Quaternion.
Local Open Scope R_scope.

Lemma quat_eq a b : q_x a = q_x b -> q_y a = q_y b -> q_z a = q_z b -> q_w a = q_w b -> a = b.
Proof. destruct a, b. cbn. intros. subst. reflexivity. Qed.
Lemma vec_eq a b : vec_x a = vec_x b -> vec_y a = vec_y b -> vec_z a = vec_z b -> a = b.
Proof. destruct a, b. cbn. intros. subst. reflexivity. Qed.

Lemma square_nonneg x : 0 <= x * x.
Proof. apply Rle_0_sqr. Qed.

Lemma hypot_square x y : hypot x y * hypot x y = x * x + y * y.
Proof.
  unfold hypot. apply sqrt_def. pose proof (square_nonneg x). pose proof (square_nonneg y). lra.
Qed.
Lemma hypot_nonneg x y : 0 <= hypot x y.
Proof. apply sqrt_pos. Qed.
Lemma hypot_zero x y : hypot x y = 0 -> x = 0 /\ y = 0.
Proof.
  intros H. pose proof (hypot_square x y) as S. rewrite H in S.
  pose proof (square_nonneg x). pose proof (square_nonneg y).
  split; apply Rsqr_0_uniq; unfold Rsqr; lra.
Qed.

Lemma norm_square q :
  norm q * norm q = q_x q * q_x q + q_y q * q_y q + q_z q * q_z q + q_w q * q_w q.
Proof. unfold norm. rewrite !hypot_square. ring. Qed.
Lemma norm_nonneg q : 0 <= norm q.
Proof. apply hypot_nonneg. Qed.

Lemma hypot_scaled x y : 0 < x -> hypot x y = x * sqrt (1 + (y / x) * (y / x)).
Proof.
  intros Hx. unfold hypot.
  replace (x * x + y * y) with ((x * x) * (1 + y / x * (y / x))) by (field; lra).
  rewrite sqrt_mult_alt by apply square_nonneg. rewrite sqrt_square by lra. reflexivity.
Qed.

Lemma atan2_pos y x : 0 < x -> hypot x y * cos (atan (y / x)) = x /\ hypot x y * sin (atan (y / x)) = y.
Proof.
  intros Hx. rewrite cos_atan, sin_atan. unfold Rsqr. rewrite (hypot_scaled x y Hx).
  assert (0 < 1 + y / x * (y / x)) as P by (pose proof (square_nonneg (y / x)); lra).
  pose proof (sqrt_lt_R0 _ P) as S.
  split; field; lra.
Qed.

Lemma hypot_opp x y : hypot (- x) (- y) = hypot x y.
Proof. unfold hypot. f_equal. ring. Qed.
Lemma hypot_sym x y : hypot x y = hypot y x.
Proof. unfold hypot. f_equal. ring. Qed.

(** The angle of a direction. *)
Lemma atan2_direction y x : hypot x y * cos (atan2 y x) = x /\ hypot x y * sin (atan2 y x) = y.
Proof.
  unfold atan2.
  destruct (Rlt_dec 0 x) as [P | P]; [apply atan2_pos, P |].
  destruct (Rlt_dec x 0) as [N | N].
  - assert (y / x = (- y) / (- x)) as E by (field; lra).
    assert (0 < - x) as P' by lra.
    destruct (atan2_pos (- y) (- x) P') as [A B]. rewrite hypot_opp in A, B.
    destruct (Rle_dec 0 y); rewrite E.
    + rewrite neg_cos, neg_sin. split; lra.
    + replace (atan (- y / - x) - PI) with (- (PI - atan (- y / - x))) by ring.
      rewrite cos_neg, sin_neg. rewrite Rtrigo_facts.cos_pi_minus, Rtrigo_facts.sin_pi_minus. split; lra.
  - assert (x = 0) by lra. subst x.
    assert (hypot 0 y = Rabs y) as E.
    { unfold hypot. replace (0 * 0 + y * y) with (Rsqr y) by (unfold Rsqr; ring). apply sqrt_Rsqr_abs. }
    rewrite E.
    destruct (Rlt_dec 0 y); [rewrite cos_PI2, sin_PI2, Rabs_right by lra; split; lra |].
    destruct (Rlt_dec y 0).
    + rewrite cos_neg, sin_neg, cos_PI2, sin_PI2, Rabs_left by lra. split; lra.
    + assert (y = 0) by lra. subst y. rewrite Rabs_R0. split; lra.
Qed.

Lemma atan2_range y x : - PI < atan2 y x <= PI.
Proof.
  pose proof PI_RGT_0. unfold atan2.
  destruct (Rlt_dec 0 x); [pose proof (atan_bound (y / x)); lra |].
  destruct (Rlt_dec x 0).
  - pose proof (atan_bound (y / x)).
    destruct (Rle_dec 0 y).
    + assert (y / x <= 0) as L.
      { unfold Rdiv. pose proof (Rinv_lt_0_compat x r).
        pose proof (Rmult_le_compat_neg_l (/ x) 0 y (Rlt_le _ _ H1) r0). lra. }
      destruct (Req_dec (y / x) 0) as [Z | Z].
      * rewrite Z, atan_0. lra.
      * assert (y / x < 0) as L' by lra. pose proof (atan_increasing _ _ L'). rewrite atan_0 in H1. lra.
    + assert (0 < y / x) as L.
      { unfold Rdiv. pose proof (Rinv_lt_0_compat x r).
        assert (y < 0) as Hy by lra.
        pose proof (Rmult_lt_gt_compat_neg_l (/ x) y 0 H1 Hy). lra. }
      pose proof (atan_increasing _ _ L). rewrite atan_0 in H1. lra.
  - destruct (Rlt_dec 0 y); [lra |]. destruct (Rlt_dec y 0); lra.
Qed.

Lemma half_cos a : cos (a * (1 / 2)) * cos (a * (1 / 2)) - sin (a * (1 / 2)) * sin (a * (1 / 2)) = cos a.
Proof. rewrite <- cos_plus. f_equal. field. Qed.
Lemma half_sin a : 2 * (sin (a * (1 / 2)) * cos (a * (1 / 2))) = sin a.
Proof. replace a with (2 * (a * (1 / 2))) at 3 by field. rewrite sin_2a. ring. Qed.
Lemma half_one a : sin (a * (1 / 2)) * sin (a * (1 / 2)) + cos (a * (1 / 2)) * cos (a * (1 / 2)) = 1.
Proof. exact (sin2_cos2 (a * (1 / 2))). Qed.
Lemma half_turn a : a / 2 = a * (1 / 2).
Proof. field. Qed.

Lemma angle_unique a b : - PI < a <= PI -> - PI < b <= PI -> cos a = cos b -> sin a = sin b -> a = b.
Proof.
  intros Ha Hb C S.
  assert (cos (a - b) = 1) as E.
  { rewrite cos_minus, C, S. pose proof (sin2_cos2 b) as O. unfold Rsqr in O. lra. }
  assert (sin (a - b) = 0) as Z by (rewrite sin_minus, C, S; ring).
  destruct (sin_eq_0_0 _ Z) as [k K].
  assert (-2 < IZR k < 2) as B.
  { pose proof PI_RGT_0.
    split; apply (Rmult_lt_reg_r PI); try lra. }
  destruct B as [B1 B2]. apply lt_IZR in B1. apply lt_IZR in B2.
  assert (k = -1 \/ k = 0 \/ k = 1)%Z as D by Lia.lia.
  destruct D as [D | [D | D]]; subst k; cbn in K.
  - replace (a - b) with (- PI) in E by lra. rewrite cos_neg, cos_PI in E. lra.
  - lra.
  - replace (a - b) with PI in E by lra. rewrite cos_PI in E. lra.
Qed.
