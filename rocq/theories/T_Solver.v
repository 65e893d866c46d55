(** Theorems about the polynomial solver (C135, C136). *)
From Coq Require Import Reals List ZArith Bool Lra Psatz.
From Verif Require Import M_Segment P_Segment M_Solver S_Solver P_Solver.
Import ListNotations.
Open Scope R_scope.

(** *** C135: linear and quadratic equations *)

Theorem C135_linear : forall a b lo hi,
  lo + tolerance <= hi -> tolerance < Rabs a ->
  exists values, solve_linear a b lo hi = Some values /\
    forall v, In v values <-> exists x, a * x + b = 0 /\ snapped lo hi x v.
Proof.
  intros a b lo hi G A. unfold solve_linear. pose proof (tolerance_nonzero a A) as N.
  apply approximately_0_false in A. rewrite A. eexists. split; [reflexivity |].
  intros v. rewrite filter_in by exact G. split.
  - intros (x & [E | []] & S). injection E as <-. exists (- b / a). split; [field; exact N | exact S].
  - intros (x & E & S). exists x. split; [| exact S]. left. f_equal.
    apply Rmult_eq_reg_l with a; [| exact N].
    replace (a * (- b / a)) with (- b) by (field; exact N). lra.
Qed.

(** Coefficients within the tolerance count as zero: no solution, or the exception. *)
Theorem C135_linear_degenerate : forall a b lo hi, Rabs a <= tolerance ->
  solve_linear a b lo hi = (if Rle_dec (Rabs b) tolerance then None else Some []).
Proof.
  intros a b lo hi A. unfold solve_linear. apply approximately_0_true in A. rewrite A.
  destruct (Rle_dec (Rabs b) tolerance) as [L | L].
  - apply approximately_0_true in L. now rewrite L.
  - assert (tolerance < Rabs b) as B by lra. apply approximately_0_false in B. now rewrite B.
Qed.

Theorem C135_quadratic : forall a b c lo hi,
  lo + tolerance <= hi -> tolerance < Rabs a -> tolerance < Rabs (b * b - 4 * a * c) ->
  exists values, solve_quadratic a b c lo hi = Some values /\
    forall v, In v values <-> exists x, quadratic_at a b c x = 0 /\ snapped lo hi x v.
Proof. exact solve_quadratic_exact. Qed.

(** Close to a double root one value is handed back, in which the polynomial is nearly zero. *)
Theorem C135_quadratic_double : forall a b c lo hi,
  lo + tolerance <= hi -> tolerance < Rabs a -> Rabs (b * b - 4 * a * c) <= tolerance ->
  exists values x, solve_quadratic a b c lo hi = Some values /\
    (forall v, In v values <-> snapped lo hi x v) /\
    Rabs (quadratic_at a b c x) <= tolerance / (4 * Rabs a).
Proof.
  intros a b c lo hi G A D. unfold solve_quadratic. pose proof (tolerance_nonzero a A) as N.
  pose proof A as A'. apply approximately_0_false in A'. rewrite A'.
  pose proof D as D'. apply approximately_0_true in D'. cbv zeta. rewrite D'.
  eexists. exists (- b / (2 * a)). split; [reflexivity |]. split.
  - intros v. rewrite filter_in by exact G. split.
    + intros (x & [E | []] & S). now injection E as <-.
    + intros S. eexists. split; [now left | exact S].
  - replace (quadratic_at a b c (- b / (2 * a))) with (- (b * b - 4 * a * c) / (4 * a))
      by (unfold quadratic_at; field; exact N).
    unfold Rdiv. rewrite Rabs_mult, Rabs_Ropp, Rabs_inv.
    assert (Rabs (4 * a) = 4 * Rabs a) as -> by (rewrite Rabs_mult, (Rabs_right 4); lra).
    apply Rmult_le_compat_r; [| exact D]. left. apply Rinv_0_lt_compat.
    pose proof (Rabs_pos_lt a N). lra.
Qed.

(** *** C136: cubic equations *)

(** Every root in the range is found. *)
Theorem C136_complete : forall a b c d q r lo hi,
  lo + tolerance <= hi -> tolerance < Rabs a -> reduced a b c d q r -> sharp q r ->
  exists values, solve_cubic a b c d lo hi = Some values /\
    forall x v, cubic_at a b c d x = 0 -> snapped lo hi x v -> In v values.
Proof.
  intros a b c d q r lo hi G A Rd S. pose proof (tolerance_nonzero a A) as N.
  destruct (reduced_unique _ _ _ _ _ _ N Rd) as [-> ->].
  unfold solve_cubic. apply approximately_0_false in A. rewrite A.
  eexists. split; [reflexivity |]. intros x v Z Sn. apply filter_in; [exact G |].
  exists x. split; [| exact Sn]. destruct S as [[Q H] | H].
  - apply three_values; [exact N | exact Q | | exact Z]. cbn in H. lra.
  - apply one_value; [exact N | cbn in H; lra | exact Z].
Qed.

(** Every value handed back is a root, or the real part of a pair of complex roots that are real up
    to the tolerance. *)
Theorem C136_sound : forall a b c d q r lo hi values v,
  lo + tolerance <= hi -> tolerance < Rabs a -> reduced a b c d q r -> sharp q r ->
  solve_cubic a b c d lo hi = Some values -> In v values ->
  exists x, snapped lo hi x v /\
    (cubic_at a b c d x = 0 \/ exists i, 0 < Rabs i <= tolerance /\ complex_pair a b c d x i).
Proof.
  intros a b c d q r lo hi values v G A Rd S E I. pose proof (tolerance_nonzero a A) as N.
  destruct (reduced_unique _ _ _ _ _ _ N Rd) as [-> ->].
  unfold solve_cubic in E. apply approximately_0_false in A. rewrite A in E. injection E as <-.
  apply filter_in in I; [| exact G]. destruct I as (x & I & Sn). exists x. split; [exact Sn |].
  destruct S as [[Q H] | H].
  - left. apply three_values in I; [exact I | exact N | exact Q |]. cbn in H. lra.
  - eapply one_value; [exact N | cbn in H; lra | exact I].
Qed.

(** With all three roots real, nothing else is handed back. *)
Theorem C136_three_exact : forall a b c d q r lo hi,
  lo + tolerance <= hi -> tolerance < Rabs a -> reduced a b c d q r -> 0 < q -> r ^ 2 <= q ^ 3 ->
  exists values, solve_cubic a b c d lo hi = Some values /\
    forall v, In v values <-> exists x, cubic_at a b c d x = 0 /\ snapped lo hi x v.
Proof.
  intros a b c d q r lo hi G A Rd Q H. pose proof (tolerance_nonzero a A) as N.
  destruct (reduced_unique _ _ _ _ _ _ N Rd) as [-> ->].
  unfold solve_cubic. apply approximately_0_false in A. rewrite A.
  eexists. split; [reflexivity |]. intros v. rewrite filter_in by exact G.
  split; intros (x & I & S); exists x; (split; [| exact S]);
    (apply three_values; [exact N | exact Q | cbn in H; lra | exact I]).
Qed.

(** Lost roots: when the reduced form has q < 0 and both terms are within the tolerance, or when
    there is a triple root, nothing is handed back, although a cubic always has a real root. *)
Theorem C136_lost_refuted : forall a b c d q r lo hi,
  tolerance < Rabs a -> reduced a b c d q r ->
  (q < 0 /\ r ^ 2 <= q ^ 3 + tolerance) \/ (q = 0 /\ r = 0) ->
  solve_cubic a b c d lo hi = Some [].
Proof.
  intros a b c d q r lo hi A Rd H. pose proof (tolerance_nonzero a A) as N.
  destruct (reduced_unique _ _ _ _ _ _ N Rd) as [EQ ER].
  unfold solve_cubic. apply approximately_0_false in A. rewrite A. rewrite <- EQ, <- ER.
  pose proof tolerance_pos as TP. pose proof epsilon_pos as EP.
  assert (clamped_ratio r (q * q * q) = None /\ r * r <= q * q * q + tolerance) as [C L].
  { unfold clamped_ratio, lt. destruct H as [[Q H] | [-> ->]].
    - assert (q * q * q < 0) as P.
      { assert (0 < q * q) by nra. nra. }
      destruct (Rlt_dec (q * q * q) 0); [| lra]. split; [reflexivity | cbn in H; lra].
    - destruct (Rlt_dec (0 * 0 * 0) 0); [lra |]. destruct (Req_EM_T (0 * 0 * 0) 0); [| lra].
      destruct (Req_EM_T 0 0); [| lra]. split; [reflexivity | lra]. }
  unfold monic_cubic. assert (le (r * r) (q * q * q + tolerance) = true) as -> by now apply le_true.
  rewrite C. cbn [real_values]. rewrite Rabs_R0.
  assert (le 0 epsilon = true) as -> by (apply le_true; lra). reflexivity.
Qed.

(** Within the tolerance of a double root, on the side where it is not real: the values handed back
    are no roots, but the polynomial is small there. *)
Theorem C136_residual : forall a b c d q r lo hi values v,
  lo + tolerance <= hi -> tolerance < Rabs a -> reduced a b c d q r ->
  0 <= q -> (q <> 0 \/ r <> 0) -> r ^ 2 <= q ^ 3 + tolerance ->
  solve_cubic a b c d lo hi = Some values -> In v values ->
  exists x, snapped lo hi x v /\ Rabs (cubic_at a b c d x) <= 2 * Rabs a * sqrt tolerance.
Proof.
  intros a b c d q r lo hi values v G A Rd Q NZ H E I. pose proof (tolerance_nonzero a A) as N.
  destruct (reduced_unique _ _ _ _ _ _ N Rd) as [EQ ER].
  unfold solve_cubic in E. apply approximately_0_false in A. rewrite A in E. injection E as <-.
  apply filter_in in I; [| exact G]. destruct I as (x & I & Sn). exists x. split; [exact Sn |].
  rewrite <- EQ, <- ER in I. rewrite (reduced_monic a b c d x N). rewrite <- EQ, <- ER.
  clear EQ ER Rd Sn. pose proof tolerance_pos as TP. pose proof epsilon_pos as EP.
  set (m := sqrt (q * q * q)).
  assert (0 <= q * q * q) as Q3 by (apply Rmult_le_pos; nra).
  assert (m * m = q * q * q) as MM by (apply sqrt_sqrt; exact Q3).
  assert (0 <= m) as M0 by apply sqrt_pos.
  assert (r * r <= m * m + tolerance) as H' by (rewrite MM; cbn in H; lra).
  assert (exists w, clamped_ratio r (q * q * q) = Some w /\ -1 <= w <= 1 /\
                    (r - w * m) * (r - w * m) <= tolerance) as (w & C & W & D).
  { unfold clamped_ratio, lt. destruct (Rlt_dec (q * q * q) 0); [lra |].
    destruct (Req_EM_T (q * q * q) 0) as [Z | Z].
    - assert (m = 0) as ->. { rewrite Z in MM. nra. }
      destruct (Req_EM_T r 0) as [R0 | R0].
      { exfalso. destruct NZ as [NZ | NZ]; [| contradiction]. apply NZ.
        apply Rmult_integral in Z as [Z | Z]; [apply Rmult_integral in Z as [Z | Z] |]; exact Z. }
      destruct (Rlt_dec 0 r); eexists; (split; [reflexivity |]); split; try lra; nra.
    - assert (0 < m) as MP. { destruct (Req_EM_T m 0) as [Y | Y]; [rewrite Y in MM; lra | lra]. }
      fold m. cbv zeta. assert (r = r / m * m) as RE by (field; lra).
      set (u := r / m) in *. clearbody u.
      destruct (Rlt_dec u (-1)); [| destruct (Rlt_dec 1 u)]; eexists; (split; [reflexivity |]).
      + split; [lra |]. nra.
      + split; [lra |]. nra.
      + split; [lra |]. rewrite RE. nra. }
  unfold monic_cubic in I. rewrite C in I.
  assert (le (r * r) (q * q * q + tolerance) = true) as LE by (apply le_true; rewrite <- MM; exact H').
  rewrite LE in I. cbn [real_values] in I. rewrite Rabs_R0 in I.
  assert (le 0 epsilon = true) as LE' by (apply le_true; lra). rewrite LE' in I.
  set (f := b / a / 3) in *.
  assert ((x + f) ^ 3 - 3 * q * (x + f) + 2 * (w * m) = 0) as Z.
  { unfold m. pose proof (three_factors q w (x + f) Q W) as F. cbv zeta in F. rewrite F.
    destruct I as [I | [I | [I | []]]]; injection I as <-; ring. }
  replace ((x + f) ^ 3 - 3 * q * (x + f) + 2 * r) with (2 * (r - w * m)) by lra.
  rewrite !Rabs_mult, (Rabs_right 2) by lra.
  assert (Rabs (r - w * m) <= sqrt tolerance) as B.
  { rewrite <- sqrt_Rsqr_abs. apply sqrt_le_1; [apply Rle_0_sqr | lra | exact D]. }
  pose proof (Rabs_pos a). nra.
Qed.

(** *** Examples *)

(** x^3 - x on [0, 1]: the roots 0 and 1 are found. *)
Example three_found : exists values, solve_cubic 1 0 (-1) 0 0 1 = Some values /\
  In 0 values /\ In 1 values.
Proof.
  pose proof tolerance_small as TS. pose proof tolerance_pos as TP.
  destruct (C136_complete 1 0 (-1) 0 (1 / 3) 0 0 1) as (values & E & H).
  - lra.
  - rewrite Rabs_R1. lra.
  - intros x. unfold cubic_at. field.
  - left. lra.
  - exists values. split; [exact E |]. split.
    + apply H with (x := 0); [unfold cubic_at; ring | left; lra].
    + apply H with (x := 1); [unfold cubic_at; ring | left; lra].
Qed.

(** x^3 - 1/8 on [0, 1] has one real root, 1/2. *)
Example one_found : exists values, solve_cubic 1 0 0 (- (1 / 8)) 0 1 = Some values /\ In (1 / 2) values.
Proof.
  pose proof tolerance_small as TS. pose proof tolerance_pos as TP.
  destruct (C136_complete 1 0 0 (- (1 / 8)) 0 (- (1 / 16)) 0 1) as (values & E & H).
  - lra.
  - rewrite Rabs_R1. lra.
  - intros x. unfold cubic_at. field.
  - right. cbn. lra.
  - exists values. split; [exact E |]. apply H with (x := 1 / 2); [unfold cubic_at; field | left; lra].
Qed.

(** (x - 1/2)^3 + 3/1000 (x - 1/2) has the root 1/2, which is lost. *)
Example lost : exists b c d, cubic_at 1 b c d (1 / 2) = 0 /\ solve_cubic 1 b c d 0 1 = Some [].
Proof.
  pose proof tolerance_small as TS. pose proof tolerance_pos as TP.
  exists (- (3 / 2)), (3 / 4 + 3 / 1000), (- (1 / 8) - 3 / 2000). split.
  - unfold cubic_at. field.
  - apply (C136_lost_refuted 1 _ _ _ (- (1 / 1000)) 0).
    + rewrite Rabs_R1. lra.
    + intros x. unfold cubic_at. field.
    + left. split; [lra |]. unfold tolerance. cbn. lra.
Qed.

Example double_met : Rabs (2 * 2 - 4 * 1 * 1) <= tolerance.
Proof. replace (2 * 2 - 4 * 1 * 1) with 0 by ring. rewrite Rabs_R0. left. exact tolerance_pos. Qed.

Print Assumptions C135_linear.
Print Assumptions C135_linear_degenerate.
Print Assumptions C135_quadratic.
Print Assumptions C135_quadratic_double.
Print Assumptions C136_complete.
Print Assumptions C136_sound.
Print Assumptions C136_three_exact.
Print Assumptions C136_lost_refuted.
Print Assumptions C136_residual.
