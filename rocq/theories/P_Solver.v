(** Proofs about the polynomial solver. *)
From Coq Require Import Reals List ZArith Bool Lra Psatz.
From Verif Require Import M_Segment P_Segment M_Solver S_Solver.
Import ListNotations.
Open Scope R_scope.

Lemma tolerance_pos : 0 < tolerance.
Proof. unfold tolerance. apply Rinv_0_lt_compat. apply pow_lt. lra. Qed.

Lemma tolerance_small : tolerance < 1 / 1000.
Proof. unfold tolerance. replace (1 / 1000) with (/ 1000) by field. apply Rinv_lt_contravar; lra. Qed.

Lemma epsilon_tolerance : epsilon < tolerance.
Proof. unfold epsilon, tolerance. apply Rinv_lt_contravar; lra. Qed.

Lemma approximately_true : forall v w, approximately v w = true <-> Rabs (v - w) <= tolerance.
Proof. intros. apply le_true. Qed.
Lemma approximately_false : forall v w, approximately v w = false <-> tolerance < Rabs (v - w).
Proof. intros. apply le_false. Qed.

Lemma approximately_0_true : forall v, approximately v 0 = true <-> Rabs v <= tolerance.
Proof. intros. rewrite approximately_true, Rminus_0_r. tauto. Qed.
Lemma approximately_0_false : forall v, approximately v 0 = false <-> tolerance < Rabs v.
Proof. intros. rewrite approximately_false, Rminus_0_r. tauto. Qed.

Lemma tolerance_nonzero : forall a, tolerance < Rabs a -> a <> 0.
Proof. intros a H ->. rewrite Rabs_R0 in H. pose proof tolerance_pos. lra. Qed.

(** *** Ranges *)

Lemma in_range_snapped : forall lo hi v w, lo + tolerance <= hi ->
  (in_range (Some v) lo hi = Some w <-> snapped lo hi v w).
Proof.
  intros lo hi v w G. unfold in_range, snapped. pose proof tolerance_pos as P. unfold le.
  destruct (Rle_dec lo v), (Rle_dec v hi); cbn [andb].
  - split; [intros H; injection H as <-; left; lra |].
    intros [[_ ->] | [H | H]]; [reflexivity | lra | lra].
  - destruct (Rle_dec (Rabs (v - hi)) tolerance) as [H | H].
    + rewrite Rabs_right in H by lra. split; [intros E; injection E as <-; right; left; lra |].
      intros [K | [[_ ->] | K]]; [lra | reflexivity | lra].
    + rewrite Rabs_right in H by lra.
      destruct (Rle_dec (Rabs (v - lo)) tolerance) as [K | K]; rewrite Rabs_right in K by lra; [lra |].
      split; [discriminate |]. lra.
  - destruct (Rle_dec (Rabs (v - hi)) tolerance) as [H | H];
      rewrite Rabs_left in H by lra; [lra |].
    destruct (Rle_dec (Rabs (v - lo)) tolerance) as [K | K]; rewrite Rabs_left in K by lra.
    + split; [intros E; injection E as <-; right; right; lra |].
      intros [J | [J | [_ ->]]]; [lra | lra | reflexivity].
    + split; [discriminate |]. lra.
  - lra.
Qed.

Lemma filter_in : forall values lo hi w, lo + tolerance <= hi ->
  (In w (filter_by_range values lo hi) <-> exists v, In (Some v) values /\ snapped lo hi v w).
Proof.
  intros values lo hi w G. induction values as [| v values IH].
  - cbn. split; [tauto | intros (v & [] & _)].
  - cbn [filter_by_range]. destruct v as [v |].
    + destruct (in_range (Some v) lo hi) as [u |] eqn:E.
      * cbn [In]. rewrite IH. split.
        -- intros [<- | (v' & I & S)]; [exists v; split; [now left |] | exists v'; split; [now right | exact S]].
           now apply in_range_snapped.
        -- intros (v' & [Q | I] & S); [injection Q as <-; left | right; eauto].
           apply in_range_snapped in S; [| exact G]. congruence.
      * rewrite IH. split; intros (v' & I & S); exists v'; (split; [| exact S]).
        -- now right.
        -- destruct I as [Q | I]; [| exact I]. injection Q as <-. exfalso.
           apply in_range_snapped in S; [| exact G]. congruence.
    + cbn [in_range]. rewrite IH. split; intros (v' & I & S); exists v'; (split; [| exact S]).
      * now right.
      * destruct I as [Q | I]; [discriminate | exact I].
Qed.

(** *** Quadratic equations *)

Lemma quadratic_roots : forall a b c x, a <> 0 -> 0 <= b * b - 4 * a * c ->
  (quadratic_at a b c x = 0 <->
   x = (- b - sqrt (b * b - 4 * a * c)) / (2 * a) \/
   x = (- b + sqrt (b * b - 4 * a * c)) / (2 * a)).
Proof.
  intros a b c x N D. set (d := sqrt (b * b - 4 * a * c)).
  assert (d * d = b * b - 4 * a * c) as DD by (apply sqrt_sqrt; exact D).
  clearbody d.
  assert (4 * a * quadratic_at a b c x = (2 * a * x + b - d) * (2 * a * x + b + d)) as F.
  { unfold quadratic_at. transitivity ((2 * a * x + b) * (2 * a * x + b) - (b * b - 4 * a * c)); [ring |].
    rewrite <- DD. ring. }
  split.
  - intros H. rewrite H, Rmult_0_r in F. symmetry in F. apply Rmult_integral in F.
    destruct F as [F | F]; [right | left]; (apply Rmult_eq_reg_l with (2 * a); [| intros Z; apply N; lra]).
    + replace (2 * a * ((- b + d) / (2 * a))) with (- b + d) by (field; exact N). lra.
    + replace (2 * a * ((- b - d) / (2 * a))) with (- b - d) by (field; exact N). lra.
  - intros [-> | ->]; (apply Rmult_eq_reg_l with (4 * a); [| intros Z; apply N; lra]); rewrite F, Rmult_0_r; field; exact N.
Qed.

Lemma quadratic_no_root : forall a b c x, b * b - 4 * a * c < 0 -> quadratic_at a b c x <> 0.
Proof.
  intros a b c x D H. unfold quadratic_at in H.
  assert ((2 * a * x + b) * (2 * a * x + b) = b * b - 4 * a * c + 4 * a * (a * x ^ 2 + b * x + c)) as E by ring.
  rewrite H in E. pose proof (Rle_0_sqr (2 * a * x + b)) as P. unfold Rsqr in P. lra.
Qed.

Lemma solve_quadratic_exact : forall a b c lo hi,
  lo + tolerance <= hi -> tolerance < Rabs a -> tolerance < Rabs (b * b - 4 * a * c) ->
  exists values, solve_quadratic a b c lo hi = Some values /\
    forall v, In v values <-> exists x, quadratic_at a b c x = 0 /\ snapped lo hi x v.
Proof.
  intros a b c lo hi G A D. unfold solve_quadratic.
  pose proof (tolerance_nonzero a A) as N.
  apply approximately_0_false in A. rewrite A.
  pose proof D as D'. apply approximately_0_false in D'. rewrite D'.
  eexists. split; [reflexivity |]. intros v. rewrite filter_in by exact G.
  unfold lt. destruct (Rlt_dec (b * b - 4 * a * c) 0) as [L | L].
  - split; [intros (u & [] & _) |]. intros (u & H & _). now apply quadratic_no_root in H.
  - assert (0 <= b * b - 4 * a * c) as P by lra. split.
    + intros (u & I & S). exists u. split; [| exact S]. apply quadratic_roots; [exact N | exact P |].
      destruct I as [I | [I | []]]; injection I as <-; tauto.
    + intros (u & H & S). exists u. split; [| exact S].
      apply quadratic_roots in H; [| exact N | exact P]. destruct H as [-> | ->]; cbn; tauto.
Qed.

(** *** The reduced cubic *)

Lemma reduced_monic : forall a b c d x, a <> 0 ->
  cubic_at a b c d x =
  a * ((x + b / a / 3) ^ 3 - 3 * q_of (b / a) (c / a) * (x + b / a / 3)
       + 2 * r_of (b / a) (c / a) (d / a)).
Proof. intros. unfold cubic_at, q_of, r_of. field. exact H. Qed.

Lemma reduced_unique : forall a b c d q r, a <> 0 -> reduced a b c d q r ->
  q = q_of (b / a) (c / a) /\ r = r_of (b / a) (c / a) (d / a).
Proof.
  intros a b c d q r N H.
  pose proof (H (- b / (3 * a))) as H0. pose proof (H (1 - b / (3 * a))) as H1.
  rewrite reduced_monic in H0, H1 by exact N.
  set (Q := q_of (b / a) (c / a)) in *. set (S := r_of (b / a) (c / a) (d / a)) in *.
  replace (- b / (3 * a) + b / a / 3) with 0 in H0 by (field; exact N).
  replace (- b / (3 * a) + b / (3 * a)) with 0 in H0 by (field; exact N).
  replace (1 - b / (3 * a) + b / a / 3) with 1 in H1 by (field; exact N).
  replace (1 - b / (3 * a) + b / (3 * a)) with 1 in H1 by (field; exact N).
  apply Rmult_eq_reg_l in H0; [| exact N]. apply Rmult_eq_reg_l in H1; [| exact N]. lra.
Qed.

Lemma reduced_exists : forall a b c d, a <> 0 ->
  reduced a b c d (q_of (b / a) (c / a)) (r_of (b / a) (c / a) (d / a)).
Proof.
  intros a b c d N x. rewrite reduced_monic by exact N.
  replace (b / (3 * a)) with (b / a / 3) by (field; exact N). reflexivity.
Qed.

(** Three real roots *)
Lemma cos_triple : forall u, cos (3 * u) = 4 * cos u ^ 3 - 3 * cos u.
Proof.
  intros u. replace (3 * u) with (2 * u + u) by ring. rewrite cos_plus, cos_2a, sin_2a.
  pose proof (sin2_cos2 u) as P. unfold Rsqr in P.
  transitivity (cos u ^ 3 - 3 * cos u * (sin u * sin u)); [ring |].
  assert (sin u * sin u = 1 - cos u * cos u) as -> by lra. ring.
Qed.

Lemma thirds : forall t, let c0 := cos (t / 3) in
  let c1 := cos ((t + 2 * PI) / 3) in let c2 := cos ((t - 2 * PI) / 3) in
  c0 + c1 + c2 = 0 /\ c0 * c1 + c0 * c2 + c1 * c2 = - (3 / 4) /\ 4 * (c0 * c1 * c2) = cos t.
Proof.
  intros t c0 c1 c2.
  set (u := t / 3). set (c := cos u). set (s := sin u). set (k := sqrt 3).
  assert (k * k = 3) as K by (apply sqrt_sqrt; lra).
  assert (s * s = 1 - c * c) as SC
    by (pose proof (sin2_cos2 u) as P; unfold Rsqr in P; fold c s in P; lra).
  assert (c0 = c) as -> by reflexivity.
  assert (c1 = - (1 / 2) * c - k / 2 * s) as ->.
  { unfold c1. replace ((t + 2 * PI) / 3) with (u + 2 * (PI / 3)) by (unfold u; field).
    rewrite cos_plus, cos_2PI3, sin_2PI3. fold c s k. field. }
  assert (c2 = - (1 / 2) * c + k / 2 * s) as ->.
  { unfold c2. replace ((t - 2 * PI) / 3) with (u - 2 * (PI / 3)) by (unfold u; field).
    rewrite cos_minus, cos_2PI3, sin_2PI3. fold c s k. field. }
  assert (cos t = 4 * c ^ 3 - 3 * c) as ->
    by (replace t with (3 * u) by (unfold u; field); apply cos_triple).
  clearbody c s k. repeat split.
  - field.
  - transitivity (- (3 / 4) * (c * c) - (k * k) / 4 * (s * s)); [field | rewrite K, SC; field].
  - transitivity (c * (c * c) - (k * k) * c * (s * s)); [field | rewrite K, SC; field].
Qed.

Lemma sqrt_cube : forall q, 0 <= q -> sqrt (q * q * q) = q * sqrt q.
Proof. intros q H. rewrite sqrt_mult by nra. rewrite sqrt_square by exact H. reflexivity. Qed.

Lemma three_factors : forall q v y, 0 <= q -> -1 <= v <= 1 ->
  let t := acos v in
  y ^ 3 - 3 * q * y + 2 * (v * sqrt (q * q * q))
  = (y - -2 * sqrt q * cos (t / 3)) * (y - -2 * sqrt q * cos ((t + 2 * PI) / 3))
    * (y - -2 * sqrt q * cos ((t - 2 * PI) / 3)).
Proof.
  intros q v y Q V t. destruct (thirds t) as (S1 & S2 & S3).
  unfold t in S3. rewrite cos_acos in S3 by exact V. fold t in S3.
  set (c0 := cos (t / 3)) in *. set (c1 := cos ((t + 2 * PI) / 3)) in *.
  set (c2 := cos ((t - 2 * PI) / 3)) in *.
  rewrite sqrt_cube by exact Q.
  assert (sqrt q * sqrt q = q) as M by (apply sqrt_sqrt; exact Q).
  set (m := sqrt q) in *. clearbody c0 c1 c2 m. subst q v.
  transitivity (y ^ 3 + 2 * m * (c0 + c1 + c2) * y ^ 2
                + 4 * (m * m) * (c0 * c1 + c0 * c2 + c1 * c2) * y
                + 2 * m * (m * m) * (4 * (c0 * c1 * c2))); [rewrite S1, S2; field | ring].
Qed.

Lemma ratio_three : forall q r, 0 < q -> r * r <= q * q * q ->
  exists v, clamped_ratio r (q * q * q) = Some v /\ -1 <= v <= 1 /\ r = v * sqrt (q * q * q).
Proof.
  intros q r Q H. assert (0 < q * q * q) as P by (apply Rmult_lt_0_compat; nra).
  assert (0 < sqrt (q * q * q)) as S by (now apply sqrt_lt_R0).
  assert (sqrt (q * q * q) * sqrt (q * q * q) = q * q * q) as SS by (apply sqrt_sqrt; lra).
  set (m := sqrt (q * q * q)) in *.
  assert (-1 <= r / m <= 1) as B.
  { assert (r = r / m * m) as E by (field; lra). set (v := r / m) in *. clearbody v m.
    rewrite <- SS in H. rewrite E in H.
    assert (v * v <= 1) as VV.
    { apply Rmult_le_reg_r with (m * m); [nra |]. lra. }
    split; nra. }
  exists (r / m). split; [| split; [exact B |]].
  - unfold clamped_ratio, lt. fold m.
    destruct (Rlt_dec (q * q * q) 0); [lra |].
    destruct (Req_EM_T (q * q * q) 0); [lra |]. cbv zeta.
    destruct (Rlt_dec (r / m) (-1)); [lra |]. destruct (Rlt_dec 1 (r / m)); [lra | reflexivity].
  - field. lra.
Qed.

(** One real root *)
Lemma cbrt_cube : forall v, 0 < v -> 0 < cbrt v /\ cbrt v * cbrt v * cbrt v = v.
Proof.
  intros v H. unfold cbrt, lt. destruct (Rlt_dec 0 v); [| lra]. split.
  - unfold Rpower. apply exp_pos.
  - rewrite <- !Rpower_plus. replace (/ 3 + / 3 + / 3) with 1 by field. now apply Rpower_1.
Qed.

Definition first_part (q r : R) : R :=
  let real_solution := - cbrt (Rabs r + sqrt (r * r - q * q * q)) in
  if lt r 0 then -1 * real_solution else real_solution.

Lemma first_part_cube : forall q r, q * q * q + tolerance < r * r ->
  let A := first_part q r in
  tolerance < Rabs A /\ (A * A * A) * (A * A * A) + 2 * r * (A * A * A) + q * q * q = 0 /\
  A * A * A + r <> 0.
Proof.
  intros q r H A. pose proof tolerance_pos as TP. pose proof tolerance_small as TS.
  set (D := sqrt (r * r - q * q * q)).
  assert (D * D = r * r - q * q * q) as DD by (apply sqrt_sqrt; lra).
  assert (0 < D) as DP by (apply sqrt_lt_R0; lra).
  assert (0 < Rabs r + D) as W by (pose proof (Rabs_pos r); lra).
  destruct (cbrt_cube _ W) as [C CC].
  assert (tolerance < cbrt (Rabs r + D)) as Big.
  { destruct (Rle_dec (cbrt (Rabs r + D)) tolerance) as [L | L]; [exfalso | lra].
    set (w := cbrt (Rabs r + D)) in *. pose proof (Rabs_pos r).
    assert (w * w <= tolerance) by nra. assert (w * w * w <= tolerance) by nra.
    assert (D <= tolerance) by lra. nra. }
  unfold A, first_part. fold D. set (w := cbrt (Rabs r + D)) in *. clearbody w.
  unfold lt. destruct (Rlt_dec r 0) as [N | N].
  - rewrite Rabs_left in CC by lra.
    replace (-1 * - w) with w by ring. rewrite (Rabs_right w) by lra.
    split; [exact Big |]. rewrite CC. split; [nra | lra].
  - rewrite (Rabs_right r) in CC by lra. rewrite Rabs_Ropp, (Rabs_right w) by lra.
    split; [exact Big |]. replace (- w * - w * - w) with (- (w * w * w)) by ring. rewrite CC.
    split; [nra | lra].
Qed.

Lemma one_factor : forall q r y, q * q * q + tolerance < r * r ->
  let A := first_part q r in let B := q / A in
  A - B <> 0 /\
  y ^ 3 - 3 * q * y + 2 * r
  = (y - (A + B)) * ((y - - (1 / 2) * (A + B)) ^ 2 + (1 / 2 * sqrt 3 * (A - B)) ^ 2).
Proof.
  intros q r y H A B. destruct (first_part_cube q r H) as (Big & E & N). fold A in Big, E, N.
  pose proof (tolerance_nonzero A Big) as AN.
  assert (A * B = q) as AB by (unfold B; field; exact AN).
  assert (A * A * A + B * B * B = - 2 * r) as S.
  { apply Rmult_eq_reg_l with (A * A * A); [| repeat apply Rmult_integral_contrapositive_currified; exact AN].
    transitivity ((A * A * A) * (A * A * A) + (A * B) * (A * B) * (A * B)); [ring |].
    rewrite AB. lra. }
  split.
  - intros Z. assert (B = A) as BA by lra. rewrite BA in S. apply N. lra.
  - assert (sqrt 3 * sqrt 3 = 3) as K by (apply sqrt_sqrt; lra).
    set (k := sqrt 3) in *. clearbody B k A. clear - K S AB.
    assert (r = - (A * A * A + B * B * B) / 2) as -> by lra. rewrite <- AB.
    transitivity ((y - (A + B)) * ((y - - (1 / 2) * (A + B)) ^ 2 + 1 / 4 * (k * k) * (A - B) ^ 2));
      [rewrite K; field | field].
Qed.

(** *** Cubic equations *)

Lemma product_zero : forall a b, a <> 0 -> (a * b = 0 <-> b = 0).
Proof. intros a b N. split; intros H; [now apply Rmult_integral in H as [H | H] | rewrite H; ring]. Qed.

Lemma root_shift : forall a b c d x q r, a <> 0 -> q = q_of (b / a) (c / a) ->
  r = r_of (b / a) (c / a) (d / a) ->
  (cubic_at a b c d x = 0 <-> (x + b / a / 3) ^ 3 - 3 * q * (x + b / a / 3) + 2 * r = 0).
Proof. intros a b c d x q r N -> ->. rewrite reduced_monic by exact N. now apply product_zero. Qed.

Lemma three_values : forall a b c d x, a <> 0 ->
  let q := q_of (b / a) (c / a) in let r := r_of (b / a) (c / a) (d / a) in
  0 < q -> r * r <= q * q * q ->
  (In (Some x) (real_values (monic_cubic (b / a) q r)) <-> cubic_at a b c d x = 0).
Proof.
  intros a b c d x N q r Q H. rewrite (root_shift a b c d x q r N eq_refl eq_refl).
  unfold monic_cubic. pose proof tolerance_pos as TP.
  assert (le (r * r) (q * q * q + tolerance) = true) as -> by (apply le_true; lra).
  destruct (ratio_three q r Q H) as (v & -> & V & E).
  pose proof epsilon_pos.
  cbn [real_values]. rewrite !Rabs_R0.
  assert (le 0 epsilon = true) as -> by (apply le_true; lra).
  set (f := b / a / 3) in *. clearbody q r. rewrite E.
  pose proof (three_factors q v (x + f) (Rlt_le _ _ Q) V) as F. cbv zeta in F. rewrite F. clear F.
  set (y0 := -2 * sqrt q * cos (acos v / 3)). set (y1 := -2 * sqrt q * cos ((acos v + 2 * PI) / 3)).
  set (y2 := -2 * sqrt q * cos ((acos v - 2 * PI) / 3)). clearbody y0 y1 y2.
  split.
  - intros [I | [I | [I | []]]]; injection I as <-; ring.
  - intros Z. apply Rmult_integral in Z as [Z | Z]; [apply Rmult_integral in Z as [Z | Z] |];
      cbn [In]; [left | right; left | right; right; left]; f_equal; lra.
Qed.

Lemma one_value : forall a b c d x, a <> 0 ->
  let q := q_of (b / a) (c / a) in let r := r_of (b / a) (c / a) (d / a) in
  q * q * q + tolerance < r * r ->
  (cubic_at a b c d x = 0 -> In (Some x) (real_values (monic_cubic (b / a) q r))) /\
  (In (Some x) (real_values (monic_cubic (b / a) q r)) ->
   cubic_at a b c d x = 0 \/
   exists i, 0 < Rabs i <= tolerance /\ complex_pair a b c d x i) /\
  ~ In None (real_values (monic_cubic (b / a) q r)).
Proof.
  intros a b c d x N q r H.
  destruct (first_part_cube q r H) as (Big & _ & _).
  pose proof (fun y => one_factor q r y H) as F. cbv zeta in F.
  unfold monic_cubic. cbv zeta. fold (first_part q r).
  assert (le (r * r) (q * q * q + tolerance) = false) as -> by (apply le_false; lra).
  set (A := first_part q r) in *.
  assert (approximately A 0 = false) as -> by now apply approximately_0_false.
  set (B := q / A) in *. set (im := 1 / 2 * sqrt 3 * (A - B)) in *.
  assert (im <> 0) as NI.
  { destruct (F 0) as [D _]. unfold im. apply Rmult_integral_contrapositive_currified; [| exact D].
    apply Rmult_integral_contrapositive_currified; [lra |]. apply Rgt_not_eq. apply sqrt_lt_R0. lra. }
  pose proof (root_shift a b c d x q r N eq_refl eq_refl) as RS.
  set (f := b / a / 3) in *.
  assert (cubic_at a b c d x = 0 <-> x = A + B - f) as Root.
  { rewrite RS. destruct (F (x + f)) as [_ ->]. split.
    - intros Z. apply Rmult_integral in Z as [Z | Z]; [lra |]. exfalso.
      pose proof (Rsqr_pos_lt im NI) as P. unfold Rsqr in P.
      pose proof (pow2_ge_0 (x + f - - (1 / 2) * (A + B))). assert (im ^ 2 = im * im) by ring. lra.
    - intros ->. ring. }
  assert (complex_pair a b c d (- (1 / 2) * (A + B) - f) im) as Pair.
  { exists (A + B - f). intros X. rewrite reduced_monic by exact N. fold q r f.
    destruct (F (X + f)) as [_ ->]. ring. }
  pose proof epsilon_pos as EP. pose proof epsilon_tolerance as ET.
  clearbody im f.
  destruct (approximately im 0) eqn:AI; cbn [real_values]; rewrite ?Rabs_R0;
    (assert (le 0 epsilon = true) as -> by (apply le_true; lra)).
  - apply approximately_0_true in AI. split; [| split].
    + intros Z. apply Root in Z. subst x. now left.
    + intros [I | [I | []]]; injection I as <-; [left; now apply Root |].
      right. exists im. split; [| exact Pair]. split; [now apply Rabs_pos_lt | exact AI].
    + intros [I | [I | []]]; discriminate.
  - apply approximately_0_false in AI. rewrite Rabs_Ropp.
    assert (le (Rabs im) epsilon = false) as -> by (apply le_false; lra). split; [| split].
    + intros Z. apply Root in Z. subst x. now left.
    + intros [I | []]; injection I as <-. left. now apply Root.
    + intros [I | []]; discriminate.
Qed.
