(** Proofs about segments. *)
From Coq Require Import Reals List ZArith Bool Lra Psatz.
From Verif Require Import M_Segment S_Segment.
Import ListNotations.
Open Scope R_scope.

Lemma epsilon_pos : 0 < epsilon.
Proof. unfold epsilon. apply Rinv_0_lt_compat. apply pow_lt. lra. Qed.

Lemma le_true : forall a b, le a b = true <-> a <= b.
Proof. intros. unfold le. destruct (Rle_dec a b); split; intros; try lra; congruence. Qed.
Lemma le_false : forall a b, le a b = false <-> b < a.
Proof. intros. unfold le. destruct (Rle_dec a b); split; intros; try lra; congruence. Qed.
Lemma lt_true : forall a b, lt a b = true <-> a < b.
Proof. intros. unfold lt. destruct (Rlt_dec a b); split; intros; try lra; congruence. Qed.
Lemma lt_false : forall a b, lt a b = false <-> b <= a.
Proof. intros. unfold lt. destruct (Rlt_dec a b); split; intros; try lra; congruence. Qed.

Lemma in_bounds_true : forall l p, is_in_bounds l p = true <->
  Rmin (x (start_point l)) (x (end_point l)) <= x p <= Rmax (x (start_point l)) (x (end_point l))
  /\ Rmin (y (start_point l)) (y (end_point l)) <= y p <= Rmax (y (start_point l)) (y (end_point l)).
Proof.
  intros. unfold is_in_bounds. rewrite !andb_true_iff, !le_true. tauto.
Qed.

Lemma range_between : forall a b t, 0 <= t <= 1 ->
  Rmin a b <= a + t * (b - a) <= Rmax a b.
Proof.
  intros a b t H. unfold Rmin, Rmax. destruct (Rle_dec a b); nra.
Qed.

(** The sign of the position is the opposite of the sign of the turn. *)
Inductive Sign (d : R) : Z -> Prop :=
| sign_neg : d < 0 -> Sign d 1
| sign_zero : d = 0 -> Sign d 0
| sign_pos : 0 < d -> Sign d (-1).

Lemma position_sign : forall l p,
  visible (start_point l) (end_point l) p ->
  Sign (turn (start_point l) (end_point l) p) (relative_point_position l p).
Proof.
  intros l p V. unfold relative_point_position.
  set (d := turn (start_point l) (end_point l) p) in *.
  replace (vector_y l * (x p - x (end_point l)) - vector_x l * (y p - y (end_point l))) with (- d)
    by (unfold d, turn, vector_x, vector_y; ring).
  pose proof epsilon_pos as E.
  unfold visible in V. fold d in V. clearbody d.
  unfold lt. destruct V as [V | V].
  - subst d. destruct (Rlt_dec epsilon (- 0)); [lra |]. destruct (Rlt_dec (- 0) (- epsilon)); [lra |].
    cbn. now apply sign_zero.
  - unfold Rabs in V. destruct (Rcase_abs d).
    + destruct (Rlt_dec epsilon (- d)); [| lra]. destruct (Rlt_dec (- d) (- epsilon)); [lra |].
      cbn. now apply sign_neg.
    + destruct (Rlt_dec epsilon (- d)); [lra |]. destruct (Rlt_dec (- d) (- epsilon)); [| lra].
      cbn. apply sign_pos. lra.
Qed.

Lemma sign_zero_iff : forall d k, Sign d k -> (k = 0%Z <-> d = 0).
Proof. intros d k S. inversion S; split; intros; try lra; try congruence; reflexivity. Qed.

(** Signs differ exactly when zero lies between the values, one of them excepted from being zero *)
Lemma sign_differ : forall d e k j, Sign d k -> Sign e j ->
  (k <> j <-> (d <= 0 <= e \/ e <= 0 <= d) /\ d <> e).
Proof.
  intros d e k j S T. inversion S; inversion T; split; intros; try lra; try congruence.
  all: try (split; [lra | lra]).
  all: try (destruct H3; lra).
Qed.

Lemma between_bounds : forall l p,
  between (start_point l) (end_point l) (x p, y p) -> is_in_bounds l p = true.
Proof.
  intros l p (t & T & E). apply in_bounds_true. unfold at_fraction in E.
  injection E as -> ->. split; apply range_between; assumption.
Qed.

Lemma flat_at : forall a b p, turn a b p = 0 -> (x a <> x b \/ y a <> y b) ->
  exists k, (x p, y p) = at_fraction a b k.
Proof.
  intros a b p T [N | N]; unfold turn in T.
  - exists ((x p - x a) / (x b - x a)). unfold at_fraction. f_equal.
    + field. lra.
    + apply Rmult_eq_reg_l with (x b - x a); [| lra].
      transitivity ((x b - x a) * y a + (x p - x a) * (y b - y a)); [lra |]. field. lra.
  - exists ((y p - y a) / (y b - y a)). unfold at_fraction. f_equal.
    + apply Rmult_eq_reg_l with (y b - y a); [| lra].
      transitivity ((y b - y a) * x a + (y p - y a) * (x b - x a)); [lra |]. field. lra.
    + field. lra.
Qed.

Lemma bounds_between : forall l p,
  turn (start_point l) (end_point l) p = 0 -> is_in_bounds l p = true ->
  between (start_point l) (end_point l) (x p, y p).
Proof.
  intros [a b] p T B. cbn [start_point end_point] in *. apply in_bounds_true in B.
  cbn [start_point end_point] in B. destruct B as [BX BY].
  destruct (Req_EM_T (x a) (x b)) as [EX | NX].
  - destruct (Req_EM_T (y a) (y b)) as [EY | NY].
    + exists 0. split; [lra |]. unfold at_fraction. rewrite <- EX in *. rewrite <- EY in *.
      unfold Rmin, Rmax in *. destruct (Rle_dec (x a) (x a)), (Rle_dec (y a) (y a)); f_equal; lra.
    + destruct (flat_at a b p T (or_intror NY)) as [k K]. exists k. split; [| exact K].
      unfold at_fraction in K. injection K as KX KY.
      unfold Rmin, Rmax in BY. destruct (Rle_dec (y a) (y b)); nra.
  - destruct (flat_at a b p T (or_introl NX)) as [k K]. exists k. split; [| exact K].
    unfold at_fraction in K. injection K as KX KY.
    unfold Rmin, Rmax in BX. destruct (Rle_dec (x a) (x b)); nra.
Qed.

(** The four turns of two segments *)
Lemma turns : forall a b c d,
  turn c d a - turn c d b = slant a b c d /\ turn a b d - turn a b c = slant a b c d.
Proof. intros. unfold turn, slant. split; ring. Qed.

(** Crossing away from the flat case *)
Lemma meet_slanted : forall a b c d, slant a b c d <> 0 ->
  let D := slant a b c d in
  meet a b c d <-> (0 <= turn c d a / D <= 1 /\ 0 <= - turn a b c / D <= 1).
Proof.
  intros a b c d N D. split.
  - intros (p & (t & T & E) & (u & U & F)). subst p. unfold at_fraction in F. injection F as FX FY.
    assert (turn c d a = t * D) as ->.
    { unfold D, turn, slant.
      assert (x a = x c + u * (x d - x c) - t * (x b - x a)) as HX by lra.
      assert (y a = y c + u * (y d - y c) - t * (y b - y a)) as HY by lra.
      assert (x a - x c = u * (x d - x c) - t * (x b - x a)) as HX' by lra.
      assert (y a - y c = u * (y d - y c) - t * (y b - y a)) as HY' by lra.
      rewrite HX', HY'. ring. }
    assert (- turn a b c = u * D) as ->.
    { unfold D, turn, slant.
      assert (x c - x a = t * (x b - x a) - u * (x d - x c)) as HX' by lra.
      assert (y c - y a = t * (y b - y a) - u * (y d - y c)) as HY' by lra.
      rewrite HX', HY'. ring. }
    fold D in N. split.
    + replace (t * D / D) with t by (field; exact N). exact T.
    + replace (u * D / D) with u by (field; exact N). exact U.
  - intros [T U]. exists (at_fraction a b (turn c d a / D)). split.
    + eexists. split; [exact T | reflexivity].
    + exists (- turn a b c / D). split; [exact U |].
      unfold at_fraction, D, turn, slant in *. f_equal; field; exact N.
Qed.

Lemma fraction_range : forall d e, d - e <> 0 ->
  (0 <= d / (d - e) <= 1 <-> (d <= 0 <= e \/ e <= 0 <= d)).
Proof.
  intros d e N. split.
  - intros H.
    assert (d = (d / (d - e)) * (d - e)) as E by (field; lra).
    set (t := d / (d - e)) in *. clearbody t.
    destruct (Rle_dec 0 (d - e)); [right | left]; nra.
  - intros H. destruct (Rlt_dec 0 (d - e)) as [P | P].
    + split; [apply Rmult_le_pos; [lra | left; apply Rinv_0_lt_compat; lra] |].
      apply Rmult_le_reg_r with (d - e); [lra |]. unfold Rdiv. rewrite Rmult_assoc, Rinv_l; lra.
    + replace (d / (d - e)) with ((- d) / (e - d)) by (field; lra).
      split; [apply Rmult_le_pos; [lra | left; apply Rinv_0_lt_compat; lra] |].
      apply Rmult_le_reg_r with (e - d); [lra |]. unfold Rdiv. rewrite Rmult_assoc, Rinv_l; lra.
Qed.

Lemma mix_below : forall k j u, 0 <= u <= 1 -> k < 0 -> j < 0 -> k + u * (j - k) < 0.
Proof. intros k j u U K J. destruct (Rle_dec j k); nra. Qed.
Lemma mix_above : forall k j u, 0 <= u <= 1 -> 1 < k -> 1 < j -> 1 < k + u * (j - k).
Proof. intros k j u U K J. destruct (Rle_dec j k); nra. Qed.

(** Crossing in the flat case *)
Lemma meet_flat : forall l m,
  let a := start_point l in let b := end_point l in
  let c := start_point m in let d := end_point m in
  turn a b c = 0 -> turn a b d = 0 -> turn c d a = 0 -> turn c d b = 0 ->
  (meet a b c d <->
   is_in_bounds l c || is_in_bounds l d || is_in_bounds m a || is_in_bounds m b = true).
Proof.
  intros l m a b c d C D A B. rewrite !orb_true_iff. split.
  - intros (p & P & Q).
    destruct (Req_EM_T (x a) (x b)) as [EX | NX]; [destruct (Req_EM_T (y a) (y b)) as [EY | NY] |].
    { left. right. apply between_bounds. fold c d.
      destruct P as (t & T & E). destruct Q as (u & U & F). exists u. split; [exact U |].
      rewrite <- F, E. unfold at_fraction. rewrite EX, EY. f_equal; ring. }
    all: assert (exists k, (x c, y c) = at_fraction a b k) as [k K]
           by (apply flat_at; [exact C | tauto]);
         assert (exists j, (x d, y d) = at_fraction a b j) as [j J]
           by (apply flat_at; [exact D | tauto]).
    all: destruct P as (t & T & E); destruct Q as (u & U & F); subst p;
         unfold at_fraction in F, K, J; injection F as FX FY; injection K as KX KY;
         injection J as JX JY.
    all: assert (t = k + u * (j - k)) as TU.
    { rewrite KY, JY in FY. apply Rmult_eq_reg_r with (y b - y a); [nra | lra]. }
    2: { rewrite KX, JX in FX. apply Rmult_eq_reg_r with (x b - x a); [nra | lra]. }
    all: destruct (Rle_dec 0 k) as [K0 | K0];
         [destruct (Rle_dec k 1) as [K1 | K1];
          [left; left; left; apply between_bounds; fold a b; exists k; split;
             [lra | unfold at_fraction; now rewrite KX, KY] |] |];
         (destruct (Rle_dec 0 j) as [J0 | J0];
          [destruct (Rle_dec j 1) as [J1 | J1];
           [left; left; right; apply between_bounds; fold a b; exists j; split;
              [lra | unfold at_fraction; now rewrite JX, JY] |] |]).
    all: try (exfalso; pose proof (mix_below k j u U); pose proof (mix_above k j u U); lra).
    all: left; right; apply between_bounds; fold c d; exists (- k / (j - k)); split;
         [| unfold at_fraction; rewrite KX, KY, JX, JY; f_equal; field; lra].
    all: try (replace (- k / (j - k)) with (k / (k - j)) by (field; lra)).
    all: replace (k / (k - j)) with (k / (k - j)) by reflexivity.
    all: apply fraction_range; lra.
  - intros [[[H | H] | H] | H].
    + exists (x c, y c). split; [now apply bounds_between |].
      exists 0. split; [lra |]. unfold at_fraction. f_equal; ring.
    + exists (x d, y d). split; [now apply bounds_between |].
      exists 1. split; [lra |]. unfold at_fraction. f_equal; ring.
    + exists (x a, y a). split; [| now apply bounds_between].
      exists 0. split; [lra |]. unfold at_fraction. f_equal; ring.
    + exists (x b, y b). split; [| now apply bounds_between].
      exists 1. split; [lra |]. unfold at_fraction. f_equal; ring.
Qed.

Theorem intersect_meet : forall l m,
  all_visible (start_point l) (end_point l) (start_point m) (end_point m) ->
  (is_intersect l m = true <->
   meet (start_point l) (end_point l) (start_point m) (end_point m)).
Proof.
  intros l m (VC & VD & VA & VB). unfold is_intersect.
  set (a := start_point l) in *. set (b := end_point l) in *.
  set (c := start_point m) in *. set (d := end_point m) in *.
  pose proof (position_sign l c VC) as SC. pose proof (position_sign l d VD) as SD.
  pose proof (position_sign m a VA) as SA. pose proof (position_sign m b VB) as SB.
  fold a b in SC, SD. fold c d in SA, SB.
  set (kc := relative_point_position l c) in *. set (kd := relative_point_position l d) in *.
  set (ka := relative_point_position m a) in *. set (kb := relative_point_position m b) in *.
  clearbody kc kd ka kb.
  destruct (turns a b c d) as [T1 T2].
  destruct (Z.eqb kc 0 && Z.eqb kd 0 && Z.eqb ka 0 && Z.eqb kb 0)%bool eqn:Z0.
  - rewrite !andb_true_iff, !Z.eqb_eq in Z0. destruct Z0 as [[[C D] A] B].
    apply (sign_zero_iff _ _ SC) in C. apply (sign_zero_iff _ _ SD) in D.
    apply (sign_zero_iff _ _ SA) in A. apply (sign_zero_iff _ _ SB) in B.
    symmetry. now apply meet_flat.
  - rewrite andb_true_iff, !negb_true_iff, !Z.eqb_neq.
    rewrite (sign_differ _ _ _ _ SC SD), (sign_differ _ _ _ _ SA SB).
    destruct (Req_EM_T (slant a b c d) 0) as [S0 | S0].
    + split; [intros [[_ N] _]; lra |]. intros (p & (t & T & E) & (u & U & F)). exfalso.
      subst p. unfold at_fraction in F. injection F as FX FY.
      assert (turn c d a = 0) as A.
      { assert (turn c d a = t * slant a b c d) as ->; [| rewrite S0; ring].
        unfold turn, slant.
        assert (x a - x c = u * (x d - x c) - t * (x b - x a)) as -> by lra.
        assert (y a - y c = u * (y d - y c) - t * (y b - y a)) as -> by lra. ring. }
      assert (turn a b c = 0) as C.
      { assert (turn a b c = - u * slant a b c d) as ->; [| rewrite S0; ring].
        unfold turn, slant.
        assert (x c - x a = t * (x b - x a) - u * (x d - x c)) as -> by lra.
        assert (y c - y a = t * (y b - y a) - u * (y d - y c)) as -> by lra. ring. }
      assert (turn c d b = 0) as B by lra. assert (turn a b d = 0) as D by lra.
      apply (sign_zero_iff _ _ SC) in C. apply (sign_zero_iff _ _ SD) in D.
      apply (sign_zero_iff _ _ SA) in A. apply (sign_zero_iff _ _ SB) in B.
      subst. discriminate Z0.
    + rewrite (meet_slanted a b c d S0). cbv zeta.
      rewrite <- T1 at 1 2. rewrite fraction_range by lra.
      replace (- turn a b c / slant a b c d) with (turn a b c / (turn a b c - turn a b d))
        by (rewrite <- T2; field; lra).
      rewrite fraction_range by lra. intuition lra.
Qed.
