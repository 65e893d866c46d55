(** Splines through evenly spaced points, and through uneven ones *)
From Coq Require Import Reals List ZArith Bool Lra Lia Psatz.
From Verif Require Import M_Segment S_Segment P_Segment P_Segment2 M_Solver M_Spline S_Spline P_Spline.
Import ListNotations.
Open Scope R_scope.

Lemma norm_pos : forall d, d <> zero -> 0 < norm d.
Proof.
  intros d N. unfold norm. apply sqrt_lt_R0.
  destruct (Req_EM_T (x d) 0) as [A | A]; [| nra].
  destruct (Req_EM_T (y d) 0) as [B | B]; [| nra].
  destruct (Req_EM_T (z d) 0) as [C | C]; [| nra].
  exfalso. apply N. apply point_eq; assumption.
Qed.

Lemma plus_differs : forall p d, d <> zero -> p <> plus p d.
Proof.
  intros p d N E. apply N. apply (f_equal x) in E as A. apply (f_equal y) in E as B.
  apply (f_equal z) in E as C. unfold plus in *. cbn [x y z] in *. apply point_eq; cbn; lra.
Qed.

(** A curve that is a straight line run through at constant speed *)
Definition straight (c : Curve) (u d : Point) : Prop :=
  ax c = 0 /\ bx c = 0 /\ ay c = 0 /\ by_ c = 0 /\ az c = 0 /\ bz c = 0 /\
  point (cx c) (cy c) (cz c) = d /\ point (dx c) (dy c) (dz c) = u.

Transparent curve_length.
Lemma straight_length : forall c u d, straight c u d -> curve_length c = norm d.
Proof.
  intros c u d (A & B & C & D & E & F & <- & _). unfold curve_length.
  assert (forall n, length_sum c (1 / 100) n = INR n * (1 / 100) * norm (point (cx c) (cy c) (cz c))) as H.
  { induction n as [| n IH]; [cbn; ring |]. cbn [length_sum]. rewrite IH, S_INR.
    assert (length_term c (INR n * (1 / 100)) = norm (point (cx c) (cy c) (cz c))) as ->; [| ring].
    unfold length_term, norm. cbn [x y z]. rewrite A, B, C, D, E, F. f_equal. ring. }
  rewrite H. replace (INR 100) with 100 by (cbn; ring). lra.
Qed.
Opaque curve_length.

Lemma straight_point : forall c u d t, straight c u d -> curve_point c t = plus u (times t d).
Proof.
  intros c u d t (A & B & C & D & E & F & <- & <-). unfold curve_point, plus, times.
  apply point_eq; cbn [x y z]; rewrite ?A, ?B, ?C, ?D, ?E, ?F; ring.
Qed.

Lemma straight_tangent : forall c u d t, straight c u d -> curve_tangent c t = d.
Proof.
  intros c u d t (A & B & C & D & E & F & <- & <-). unfold curve_tangent.
  apply point_eq; cbn [x y z]; rewrite ?A, ?B, ?C, ?D, ?E, ?F; ring.
Qed.

Fixpoint run (u d : Point) (curves : list Curve) : Prop :=
  match curves with
  | [] => True
  | c :: rest => straight c u d /\ run (plus u d) d rest
  end.

Lemma run_length : forall cs u d, run u d cs -> total cs = INR (List.length cs) * norm d.
Proof.
  unfold total. induction cs as [| c cs IH]; intros u d H.
  - cbn. ring.
  - destruct H as [S H]. cbn [map sum List.length]. rewrite (IH _ _ H), S_INR, (straight_length _ _ _ S).
    ring.
Qed.

Lemma run_walk : forall rest c u d s, d <> zero -> run u d (c :: rest) ->
  walk curve_point c rest s = plus u (times (s / norm d) d).
Proof.
  induction rest as [| e rest IH]; intros c u d s N [S H]; cbn [walk].
  - rewrite (straight_length _ _ _ S). now apply straight_point.
  - rewrite (straight_length _ _ _ S). destruct (Rlt_dec _ _); [now apply straight_point |].
    rewrite (IH e (plus u d) d _ N H). pose proof (norm_pos d N).
    apply point_eq; unfold plus, times; cbn [x y z]; field; lra.
Qed.

Lemma run_tangent : forall rest c u d s, run u d (c :: rest) -> walk curve_tangent c rest s = d.
Proof.
  induction rest as [| e rest IH]; intros c u d s [S H]; cbn [walk].
  - now apply (straight_tangent c u).
  - destruct (Rlt_dec _ _); [now apply (straight_tangent c u) |]. eapply IH. exact H.
Qed.

Ltac straighten := unfold straight, first_curve, last_curve, middle_curve,
  first_a, first_b, first_c, first_d, last_a, last_b, last_c, last_d,
  middle_a, middle_b, middle_c, middle_d, plus;
  cbn [x y z ax bx cx dx ay by_ cy dy az bz cz dz];
  repeat split; try (apply point_eq; cbn [x y z]); field.

Lemma later_run : forall n p d,
  run (plus p d) d (later_curves p (plus p d) (plus (plus p d) d) (evenly (plus (plus (plus p d) d) d) d n)).
Proof.
  induction n as [| n IH]; intros p d; cbn [evenly later_curves run].
  - split; [straighten | exact I].
  - split; [straighten |]. apply IH.
Qed.

Lemma curves_run : forall n p d, run p d (curves_of (evenly p d (S (S (S n))))).
Proof. intros n p d. cbn [evenly curves_of run]. split; [straighten |]. apply later_run. Qed.

Lemma evenly_thinned : forall n p d, d <> zero -> thinned (evenly p d n) (evenly p d n).
Proof.
  induction n as [| [| n] IH]; intros p d N.
  - constructor.
  - constructor.
  - change (thinned (p :: plus p d :: evenly (plus (plus p d) d) d n)
                    (p :: plus p d :: evenly (plus (plus p d) d) d n)).
    constructor; [now apply plus_differs |]. now apply (IH (plus p d) d).
Qed.

Lemma evenly_length : forall n p d, List.length (evenly p d n) = n.
Proof. induction n as [| n IH]; intros; cbn; [reflexivity |]. now rewrite IH. Qed.

(** Two steps of different sizes in one direction *)
Definition uneven (p d : Point) (k : R) : list Point := [p; plus p d; plus p (times (1 + k) d)].

Lemma uneven_thinned : forall p d k, d <> zero -> k <> 0 ->
  thinned (uneven p d k) (uneven p d k).
Proof.
  intros p d k N K. unfold uneven. constructor; [now apply plus_differs |]. constructor; [| constructor].
  intros E. apply N. apply (f_equal x) in E as A. apply (f_equal y) in E as B.
  apply (f_equal z) in E as C. unfold plus, times in *. cbn [x y z] in *.
  apply point_eq; cbn [x y z zero]; (apply Rmult_eq_reg_l with k; [lra | exact K]).
Qed.

Lemma uneven_point : forall p d k t,
  curve_point (first_curve p (plus p d) (plus p (times (1 + k) d))) t
  = plus p (times (t * ((k - 1) / 2 * t + (3 - k) / 2)) d).
Proof.
  intros. apply point_eq; unfold curve_point, first_curve, first_a, first_b, first_c, first_d, plus, times;
    cbn [x y z ax bx cx dx ay by_ cy dy az bz cz dz]; field.
Qed.

Lemma uneven_tangent : forall p d k t,
  curve_tangent (first_curve p (plus p d) (plus p (times (1 + k) d))) t
  = times ((k - 1) * t + (3 - k) / 2) d.
Proof.
  intros. apply point_eq; unfold curve_tangent, first_curve, first_a, first_b, first_c, first_d, plus, times;
    cbn [x y z ax bx cx dx ay by_ cy dy az bz cz dz]; field.
Qed.

(** The length of a straight curve along the x axis whose speed grows *)
Transparent curve_length.
Lemma growing_length : forall c, ax c = 0 -> 0 <= bx c -> 0 <= cx c ->
  ay c = 0 -> by_ c = 0 -> cy c = 0 -> az c = 0 -> bz c = 0 -> cz c = 0 ->
  curve_length c = cx c + bx c * (99 / 100).
Proof.
  intros c A B C D E F G H I. unfold curve_length.
  assert (forall n, length_sum c (1 / 100) n
                    = INR n * (1 / 100) * cx c + bx c * (1 / 100) * (1 / 100) * (INR n * (INR n - 1))) as S.
  { induction n as [| n IH]; [cbn; ring |]. cbn [length_sum]. rewrite IH, S_INR.
    assert (length_term c (INR n * (1 / 100)) = 2 * (INR n * (1 / 100)) * bx c + cx c) as ->; [| field].
    unfold length_term. rewrite A, D, E, F, G, H, I.
    match goal with |- sqrt ?e = _ =>
      replace e with ((2 * (INR n * (1 / 100)) * bx c + cx c) * (2 * (INR n * (1 / 100)) * bx c + cx c))
        by ring end.
    apply sqrt_square. pose proof (pos_INR n). nra. }
  rewrite S. replace (INR 100) with 100 by (cbn; ring). field.
Qed.
Opaque curve_length.
