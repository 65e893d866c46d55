(** Theorems about segments and polylines (C131 - C134). *)
From Coq Require Import Reals List ZArith Bool Lra Psatz.
From Verif Require Import M_Segment S_Segment P_Segment P_Segment2.
Import ListNotations.
Open Scope R_scope.

(** *** C131 *)

(** Two segments are reported as crossing exactly when they have a point in common. *)
Theorem C131_crossing : forall l m,
  all_visible (start_point l) (end_point l) (start_point m) (end_point m) ->
  (is_intersect l m = true <->
   meet (start_point l) (end_point l) (start_point m) (end_point m)).
Proof. exact intersect_meet. Qed.

(** The side of a point: the documentation has 1 for the left, the code answers -1 there. *)
Theorem C131_side : forall l p,
  let d := turn (start_point l) (end_point l) p in
  (epsilon < d -> relative_point_position l p = (-1)%Z) /\
  (d < - epsilon -> relative_point_position l p = 1%Z) /\
  (- epsilon <= d <= epsilon -> relative_point_position l p = 0%Z).
Proof.
  intros l p d. unfold relative_point_position.
  replace (vector_y l * (x p - x (end_point l)) - vector_x l * (y p - y (end_point l))) with (- d)
    by (unfold d, turn, vector_x, vector_y; ring).
  clearbody d. pose proof epsilon_pos. unfold lt.
  destruct (Rlt_dec epsilon (- d)), (Rlt_dec (- d) (- epsilon)); repeat split; intros;
    try reflexivity; lra.
Qed.

Definition origin := point 0 0 0.

Lemma epsilon_small : epsilon < / 1000000.
Proof. unfold epsilon. apply Rinv_lt_contravar; [| lra]. apply Rmult_lt_0_compat; lra. Qed.

(** Two segments of some nanometres cross and are reported as apart. *)
Theorem C131_tolerance_misses_refuted : exists l m,
  meet (start_point l) (end_point l) (start_point m) (end_point m) /\ is_intersect l m = false.
Proof.
  set (h := / 2 ^ 27).
  assert (h * h = epsilon / 4) as H.
  { unfold h, epsilon. replace (2 ^ 52) with (2 ^ 27 * 2 ^ 27 / 4) by (rewrite <- pow_add; simpl; field).
    field. }
  assert (0 < h) as P by (apply Rinv_0_lt_compat; apply pow_lt; lra).
  clearbody h. pose proof epsilon_pos as E.
  exists (segment (point 0 0 0) (point (2 * h) 0 0)), (segment (point h (- h) 0) (point h h 0)).
  split.
  - exists (h, 0). split; exists (/ 2); (split; [lra |]); unfold at_fraction; cbn; f_equal; lra.
  - unfold is_intersect, relative_point_position, vector_x, vector_y. cbn [start_point end_point x y].
    repeat match goal with
           | |- context [lt ?a ?b] =>
               replace (lt a b) with false by (symmetry; apply lt_false; nra)
           end.
    cbn. unfold is_in_bounds. cbn [start_point end_point x y].
    rewrite (Rmin_left 0 (2 * h)), (Rmax_right 0 (2 * h)), (Rmin_left 0 0), (Rmax_right 0 0),
      (Rmin_left h h), (Rmax_right h h), (Rmin_left (- h) h), (Rmax_right (- h) h) by lra.
    unfold le.
    repeat match goal with |- context [Rle_dec ?a ?b] => destruct (Rle_dec a b); try lra end;
      cbn; repeat split; reflexivity.
Qed.

(** Two segments apart are reported as crossing, when the gap is below the tolerance. *)
Theorem C131_tolerance_invents_refuted : exists l m,
  ~ meet (start_point l) (end_point l) (start_point m) (end_point m) /\ is_intersect l m = true.
Proof.
  pose proof epsilon_pos as E. pose proof epsilon_small as E'.
  exists (segment (point 0 0 0) (point 2 0 0)), (segment (point 1 (epsilon / 4) 0) (point 1 1 0)).
  split.
  - intros (p & (t & T & A) & (u & U & B)). subst p. unfold at_fraction in B.
    cbn [start_point end_point x y] in B. injection B as BX BY. nra.
  - unfold is_intersect, relative_point_position, vector_x, vector_y. cbn [start_point end_point x y].
    repeat match goal with
           | |- context [lt ?a ?b] =>
               first [ replace (lt a b) with false by (symmetry; apply lt_false; nra)
                     | replace (lt a b) with true by (symmetry; apply lt_true; nra) ]
           end.
    reflexivity.
Qed.

(** *** C132 *)

(** The point handed back lies on both segments. *)
Theorem C132_point : forall l m p,
  all_visible (start_point l) (end_point l) (start_point m) (end_point m) ->
  get_intersection l m = Found p ->
  between (start_point l) (end_point l) (x p, y p) /\
  between (start_point m) (end_point m) (x p, y p).
Proof.
  intros l m p V H. rewrite intersection_cases in H.
  destruct (is_intersect l m) eqn:I; [| discriminate].
  destruct (Rle_dec _ epsilon) as [L | G]; [discriminate |]. injection H as <-.
  apply crossing_between.
  - intros E. rewrite E, Rabs_R0 in G. pose proof epsilon_pos. lra.
  - now apply intersect_meet.
Qed.

(** No point: exactly when there is none. *)
Theorem C132_absent : forall l m,
  all_visible (start_point l) (end_point l) (start_point m) (end_point m) ->
  (get_intersection l m = Absent <->
   ~ meet (start_point l) (end_point l) (start_point m) (end_point m)).
Proof.
  intros l m V. rewrite intersection_cases. rewrite <- (intersect_meet l m V).
  destruct (is_intersect l m); [| split; [intros _ H; discriminate | reflexivity]].
  destruct (Rle_dec _ epsilon); split; intros H; try discriminate; now elim H.
Qed.

(** The exception: exactly for segments that meet and are parallel up to the tolerance. In
    particular segments that continue each other in a straight line raise it. *)
Theorem C132_error : forall l m,
  all_visible (start_point l) (end_point l) (start_point m) (end_point m) ->
  (get_intersection l m = Error <->
   meet (start_point l) (end_point l) (start_point m) (end_point m) /\
   Rabs (slant (start_point l) (end_point l) (start_point m) (end_point m)) <= epsilon).
Proof.
  intros l m V. rewrite intersection_cases. rewrite <- (intersect_meet l m V).
  destruct (is_intersect l m).
  - destruct (Rle_dec _ epsilon) as [L | G]; split; try (intros H; discriminate); try tauto.
  - split; [discriminate | intros [H _]; discriminate].
Qed.

Theorem C132_straight_continuation_refuted : forall a b k, 0 < k ->
  let c := point (x b + k * (x b - x a)) (y b + k * (y b - y a)) (z b) in
  get_intersection (segment a b) (segment b c) = Error.
Proof.
  intros a b k K c. apply C132_error; cbn [start_point end_point].
  - unfold all_visible, visible. repeat split; left; unfold turn, c; cbn [x y]; ring.
  - split.
    + exists (x b, y b). split; [exists 1 | exists 0]; (split; [lra |]); unfold at_fraction; f_equal; ring.
    + replace (slant a b b c) with 0 by (unfold slant, c; cbn [x y]; ring). rewrite Rabs_R0.
      left. apply epsilon_pos.
Qed.

(** *** C133 *)

(** The position along a segment: asked back, it gives a point of both segments. *)
Theorem C133_position : forall l m dn s,
  all_visible (start_point l) (end_point l) (start_point m) (end_point m) ->
  s_value l m dn = Found s ->
  0 <= s <= (if dn then length l else 1) /\
  exists p, get_point l s dn = Found p /\ between_3d (start_point l) (end_point l) p /\
            between (start_point m) (end_point m) (x p, y p).
Proof.
  intros l m dn s V H. rewrite s_value_cases in H by exact V. cbv zeta in H.
  destruct (is_intersect l m) eqn:I; [| discriminate].
  destruct (Rle_dec _ epsilon) as [L | G]; [discriminate |].
  set (S := slant (start_point l) (end_point l) (start_point m) (end_point m)) in *.
  set (t := turn (start_point m) (end_point m) (start_point l) / S) in *.
  assert (S <> 0) as N by (intros E; rewrite E, Rabs_R0 in G; pose proof epsilon_pos; lra).
  apply intersect_meet in I; [| exact V].
  pose proof (crossing_between l m N I) as [_ B].
  destruct (length_2d_pos l m N) as [_ P].
  apply meet_slanted in I; [| exact N]. cbv zeta in I. destruct I as [T _]. fold S t in T.
  assert (0 <= s <= (if dn then length l else 1)) as Rg.
  { destruct dn; injection H as <-; [nra | exact T]. }
  split; [exact Rg |].
  exists (point (x (start_point l) + vector_x l * t) (y (start_point l) + vector_y l * t)
                (z (start_point l) + vector_z l * t)).
  split; [| split].
  - unfold get_point. destruct dn; injection H as <-; cbn [andb].
    + destruct (Req_EM_T (length l) 0) as [E | _]; [lra |].
      replace (t * length l / length l) with t by (field; lra).
      assert (le 0 t = true) as -> by (apply le_true; lra).
      assert (le t 1 = true) as -> by (apply le_true; lra). reflexivity.
    + assert (le 0 t = true) as -> by (apply le_true; lra).
      assert (le t 1 = true) as -> by (apply le_true; lra). reflexivity.
  - exists t. split; [exact T |]. unfold vector_x, vector_y, vector_z. cbn [x y z].
    repeat split; ring.
  - cbn [x y]. unfold crossing_point in B. cbn [x y] in B. fold S t in B.
    rewrite (Rmult_comm (vector_x l)), (Rmult_comm (vector_y l)). exact B.
Qed.

(** A position is handed back whenever the segments meet at an angle. *)
Theorem C133_found : forall l m dn,
  all_visible (start_point l) (end_point l) (start_point m) (end_point m) ->
  meet (start_point l) (end_point l) (start_point m) (end_point m) ->
  epsilon < Rabs (slant (start_point l) (end_point l) (start_point m) (end_point m)) ->
  exists s, s_value l m dn = Found s.
Proof.
  intros l m dn V M G. rewrite s_value_cases by exact V. cbv zeta.
  assert (is_intersect l m = true) as -> by now apply intersect_meet.
  destruct (Rle_dec _ epsilon); [lra | eauto].
Qed.

(** Asked for a point outside of its ends, a segment raises an error; inside it answers. *)
Theorem C133_range : forall l s, start_point l <> end_point l ->
  (get_point l s true <> Error <-> 0 <= s <= length l).
Proof.
  intros l s N.
  assert (0 < length l) as P.
  { unfold length. apply sqrt_lt_R0.
    assert (vector_x l <> 0 \/ vector_y l <> 0 \/ vector_z l <> 0) as D.
    { destruct (Req_EM_T (vector_x l) 0) as [A | A]; [| tauto].
      destruct (Req_EM_T (vector_y l) 0) as [B | B]; [| tauto].
      destruct (Req_EM_T (vector_z l) 0) as [C | C]; [| tauto].
      exfalso. apply N. unfold vector_x, vector_y, vector_z in *.
      destruct l as [[a b c] [d e f]]. cbn in *. f_equal; lra. }
    destruct D as [D | [D | D]]; nra. }
  unfold get_point. cbn [andb]. destruct (Req_EM_T (length l) 0) as [E | _]; [lra |].
  assert (s = s / length l * length l) as S by (field; lra).
  set (t := s / length l) in *. clearbody t.
  destruct (le 0 t) eqn:A; [destruct (le t 1) eqn:B |]; cbn [andb];
    rewrite ?le_true, ?le_false in *; split; intros H; try congruence; try nra; now elim H.
Qed.

(** *** C134 *)

(** The segments of a polyline: the pairs of neighbours that differ, and the closing pair. *)
Theorem C134_segments : forall p q rest close s,
  let ps := p :: q :: rest in
  In s (get_line_segments ps close) <->
  start_point s <> end_point s /\
  (neighbours ps (start_point s) (end_point s) \/
   close = true /\ start_point s = last ps p /\ end_point s = p).
Proof.
  intros p q rest close s ps. unfold get_line_segments, ps. fold ps. rewrite in_app_iff, chain_in.
  destruct close.
  - destruct (same (last ps p) p) eqn:E.
    + apply same_eq in E. cbn [In]. split; [tauto |].
      intros (D & [N | (_ & A & B)]); [tauto |]. exfalso. congruence.
    + apply same_false in E. cbn [In]. split.
      * intros [[N D] | [<- | []]]; [tauto |]. cbn [start_point end_point]. tauto.
      * intros (D & [N | (_ & A & B)]); [tauto |]. right. left. destruct s. cbn in *. congruence.
  - cbn [In]. split; [tauto |]. intros (D & [N | (A & _)]); [tauto | discriminate].
Qed.

(** Nothing of the polyline is lost, unless it is a single point. *)
Theorem C134_covers : forall ps close a b o m,
  neighbours ps a b -> between_3d a b m -> In o ps -> o <> a ->
  exists s, In s (get_line_segments ps close) /\
            between_3d (start_point s) (end_point s) m.
Proof.
  intros ps close a b o m N B O D.
  destruct (chain_covers ps a b m o N B O D) as (s & S & C). exists s. split; [| exact C].
  destruct ps as [| p [| q rest]]; [inversion N | inversion N as [| ? ? ? ? H]; inversion H |].
  unfold get_line_segments. apply in_app_iff. now left.
Qed.

(** In order: each segment starts where the one before ends, from the first point to the last, and
    back to the first when the polyline is closed. *)
Theorem C134_order : forall p q rest close,
  let ps := p :: q :: rest in
  linked p (get_line_segments ps close) (if close then p else last ps p).
Proof.
  intros p q rest close ps.
  pose proof (chain_linked (q :: rest) p) as L. fold ps in L.
  unfold get_line_segments, ps. fold ps.
  assert (forall a segs b more c, linked a segs b -> linked b more c -> linked a (segs ++ more) c) as J.
  { intros a segs. revert a. induction segs as [| s segs IH]; intros a b more c H1 H2.
    - cbn in *. now subst.
    - cbn in *. destruct H1 as [E H1]. split; [exact E | now apply IH with b]. }
  eapply J; [exact L |]. destruct close.
  - destruct (same (last ps p) p) eqn:E.
    + apply same_eq in E. exact E.
    + cbn. split; reflexivity.
  - reflexivity.
Qed.

(** *** The hypotheses are met *)

Definition east := segment (point 0 0 0) (point 4 0 3).
Definition north := segment (point 1 (-1) 0) (point 1 1 0).

Example roads_visible :
  all_visible (start_point east) (end_point east) (start_point north) (end_point north).
Proof.
  pose proof epsilon_small. repeat split; right; unfold turn; cbn [x y start_point end_point east north];
    unfold Rabs; destruct (Rcase_abs _); lra.
Qed.

Example roads_meet : meet (start_point east) (end_point east) (start_point north) (end_point north).
Proof.
  exists (1, 0). split; [exists (/ 4) | exists (/ 2)]; (split; [lra |]); unfold at_fraction;
    cbn [x y start_point end_point east north]; f_equal; lra.
Qed.

Example roads_position : exists s, s_value east north true = Found s /\ 0 <= s <= length east.
Proof.
  destruct (C133_found east north true roads_visible roads_meet) as [s S].
  - unfold slant. cbn [x y start_point end_point east north]. pose proof epsilon_small.
    unfold Rabs. destruct (Rcase_abs _); lra.
  - exists s. split; [exact S |]. exact (proj1 (C133_position _ _ _ _ roads_visible S)).
Qed.

Example polyline_doubled :
  let a := point 0 0 0 in let b := point 1 0 0 in
  exists s, In s (get_line_segments [a; a; b] true) /\ between_3d (start_point s) (end_point s) a.
Proof.
  intros a b. apply (C134_covers [a; a; b] true a a b a).
  - apply here.
  - exists 0. repeat split; try lra; ring.
  - cbn. tauto.
  - unfold a, b. intros E. injection E. lra.
Qed.

Print Assumptions C131_crossing.
Print Assumptions C131_side.
Print Assumptions C131_tolerance_misses_refuted.
Print Assumptions C131_tolerance_invents_refuted.
Print Assumptions C132_point.
Print Assumptions C132_absent.
Print Assumptions C132_error.
Print Assumptions C132_straight_continuation_refuted.
Print Assumptions C133_position.
Print Assumptions C133_found.
Print Assumptions C133_range.
Print Assumptions C134_segments.
Print Assumptions C134_covers.
Print Assumptions C134_order.
