(** Proofs about intersection points, positions along a segment, and polylines. *)
From Coq Require Import Reals List ZArith Bool Lra Psatz.
From Verif Require Import M_Segment S_Segment P_Segment.
Import ListNotations.
Open Scope R_scope.

Lemma slant_determinant : forall l m,
  vector_y l * - vector_x m - vector_y m * - vector_x l
  = slant (start_point l) (end_point l) (start_point m) (end_point m).
Proof. intros. unfold slant, vector_x, vector_y. ring. Qed.

Definition crossing_point (l m : Segment) : Point :=
  let t := turn (start_point m) (end_point m) (start_point l)
           / slant (start_point l) (end_point l) (start_point m) (end_point m) in
  point (x (start_point l) + t * vector_x l) (y (start_point l) + t * vector_y l) 0.

(** The three outcomes *)
Lemma intersection_cases : forall l m,
  get_intersection l m =
    if is_intersect l m then
      if Rle_dec (Rabs (slant (start_point l) (end_point l) (start_point m) (end_point m))) epsilon
      then Error else Found (crossing_point l m)
    else Absent.
Proof.
  intros. unfold get_intersection. destruct (is_intersect l m); cbn [negb]; [| reflexivity].
  rewrite slant_determinant. unfold le.
  destruct (Rle_dec _ epsilon) as [L | G]; [reflexivity |].
  assert (slant (start_point l) (end_point l) (start_point m) (end_point m) <> 0) as N.
  { intros E. rewrite E, Rabs_R0 in G. pose proof epsilon_pos. lra. }
  unfold crossing_point, turn, slant, vector_x, vector_y in *.
  f_equal; f_equal; field; exact N.
Qed.

Lemma crossing_between : forall l m,
  slant (start_point l) (end_point l) (start_point m) (end_point m) <> 0 ->
  meet (start_point l) (end_point l) (start_point m) (end_point m) ->
  between (start_point l) (end_point l) (x (crossing_point l m), y (crossing_point l m)) /\
  between (start_point m) (end_point m) (x (crossing_point l m), y (crossing_point l m)).
Proof.
  intros l m N M. apply meet_slanted in M; [| exact N]. cbv zeta in M. destruct M as [T U]. split.
  - eexists. split; [exact T |]. reflexivity.
  - eexists. split; [exact U |]. unfold crossing_point, at_fraction, turn, slant, vector_x, vector_y in *.
    cbn [x y]. f_equal; field; exact N.
Qed.

Lemma length_2d_pos : forall l m,
  slant (start_point l) (end_point l) (start_point m) (end_point m) <> 0 ->
  0 < length_2d l /\ 0 < length l.
Proof.
  intros l m N.
  assert (0 < vector_x l * vector_x l + vector_y l * vector_y l) as P.
  { destruct (Req_EM_T (vector_x l) 0) as [A | A]; [destruct (Req_EM_T (vector_y l) 0) as [B | B] |].
    - exfalso. apply N. unfold slant. fold (vector_x l) (vector_y l). rewrite A, B. ring.
    - nra.
    - nra. }
  split; apply sqrt_lt_R0; nra.
Qed.

Lemma fraction_distance : forall a b t, 0 <= t -> 0 < sqrt (a * a + b * b) ->
  sqrt (t * a * (t * a) + t * b * (t * b)) / sqrt (a * a + b * b) = t.
Proof.
  intros a b t T P.
  replace (t * a * (t * a) + t * b * (t * b)) with ((t * t) * (a * a + b * b)) by ring.
  rewrite sqrt_mult by nra. rewrite sqrt_square by exact T. field. lra.
Qed.

Lemma s_value_cases : forall l m dn,
  all_visible (start_point l) (end_point l) (start_point m) (end_point m) ->
  let S := slant (start_point l) (end_point l) (start_point m) (end_point m) in
  let t := turn (start_point m) (end_point m) (start_point l) / S in
  s_value l m dn =
    if is_intersect l m then
      if Rle_dec (Rabs S) epsilon then Error
      else Found (if dn then t * length l else t)
    else Absent.
Proof.
  intros l m dn V S t. unfold s_value. rewrite intersection_cases. fold S.
  destruct (is_intersect l m) eqn:I; [| reflexivity].
  destruct (Rle_dec (Rabs S) epsilon) as [L | G]; [reflexivity |].
  assert (S <> 0) as N by (intros E; rewrite E, Rabs_R0 in G; pose proof epsilon_pos; lra).
  apply intersect_meet in I; [| exact V].
  pose proof (crossing_between l m N I) as [B _].
  destruct (length_2d_pos l m N) as [P _].
  unfold s_value_of_point, is_intersect_point.
  rewrite (between_bounds l (crossing_point l m)) by exact B.
  replace ((y (crossing_point l m) - y (start_point l)) * vector_x l -
           (x (crossing_point l m) - x (start_point l)) * vector_y l) with 0
    by (unfold crossing_point; cbn [x y]; ring).
  rewrite Rabs_R0. pose proof epsilon_pos.
  assert (le 0 (length_2d l * epsilon) = true) as -> by (apply le_true; nra).
  destruct (Req_EM_T (length_2d l) 0) as [E | _]; [lra |].
  apply meet_slanted in I; [| exact N]. cbv zeta in I. destruct I as [T _].
  fold S in T. fold t in T.
  assert (x (crossing_point l m) - x (start_point l) = t * vector_x l) as ->
    by (unfold crossing_point, t, S; cbn [x]; ring).
  assert (y (crossing_point l m) - y (start_point l) = t * vector_y l) as ->
    by (unfold crossing_point, t, S; cbn [y]; ring).
  unfold length_2d in *. rewrite fraction_distance by (try exact P; lra). reflexivity.
Qed.

(** *** Polylines *)

Lemma same_eq : forall p q, same p q = true <-> p = q.
Proof.
  intros [a b c] [d e f]. unfold same. cbn [x y z].
  destruct (Req_EM_T a d), (Req_EM_T b e), (Req_EM_T c f); split; intros H;
    try congruence; try discriminate H; now subst.
Qed.

Lemma same_false : forall p q, same p q = false <-> p <> q.
Proof.
  intros. split; intros H.
  - intros E. apply same_eq in E. congruence.
  - destruct (same p q) eqn:S; [| reflexivity]. apply same_eq in S. contradiction.
Qed.

Lemma chain_in : forall ps s,
  In s (chain ps) <->
  neighbours ps (start_point s) (end_point s) /\ start_point s <> end_point s.
Proof.
  induction ps as [| p ps IH]; intros s; [cbn; split; [tauto | intros [H _]; inversion H] |].
  destruct ps as [| q ps].
  - cbn. split; [tauto |]. intros [H _]. inversion H as [| ? ? ? ? H']; subst. inversion H'.
  - change (chain (p :: q :: ps)) with
      (if same p q then chain (q :: ps) else segment p q :: chain (q :: ps)).
    destruct (same p q) eqn:E.
    + apply same_eq in E. subst q. rewrite IH. split; intros [N D]; split; try exact D.
      * now apply later.
      * inversion N; subst; [now elim D | assumption].
    + apply same_false in E. cbn [In]. rewrite IH. split.
      * intros [<- | [N D]]; [split; [apply here | exact E] | split; [now apply later | exact D]].
      * intros [N D]. inversion N; subst.
        -- left. destruct s; reflexivity.
        -- right. split; assumption.
Qed.

Lemma neighbours_in : forall ps p q, neighbours ps p q -> In p ps /\ In q ps.
Proof. intros ps p q N. induction N; cbn; tauto. Qed.

Lemma point_dec : forall p q : Point, p = q \/ p <> q.
Proof.
  intros p q. destruct (same p q) eqn:E; [left; now apply same_eq | right; now apply same_false].
Qed.

Lemma all_or_other : forall (a : Point) ps,
  (forall p, In p ps -> p = a) \/ (exists p, In p ps /\ p <> a).
Proof.
  induction ps as [| p ps IH]; [left; intros p [] |].
  destruct (point_dec p a) as [-> | N].
  - destruct IH as [IH | (q & I & D)].
    + left. intros q [<- | I]; [reflexivity | now apply IH].
    + right. exists q. split; [now right | exact D].
  - right. exists p. split; [now left | exact N].
Qed.

(** A point of a polyline that is not a single point belongs to one of its segments. *)
Lemma vertex_covered : forall ps a o, In a ps -> In o ps -> o <> a ->
  exists s, In s (chain ps) /\ (start_point s = a \/ end_point s = a).
Proof.
  induction ps as [| p ps IH]; intros a o A O D; [destruct A |].
  destruct ps as [| q ps].
  { destruct A as [<- | []]. destruct O as [<- | []]. now elim D. }
  assert (forall s, In s (chain (q :: ps)) -> In s (chain (p :: q :: ps))) as Up.
  { intros s S. cbn [chain]. destruct (same p q); [exact S | now right]. }
  destruct (point_dec p q) as [-> | N].
  - assert (In a (q :: ps)) as A' by (destruct A as [<- | A]; [now left | exact A]).
    assert (In o (q :: ps)) as O' by (destruct O as [<- | O]; [now left | exact O]).
    destruct (IH a o A' O' D) as (s & S & E). exists s. split; [now apply Up | exact E].
  - assert (In (segment p q) (chain (p :: q :: ps))) as First.
    { change (chain (p :: q :: ps)) with
        (if same p q then chain (q :: ps) else segment p q :: chain (q :: ps)).
      apply same_false in N. rewrite N. now left. }
    destruct A as [<- | A].
    + exists (segment p q). split; [exact First | now left].
    + destruct (all_or_other a (q :: ps)) as [All | (o' & O' & D')].
      * exists (segment p q). split; [exact First |]. right. apply All. now left.
      * destruct (IH a o' A O' D') as (s & S & E). exists s. split; [now apply Up | exact E].
Qed.

Lemma end_on : forall s : Segment, between_3d (start_point s) (end_point s) (start_point s)
  /\ between_3d (start_point s) (end_point s) (end_point s).
Proof. intros s. split; [exists 0 | exists 1]; repeat split; try lra; ring. Qed.

Lemma chain_covers : forall ps a b m o, neighbours ps a b -> between_3d a b m ->
  In o ps -> o <> a ->
  exists s, In s (chain ps) /\ between_3d (start_point s) (end_point s) m.
Proof.
  intros ps a b m o N B O D. destruct (point_dec a b) as [<- | E].
  - destruct (neighbours_in _ _ _ N) as [A _].
    destruct (vertex_covered ps a o A O D) as (s & S & E). exists s. split; [exact S |].
    destruct B as (t & T & X & Y & Z).
    assert (m = a) as ->.
    { destruct m, a. cbn in *. f_equal; lra. }
    destruct (end_on s) as [E1 E2]. destruct E as [<- | <-]; assumption.
  - exists (segment a b). split; [| exact B]. apply chain_in. split; assumption.
Qed.

Lemma chain_linked : forall ps p, linked p (chain (p :: ps)) (last (p :: ps) p).
Proof.
  assert (forall (ps : list Point) p q d, last (p :: q :: ps) d = last (q :: ps) q) as L.
  { intros ps p q d. change (last (p :: q :: ps) d) with (last (q :: ps) d).
    revert q. induction ps as [| r ps IH]; intros q; [reflexivity |].
    change (last (r :: ps) d = last (r :: ps) q).
    transitivity (last (r :: ps) r); [exact (IH r) |].
    clear. revert r. induction ps as [| s ps IH]; intros r; [reflexivity |].
    change (last (s :: ps) r = last (s :: ps) q). destruct ps as [| u ps]; [reflexivity |].
    change (last (u :: ps) r = last (u :: ps) q).
    clear. revert u. induction ps as [| v ps IH]; intros u; [reflexivity | exact (IH v)]. }
  induction ps as [| q ps IH]; intros p; [cbn; reflexivity |].
  rewrite L.
  change (chain (p :: q :: ps)) with
    (if same p q then chain (q :: ps) else segment p q :: chain (q :: ps)).
  destruct (same p q) eqn:E.
  - apply same_eq in E. subst q. apply IH.
  - cbn [linked start_point end_point]. split; [reflexivity | apply IH].
Qed.
