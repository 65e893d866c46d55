(** The theorems about bounding boxes: the nearest points of two boxes, the relative position computed
    from them, and the nearest point of an outline. *)
From Coq Require Import List Reals Lia Lra.
From Verif Require Import M_Ego M_Box S_Box P_Box.
Import ListNotations.
Local Open Scope R_scope.

(** The outcome of the search, in terms of the two lists of pairs tried *)
Lemma search disjoint p0 b0 p1 b1 : disjoint (polygon p0 b0) (polygon p1 b1) = true ->
  exists m, holds (both p0 b0 p1 b1) m
    /\ closest_poses disjoint p0 b0 p1 b1 = Some (point_0 m, point_1 m).
Proof.
  intro E. eexists. split; [|unfold closest_poses; rewrite E, !search_candidates, <- fold_left_app; reflexivity].
  apply start_holds, both_nonempty.
Qed.

Lemma pair_cases p0 b0 p1 b1 m : holds (both p0 b0 p1 b1) m ->
  (In (point_0 m, point_1 m) (candidates (polygon p0 b0) (polygon p1 b1))
   \/ (In (point_0 m, point_1 m) (candidates (polygon p1 b1) (polygon p0 b0))
       /\ forall c, In c (candidates (polygon p0 b0) (polygon p1 b1)) ->
            distance2 (point_0 m) (point_1 m) < distance2 (fst c) (snd c)))
  /\ forall c, In c (both p0 b0 p1 b1) -> distance2 (point_0 m) (point_1 m) <= distance2 (fst c) (snd c).
Proof.
  intros (_ & bf & af & E & B & A). split.
  - unfold both in E. set (c1 := candidates (polygon p0 b0) (polygon p1 b1)) in *.
    set (c2 := candidates (polygon p1 b1) (polygon p0 b0)) in *. clearbody c1 c2. clear A.
    revert c1 E B. induction bf as [|x bf IH]; intros c1 E B.
    + destruct c1 as [|y c1]; cbn in E.
      * right. rewrite E. split; [left; reflexivity|intros ? []].
      * injection E as -> _. left. left. reflexivity.
    + destruct c1 as [|y c1]; cbn in E.
      * right. rewrite E. split; [right; apply in_app_iff; right; left; reflexivity|intros ? []].
      * injection E as -> E. destruct (IH c1 E) as [I|(I & J)].
        { intros c Hc. apply B. right. exact Hc. }
        -- left. right. exact I.
        -- right. split; [exact I|]. intros c [<-|Hc]; [apply B; left; reflexivity|exact (J c Hc)].
  - intros c Hc. rewrite E in Hc. apply in_app_iff in Hc. destruct Hc as [Hc|[<-|Hc]].
    + left. exact (B c Hc).
    + right. reflexivity.
    + exact (A c Hc).
Qed.

(** *** C155: the two points returned for boxes that do not touch are as near as the boxes get *)
Theorem C155_nearest disjoint p0 b0 p1 b1 :
  solid p0 b0 -> solid p1 b1 \/ empty b1 -> sound disjoint p0 b0 p1 b1 ->
  match closest_poses disjoint p0 b0 p1 b1 with
  | None => ~ ~ touch p0 b0 p1 b1
  | Some (a, b) => ~ touch p0 b0 p1 b1
      /\ (nearest p0 b0 p1 b1 b a \/ nearest p0 b0 p1 b1 a b)
  end.
Proof.
  intros S0 S1 D. destruct (disjoint (polygon p0 b0) (polygon p1 b1)) eqn:E.
  - destruct (search disjoint p0 b0 p1 b1 E) as (m & Hm & ->).
    assert (N : ~ touch p0 b0 p1 b1) by (apply D, E). split; [exact N|].
    destruct (pair_cases _ _ _ _ _ Hm) as (C & L). clear Hm.
    destruct (sizes p0 b0 (or_introl S0)) as (Px & Py). destruct (sizes p1 b1 S1) as (Qx & Qy).
    assert (M : forall u w, covers p0 b0 u -> covers p1 b1 w -> apart (point_0 m) (point_1 m) <= apart u w).
    { intros u w Hu Hw. destruct (candidate_nearest p0 b0 p1 b1 u w S0 S1 N Hu Hw) as (c & Hc & Lc).
      apply Rle_trans with (apart (fst c) (snd c)); [exact (L c Hc)|apply apart_le, Lc]. }
    destruct C as [C|(C & _)]; apply candidate_box in C; try assumption; destruct C as (C1 & C2);
      cbn [fst snd] in C1, C2; apply corner_covers in C1; apply outline_covers in C2.
    + left. split; [exact C2|]. split; [exact C1|]. intros u w Hu Hw. rewrite apart_sym. exact (M u w Hu Hw).
    + right. split; [exact C1|]. split; [exact C2|]. exact M.
  - unfold closest_poses. rewrite E. intro N. apply D in N. congruence.
Qed.

(** Which of the two comes first: that of the second box if one of its corners is nearest, otherwise
    that of the first box *)
Theorem C155_order disjoint p0 b0 p1 b1 a b :
  solid p0 b0 -> solid p1 b1 \/ empty b1 -> sound disjoint p0 b0 p1 b1 ->
  closest_poses disjoint p0 b0 p1 b1 = Some (a, b) ->
  ((exists u v, nearest p0 b0 p1 b1 u v /\ corner p1 b1 v) -> nearest p0 b0 p1 b1 b a /\ corner p1 b1 a)
  /\ (~ (exists u v, nearest p0 b0 p1 b1 u v /\ corner p1 b1 v) ->
      nearest p0 b0 p1 b1 a b /\ corner p0 b0 a).
Proof.
  intros S0 S1 D H. pose proof (C155_nearest disjoint p0 b0 p1 b1 S0 S1 D) as N0. rewrite H in N0.
  destruct N0 as (N & _).
  assert (E : disjoint (polygon p0 b0) (polygon p1 b1) = true) by (apply D, N).
  destruct (search disjoint p0 b0 p1 b1 E) as (m & Hm & H'). rewrite H in H'. injection H' as Ha Hb.
  destruct (pair_cases _ _ _ _ _ Hm) as (C & L). clear Hm.
  rewrite <- Ha, <- Hb in C, L. clear Ha Hb m.
  destruct (sizes p0 b0 (or_introl S0)) as (Px & Py). destruct (sizes p1 b1 S1) as (Qx & Qy).
  assert (M : forall u w, covers p0 b0 u -> covers p1 b1 w -> apart a b <= apart u w).
  { intros u w Hu Hw. destruct (candidate_nearest p0 b0 p1 b1 u w S0 S1 N Hu Hw) as (c & Hc & Lc).
    apply Rle_trans with (apart (fst c) (snd c)); [exact (L c Hc)|apply apart_le, Lc]. }
  destruct C as [C|(C & J)]; apply candidate_box in C; try assumption; destruct C as (C1 & C2);
    cbn [fst snd] in C1, C2; pose proof (corner_covers _ _ _ C1) as V1; pose proof (outline_covers _ _ _ C2) as V2.
  - assert (X : nearest p0 b0 p1 b1 b a).
    { split; [exact V2|]. split; [exact V1|]. intros u w Hu Hw. rewrite apart_sym. exact (M u w Hu Hw). }
    split; [tauto|]. intro K. exfalso. apply K. exists b, a. tauto.
  - split.
    + intros (u & v & (Hu & Hv & Le) & Cv). exfalso.
      destruct (corner_candidate p0 b0 p1 b1 v u S0 (corner_vertex _ _ _ Qx Qy Cv)) as (c & Hc & _ & Lc).
      { intro K. apply N. exists v. tauto. } { exact Hu. }
      specialize (J c Hc). specialize (Le a b V1 V2). apply apart_le in Lc. rewrite (apart_sym v u) in Lc.
      change (distance2 a b) with (apart a b) in J. change (distance2 (fst c) (snd c)) with (apart (fst c) (snd c)) in J.
      lra.
    + intros _. split; [|exact C1]. split; [exact V1|]. split; [exact V2|]. exact M.
Qed.

(** *** C156: the relative position of two boxes *)
Lemma rotated_back (p : Pose) (d : Vec) : orientation p ->
  times (rotation_matrix (qx p) (qy p) (qz p) (qw p))
    (times (transpose (rotation_matrix (qx p) (qy p) (qz p) (qw p))) d) = d.
Proof.
  unfold orientation. intro O. set (n := qx p * qx p + qy p * qy p + qz p * qz p + qw p * qw p) in *.
  transitivity (vec (n * n * vec_x d) (n * n * vec_y d) (n * n * vec_z d)).
  - unfold times, transpose, rotation_matrix, n. cbn. f_equal; ring.
  - rewrite O. destruct d as [x y z]; cbn. f_equal; ring.
Qed.

Lemma relative_of disjoint p0 b0 p1 b1 a b : level p0 ->
  closest_poses disjoint p0 b0 p1 b1 = Some (a, b) ->
  exists v, relative_pose disjoint p0 b0 p1 b1 = Some v
    /\ times (rotation_matrix (qx p0) (qy p0) (qz p0) (qw p0)) v = vec (px a - px b) (py a - py b) 0.
Proof.
  intros (O & Zx & Zy) H. unfold relative_pose. rewrite H. eexists. split; [reflexivity|].
  transitivity (times (rotation_matrix (qx p0) (qy p0) (qz p0) (qw p0))
    (times (transpose (rotation_matrix (qx p0) (qy p0) (qz p0) (qw p0))) (vec (px a - px b) (py a - py b) 0)));
    [|apply rotated_back, O].
  f_equal. unfold subtract_poses, relative_position, to_pose, sub2, flatten. cbn [px py vec_x vec_y vec_z].
  rewrite Zx, Zy. unfold times, transpose, rotation_matrix, vec_sub. cbn. f_equal; ring.
Qed.

(** What is returned is an arrow between two nearest points, in the axes of the first box. *)
Theorem C156_length disjoint p0 b0 p1 b1 :
  solid p0 b0 -> level p0 -> solid p1 b1 \/ empty b1 -> sound disjoint p0 b0 p1 b1 ->
  match relative_pose disjoint p0 b0 p1 b1 with
  | None => ~ ~ touch p0 b0 p1 b1
  | Some v => ~ touch p0 b0 p1 b1 /\ vec_z v = 0
      /\ exists p q, nearest p0 b0 p1 b1 p q
         /\ sqrt (vec_x v * vec_x v + vec_y v * vec_y v) = apart p q
         /\ (times (rotation_matrix (qx p0) (qy p0) (qz p0) (qw p0)) v = vec (px q - px p) (py q - py p) 0
             \/ times (rotation_matrix (qx p0) (qy p0) (qz p0) (qw p0)) v = vec (px p - px q) (py p - py q) 0)
  end.
Proof.
  intros S0 V S1 D. pose proof (C155_nearest disjoint p0 b0 p1 b1 S0 S1 D) as N.
  destruct (closest_poses disjoint p0 b0 p1 b1) as [[a b]|] eqn:E.
  - destruct (relative_of disjoint p0 b0 p1 b1 a b V E) as (v & R & T). rewrite R. destruct N as (N & W).
    split; [exact N|].
    assert (Z : vec_z v = 0).
    { unfold relative_pose in R. rewrite E in R. injection R as <-. reflexivity. }
    split; [exact Z|].
    assert (Q : vec_x v * vec_x v + vec_y v * vec_y v = (px a - px b) * (px a - px b) + (py a - py b) * (py a - py b)).
    { destruct V as (O & Zx & Zy). unfold orientation in O. rewrite Zx, Zy in *.
      injection T as T1 T2 _. rewrite <- T1, <- T2, Z. set (z := qz p0) in *. set (w := qw p0) in *.
      transitivity ((z * z + w * w) * (z * z + w * w) * (vec_x v * vec_x v + vec_y v * vec_y v)); [|ring].
      replace (z * z + w * w) with 1 by lra. ring. }
    destruct W as [W|W].
    + exists b, a. split; [exact W|]. split; [rewrite Q, (apart_sym b a); reflexivity|]. left. exact T.
    + exists a, b. split; [exact W|]. split; [rewrite Q; reflexivity|]. right. exact T.
  - unfold relative_pose. rewrite E. exact N.
Qed.

(** It points from the first box to the second when a corner of the second is nearest. *)
Theorem C156_direction disjoint p0 b0 p1 b1 v :
  solid p0 b0 -> level p0 -> solid p1 b1 \/ empty b1 -> sound disjoint p0 b0 p1 b1 ->
  relative_pose disjoint p0 b0 p1 b1 = Some v ->
  (exists p q, nearest p0 b0 p1 b1 p q /\ corner p1 b1 q) ->
  exists p q, nearest p0 b0 p1 b1 p q
    /\ times (rotation_matrix (qx p0) (qy p0) (qz p0) (qw p0)) v = vec (px q - px p) (py q - py p) 0.
Proof.
  intros S0 V S1 D H K. destruct (closest_poses disjoint p0 b0 p1 b1) as [[a b]|] eqn:E.
  - destruct (relative_of disjoint p0 b0 p1 b1 a b V E) as (v' & R & T). rewrite R in H. injection H as ->.
    destruct (C155_order disjoint p0 b0 p1 b1 a b S0 S1 D E) as (F & _). destruct (F K) as (W & _).
    exists b, a. tauto.
  - unfold relative_pose in H. rewrite E in H. discriminate.
Qed.

(** A square turned so that a corner of it points at a long wall ahead *)
Definition car_pose : Pose := pose (vec 0 0 0) 0 0 (3 / 5) (4 / 5).
Definition car_box : BBox := bbox (vec 0 0 1) (vec 2 2 2).
Definition wall_pose : Pose := pose (vec 3 0 0) 0 0 0 1.
Definition wall_box : BBox := bbox (vec 0 0 1) (vec 2 10 2).

Lemma car_covers p : covers car_pose car_box p -> px p <= 31 / 25 /\ - (31 / 25) <= py p <= 31 / 25.
Proof.
  intros (x & y & (Ix & Iy) & ->). cbn [car_box dimensions vec_x vec_y] in Ix, Iy.
  apply Rabs_bound in Ix. apply Rabs_bound in Iy. cbn. lra.
Qed.
Lemma wall_covers p : covers wall_pose wall_box p -> 2 <= px p.
Proof.
  intros (x & y & (Ix & Iy) & ->). cbn [wall_box dimensions vec_x vec_y] in Ix, Iy.
  apply Rabs_bound in Ix. cbn. lra.
Qed.
Lemma car_solid : solid car_pose car_box.
Proof. unfold solid, upright, orientation. cbn. repeat split; lra. Qed.
Lemma wall_solid : solid wall_pose wall_box.
Proof. unfold solid, upright, orientation. cbn. repeat split; lra. Qed.
Lemma car_level : level car_pose.
Proof. unfold level, orientation. cbn. repeat split; lra. Qed.
Lemma car_wall_apart : ~ touch car_pose car_box wall_pose wall_box.
Proof. intros (q & A & B). apply car_covers in A. apply wall_covers in B. lra. Qed.
Lemma car_tip : covers car_pose car_box (point2 (31 / 25) (17 / 25)).
Proof.
  exists 1, (-1). split.
  - split; apply Rabs_bound; cbn; lra.
  - apply point2_eq; cbn; lra.
Qed.
Lemma wall_facing : covers wall_pose wall_box (point2 2 (17 / 25)).
Proof.
  exists (-1), (17 / 25). split.
  - split; apply Rabs_bound; cbn; lra.
  - apply point2_eq; cbn; lra.
Qed.
Lemma wall_corners_far u v : nearest car_pose car_box wall_pose wall_box u v -> ~ corner wall_pose wall_box v.
Proof.
  intros (U & V & L) (x & y & Ex & Ey & E). specialize (L _ _ car_tip wall_facing).
  apply car_covers in U. apply wall_covers in V.
  assert (Y : py v = 5 \/ py v = -5).
  { subst v. apply Rabs_end in Ey; [|cbn; lra]. cbn in Ey. cbn. destruct Ey as [-> | ->]; [left|right]; lra. }
  unfold apart in L. apply sqrt_le_0 in L; [|apply (sq_nonneg u v)|apply (sq_nonneg (point2 _ _) (point2 _ _))].
  cbn [px py] in L. destruct Y as [Y|Y]; rewrite Y in L; nra.
Qed.

Example C155_example : exists a b,
  closest_poses (fun _ _ => true) car_pose car_box wall_pose wall_box = Some (a, b)
  /\ nearest car_pose car_box wall_pose wall_box a b.
Proof.
  assert (D : sound (fun _ _ => true) car_pose car_box wall_pose wall_box)
    by (split; [intros _; exact car_wall_apart|reflexivity]).
  destruct (closest_poses (fun _ _ => true) car_pose car_box wall_pose wall_box) as [[a b]|] eqn:E; [|discriminate].
  exists a, b. split; [reflexivity|].
  destruct (C155_order _ _ _ _ _ a b car_solid (or_introl wall_solid) D E) as (_ & F).
  apply F. intros (u & v & N & C). exact (wall_corners_far u v N C).
Qed.

(** The point of the first box is not always first, nor that of the second: swapping the arguments
    gives the pair in the same order, although the boxes are exchanged. *)
Theorem C155_order_refuted :
  exists disjoint p0 b0 p1 b1 a b, solid p0 b0 /\ solid p1 b1 /\ sound disjoint p0 b0 p1 b1
    /\ sound disjoint p1 b1 p0 b0
    /\ closest_poses disjoint p0 b0 p1 b1 = Some (a, b) /\ covers p0 b0 a /\ covers p1 b1 b
    /\ exists c d, closest_poses disjoint p1 b1 p0 b0 = Some (c, d) /\ covers p0 b0 c /\ covers p1 b1 d.
Proof.
  assert (D : sound (fun _ _ => true) car_pose car_box wall_pose wall_box)
    by (split; [intros _; exact car_wall_apart|reflexivity]).
  assert (D' : sound (fun _ _ => true) wall_pose wall_box car_pose car_box).
  { split; [|reflexivity]. intros _ (q & A & B). apply car_wall_apart. exists q. tauto. }
  destruct C155_example as (a & b & E & N).
  exists (fun _ _ => true), car_pose, car_box, wall_pose, wall_box, a, b.
  split; [exact car_solid|]. split; [exact wall_solid|]. split; [exact D|]. split; [exact D'|].
  split; [exact E|]. destruct N as (A & B & L). split; [exact A|]. split; [exact B|].
  destruct (closest_poses (fun _ _ => true) wall_pose wall_box car_pose car_box) as [[c d]|] eqn:E'; [|discriminate].
  exists c, d. split; [reflexivity|].
  destruct (C155_order _ _ _ _ _ c d wall_solid (or_introl car_solid) D' E') as (F & _).
  destruct F as ((W1 & W2 & _) & _).
  - exists (point2 2 (17 / 25)), (point2 (31 / 25) (17 / 25)). split.
    + split; [exact wall_facing|]. split; [exact car_tip|]. intros u w Hu Hw.
      apply apart_le. unfold sq. cbn [px py]. apply wall_covers in Hu. apply car_covers in Hw.
      pose proof (Rle_0_sqr (py u - py w)) as Y. unfold Rsqr in Y.
      assert (19 / 25 * (19 / 25) <= (px u - px w) * (px u - px w)) by (apply Rmult_le_compat; lra). lra.
    + exists 1, (-1). split; [apply Rabs_end; cbn; lra|]. split; [apply Rabs_end; cbn; lra|].
      apply point2_eq; cbn; lra.
  - split; assumption.
Qed.

(** The relative position of something ahead can point backwards. *)
Theorem C156_direction_refuted :
  exists disjoint p0 b0 p1 b1 v, solid p0 b0 /\ level p0 /\ solid p1 b1 /\ sound disjoint p0 b0 p1 b1
    /\ (forall p q, covers p0 b0 p -> covers p1 b1 q -> px p < px q)
    /\ relative_pose disjoint p0 b0 p1 b1 = Some v
    /\ vec_x (times (rotation_matrix (qx p0) (qy p0) (qz p0) (qw p0)) v) < 0.
Proof.
  destruct C155_example as (a & b & E & (A & B & _)).
  destruct (relative_of _ _ _ _ _ a b car_level E) as (v & R & T).
  exists (fun _ _ => true), car_pose, car_box, wall_pose, wall_box, v.
  split; [exact car_solid|]. split; [exact car_level|]. split; [exact wall_solid|].
  split; [split; [intros _; exact car_wall_apart|reflexivity]|].
  split; [intros p q P Q; apply car_covers in P; apply wall_covers in Q; lra|].
  split; [exact R|]. rewrite T. cbn. apply car_covers in A. apply wall_covers in B. lra.
Qed.

(** *** C157: the nearest point of an outline *)
Lemma edges_polygon p b : edges (polygon p b)
  = segments (polygon p b) ++ [(seen p b (hx b) (hy b), seen p b (hx b) (hy b))].
Proof. rewrite polygon_seen. reflexivity. Qed.

Theorem C157_outline p b q : solid p b ->
  outline p b (closest_point q (polygon p b))
  /\ (forall u, outline p b u -> apart q (closest_point q (polygon p b)) <= apart q u)
  /\ (~ covers p b q -> forall u, covers p b u -> apart q (closest_point q (polygon p b)) <= apart q u).
Proof.
  intros S0. destruct (solid_sizes _ _ S0) as (_ & Px & Py).
  destruct (closest_found q (polygon p b)) as ((g & G & E) & L); [rewrite polygon_seen; discriminate|].
  rewrite edges_polygon in G, L.
  assert (O : forall u, outline p b u -> apart q (closest_point q (polygon p b)) <= apart q u).
  { intros u U. destruct (outline_on p b u Px Py U) as (k & K & (s & Hs & ->)).
    apply Rle_trans with (apart q (projection q (fst k) (snd k))).
    - apply L. apply in_app_iff. left. exact K.
    - apply apart_le, projection_least, Hs. }
  split; [|split; [exact O|]].
  - rewrite E. apply in_app_iff in G. destruct G as [G|[<-|[]]].
    + apply (on_covers p b g); try lra; [exact G|]. apply projection_on.
    + cbn [fst snd]. destruct (projection_on q (seen p b (hx b) (hy b)) (seen p b (hx b) (hy b))) as (s & Hs & ->).
      apply (on_covers p b (seen p b (hx b) (hy b), seen p b (- hx b) (hy b))); try lra.
      * rewrite polygon_seen. left. reflexivity.
      * exists 0. split; [lra|]. cbn [fst snd]. rewrite along_0. apply point2_eq; cbn; ring.
  - intros N u U. destruct (cross p b u q S0 U N) as (u' & U' & Le).
    apply Rle_trans with (apart q u'); [exact (O u' U')|]. apply apart_le. rewrite (sq_sym q u'), (sq_sym q u). exact Le.
Qed.

Example C157_example : solid car_pose car_box /\ ~ covers car_pose car_box (point2 2 0).
Proof. split; [exact car_solid|]. intro C. apply car_covers in C. cbn in C. lra. Qed.

(** The polygon of a box: its four corners in turn, closed by the first; and what it encloses is what
    the box covers. *)
Theorem C157_polygon p b q : solid p b \/ empty b ->
  (covers p b q <->
   exists a b1 c d ka kb kc kd, polygon p b = [a; b1; c; d; a]
     /\ 0 <= ka /\ 0 <= kb /\ 0 <= kc /\ 0 <= kd /\ ka + kb + kc + kd = 1
     /\ px q = ka * px a + kb * px b1 + kc * px c + kd * px d
     /\ py q = ka * py a + kb * py b1 + kc * py c + kd * py d).
Proof.
  intros H. rewrite polygon_seen. split.
  - intro C. destruct H as [H|H].
    + destruct (solid_sizes _ _ H) as (_ & Px & Py). destruct C as (x & y & (Ix & Iy) & ->).
      fold (hx b) in Ix. fold (hy b) in Iy. apply Rabs_bound in Ix. apply Rabs_bound in Iy.
      destruct (share_of (hx b) x Px Ix) as (s & Hs & Es). destruct (share_of (hy b) y Py Iy) as (r & Hr & Er).
      exists (seen p b (hx b) (hy b)), (seen p b (- hx b) (hy b)), (seen p b (- hx b) (- hy b)), (seen p b (hx b) (- hy b)).
      exists ((1 - s) * (1 - r)), (s * (1 - r)), (s * r), ((1 - s) * r).
      split; [reflexivity|]. repeat (split; [apply Rmult_le_pos; lra|]). split; [ring|].
      rewrite Es, Er. clear. split; cbn [seen px py vec_x vec_y vec_z vec_add times]; ring.
    + rewrite (empty_covers p b q H C). 
      exists (seen p b (hx b) (hy b)), (seen p b (- hx b) (hy b)), (seen p b (- hx b) (- hy b)), (seen p b (hx b) (- hy b)).
      exists 1, 0, 0, 0. split; [reflexivity|]. repeat split; lra.
  - intros (a & b1 & c & d & ka & kb & kc & kd & E & Ka & Kb & Kc & Kd & Sum & X & Y).
    injection E as <- <- <- <-. destruct (sizes p b H) as (Px & Py).
    exists (hx b * (ka - kb - kc + kd)), (hy b * (ka + kb - kc - kd)). split.
    + split; apply Rabs_bound; fold (hx b) (hy b); split; nra.
    + assert (Kd' : kd = 1 - ka - kb - kc) by lra. apply point2_eq; [rewrite X|rewrite Y]; rewrite Kd'; clear;
        cbn [seen px py vec_x vec_y vec_z vec_add times]; ring.
Qed.

(** The corners of an extended box are those of the box that is longer and wider by the extensions. *)
Theorem C157_extended b right_ left_ front_ rear_ :
  corners b right_ left_ front_ rear_
  = corners (bbox (vec (vec_x (center b) + (front_ - rear_) / 2) (vec_y (center b) + (left_ - right_) / 2) (vec_z (center b)))
                  (vec (vec_x (dimensions b) + front_ + rear_) (vec_y (dimensions b) + left_ + right_) (vec_z (dimensions b))))
            0 0 0 0.
Proof.
  unfold corners, front, rear, left, right, up. cbn.
  repeat (apply f_equal2; [f_equal; field|]). reflexivity.
Qed.

Print Assumptions C155_nearest.
Print Assumptions C155_order.
Print Assumptions C155_order_refuted.
Print Assumptions C156_length.
Print Assumptions C156_direction.
Print Assumptions C156_direction_refuted.
Print Assumptions C157_outline.
Print Assumptions C157_polygon.
Print Assumptions C157_extended.
