(** Lemmas about segments, projections, and the search for the nearest pair. *)
From Coq Require Import List Reals Lia Lra.
From Verif Require Import M_Ego M_Box S_Box.
Import ListNotations.
Local Open Scope R_scope.

Definition sq (p q : Point2) : R := (px p - px q) * (px p - px q) + (py p - py q) * (py p - py q).

Lemma sq_nonneg p q : 0 <= sq p q.
Proof. unfold sq. apply Rplus_le_le_0_compat; apply Rle_0_sqr. Qed.
Lemma apart_le p q p' q' : sq p q <= sq p' q' -> apart p q <= apart p' q'.
Proof. intro H. unfold apart. apply sqrt_le_1; [apply (sq_nonneg p q)|apply (sq_nonneg p' q')|exact H]. Qed.
Lemma apart_sym p q : apart p q = apart q p.
Proof. unfold apart. f_equal. ring. Qed.
Lemma sq_sym p q : sq p q = sq q p.
Proof. unfold sq. ring. Qed.
Lemma distance_apart p q : distance2 p q = apart p q.
Proof. reflexivity. Qed.

(** The point of a segment at the share [s] *)
Definition along (a b : Point2) (s : R) : Point2 :=
  point2 (px a + s * (px b - px a)) (py a + s * (py b - py a)).
Definition on (a b p : Point2) : Prop := exists s, 0 <= s <= 1 /\ p = along a b s.

Lemma point2_eq p q : px p = px q -> py p = py q -> p = q.
Proof. destruct p, q; cbn; intros -> ->; reflexivity. Qed.
Lemma along_0 a b : along a b 0 = a.
Proof. apply point2_eq; cbn; ring. Qed.
Lemma along_1 a b : along a b 1 = b.
Proof. apply point2_eq; cbn; ring. Qed.

Lemma projection_on p a b : on a b (projection p a b).
Proof.
  unfold projection. destruct (Rle_dec _ 0) as [H|H].
  - exists 0. split; [lra|symmetry; apply along_0].
  - destruct (Rle_dec _ _) as [K|K].
    + exists 1. split; [lra|symmetry; apply along_1].
    + apply Rnot_le_lt in H, K. unfold dot2, sub2 in H, K; cbn in H, K.
      set (c1 := (px p - px a) * (px b - px a) + (py p - py a) * (py b - py a)) in *.
      set (c2 := (px b - px a) * (px b - px a) + (py b - py a) * (py b - py a)) in *.
      exists (c1 / c2). split.
      * assert (0 < c2) by lra. split.
        -- apply Rmult_le_pos; [lra|]. left. apply Rinv_0_lt_compat. assumption.
        -- apply (Rmult_le_reg_r c2); [assumption|]. unfold Rdiv. rewrite Rmult_assoc, Rinv_l; lra.
      * apply point2_eq; cbn; fold c1; unfold dot2; cbn; fold c1 c2; ring.
Qed.

Lemma projection_least p a b s : 0 <= s <= 1 -> sq p (projection p a b) <= sq p (along a b s).
Proof.
  intros Hs. unfold projection, dot2, sub2, add2, scale2; cbn.
  set (ux := px b - px a). set (uy := py b - py a).
  set (wx := px p - px a). set (wy := py p - py a).
  assert (E : forall t, sq p (along a b t) = (wx * wx + wy * wy) - 2 * t * (wx * ux + wy * uy) + t * t * (ux * ux + uy * uy)).
  { intro t. unfold sq, along; cbn. subst ux uy wx wy. ring. }
  set (c1 := wx * ux + wy * uy) in *. set (c2 := ux * ux + uy * uy) in *.
  assert (P2 : 0 <= c2) by (apply Rplus_le_le_0_compat; apply Rle_0_sqr).
  destruct (Rle_dec c1 0) as [H|H].
  - replace (sq p a) with (sq p (along a b 0)) by (rewrite along_0; reflexivity). rewrite !E.
    assert (0 <= s * - c1) by (apply Rmult_le_pos; lra).
    assert (0 <= s * s * c2) by (apply Rmult_le_pos; [apply Rle_0_sqr|assumption]). lra.
  - apply Rnot_le_lt in H. destruct (Rle_dec c2 c1) as [K|K].
    + replace (sq p b) with (sq p (along a b 1)) by (rewrite along_1; reflexivity). rewrite !E.
      assert (0 <= (1 - s) * (c1 - c2)) by (apply Rmult_le_pos; lra).
      assert (0 <= (1 - s) * (1 - s) * c2) by (apply Rmult_le_pos; [apply Rle_0_sqr|assumption]). lra.
    + apply Rnot_le_lt in K.
      replace (point2 (px a + ux * (c1 / c2)) (py a + uy * (c1 / c2))) with (along a b (c1 / c2))
        by (apply point2_eq; cbn; fold ux uy; ring).
      rewrite !E. set (t := c1 / c2). assert (T : c1 = t * c2) by (subst t; field; lra).
      rewrite T.
      assert (0 <= (s - t) * (s - t) * c2) by (apply Rmult_le_pos; [apply Rle_0_sqr|assumption]). lra.
Qed.

(** Leaving the unit interval, and the unit square, on a straight way *)
Lemma leave_1 s s' : 0 <= s <= 1 ->
  exists t, 0 <= t <= 1 /\ (forall u, 0 <= u <= t -> 0 <= s + u * (s' - s) <= 1)
    /\ ((t = 1 /\ 0 <= s' <= 1) \/ s + t * (s' - s) = 0 \/ s + t * (s' - s) = 1).
Proof.
  intros Hs. destruct (Rlt_dec 1 s') as [H|H]; [|destruct (Rlt_dec s' 0) as [K|K]].
  - set (t := (1 - s) / (s' - s)). assert (T : t * (s' - s) = 1 - s) by (subst t; field; lra).
    assert (0 <= t <= 1) by (split; [apply Rmult_le_pos; [lra|left; apply Rinv_0_lt_compat; lra]|nra]).
    exists t. split; [assumption|]. split.
    + intros u Hu. assert (u * (s' - s) <= t * (s' - s)) by nra. split; nra.
    + right. right. lra.
  - set (t := s / (s - s')). assert (T : t * (s - s') = s) by (subst t; field; lra).
    assert (0 <= t <= 1) by (split; [apply Rmult_le_pos; [lra|left; apply Rinv_0_lt_compat; lra]|nra]).
    exists t. split; [assumption|]. split.
    + intros u Hu. assert (u * (s - s') <= t * (s - s')) by nra. split; nra.
    + right. left. nra.
  - exists 1. split; [lra|]. split; [|left; split; lra]. intros u Hu. split; nra.
Qed.

Lemma leave_2 s r s' r' : 0 <= s <= 1 -> 0 <= r <= 1 -> ~ (0 <= s' <= 1 /\ 0 <= r' <= 1) ->
  exists t, 0 <= t <= 1 /\ 0 <= s + t * (s' - s) <= 1 /\ 0 <= r + t * (r' - r) <= 1
    /\ (s + t * (s' - s) = 0 \/ s + t * (s' - s) = 1 \/ r + t * (r' - r) = 0 \/ r + t * (r' - r) = 1).
Proof.
  intros Hs Hr N. destruct (leave_1 s s' Hs) as (t & T & I & E). destruct (leave_1 r r' Hr) as (u & U & J & F).
  destruct (Rle_dec t u) as [L|L].
  - exists t. split; [assumption|]. split; [apply I; lra|]. split; [apply J; lra|].
    destruct E as [(-> & E)|E]; [|tauto]. assert (u = 1) as -> by lra.
    destruct F as [(_ & F)|F]; [tauto|]. tauto.
  - exists u. split; [assumption|]. split; [apply I; lra|]. split; [apply J; lra|].
    destruct F as [(-> & F)|F]; [lra|]. tauto.
Qed.

(** Two segments that do not meet are nearest at an end of one of them. *)
Lemma segments_nearest a0 a1 b0 b1 s r :
  (forall s r, 0 <= s <= 1 -> 0 <= r <= 1 -> along a0 a1 s <> along b0 b1 r) ->
  0 <= s <= 1 -> 0 <= r <= 1 ->
  exists s' r', 0 <= s' <= 1 /\ 0 <= r' <= 1 /\ (s' = 0 \/ s' = 1 \/ r' = 0 \/ r' = 1)
    /\ sq (along a0 a1 s') (along b0 b1 r') <= sq (along a0 a1 s) (along b0 b1 r).
Proof.
  intros N Hs Hr.
  set (ex := px a1 - px a0). set (ey := py a1 - py a0).
  set (fx := px b1 - px b0). set (fy := py b1 - py b0).
  set (wx := px b0 + r * fx - (px a0 + s * ex)). set (wy := py b0 + r * fy - (py a0 + s * ey)).
  assert (Q : forall s' r', sq (along a0 a1 s') (along b0 b1 r')
              = (wx + (r' - r) * fx - (s' - s) * ex) * (wx + (r' - r) * fx - (s' - s) * ex)
                + (wy + (r' - r) * fy - (s' - s) * ey) * (wy + (r' - r) * fy - (s' - s) * ey)).
  { intros. unfold sq, along; cbn. fold ex ey fx fy. subst wx wy. ring. }
  set (D := ex * fy - ey * fx).
  destruct (Req_dec D 0) as [Z|Z].
  - destruct (Req_dec (ex * ex + ey * ey) 0) as [E|E].
    { assert (ex = 0) by nra. assert (ey = 0) by nra. exists 0, r. split; [lra|]. split; [lra|]. split; [tauto|].
      rewrite !Q. rewrite H, H0. lra. }
    set (k := (fx * ex + fy * ey) / (ex * ex + ey * ey)).
    assert (KN : k * (ex * ex + ey * ey) = fx * ex + fy * ey) by (subst k; field; exact E).
    assert (Dx : ex * D = 0) by (rewrite Z; ring). assert (Dy : ey * D = 0) by (rewrite Z; ring).
    unfold D in Dx, Dy.
    assert (K1 : fx = k * ex).
    { apply (Rmult_eq_reg_r (ex * ex + ey * ey)); [|exact E].
      replace (k * ex * (ex * ex + ey * ey)) with (k * (ex * ex + ey * ey) * ex) by ring. rewrite KN. lra. }
    assert (K2 : fy = k * ey).
    { apply (Rmult_eq_reg_r (ex * ex + ey * ey)); [|exact E].
      replace (k * ey * (ex * ex + ey * ey)) with (k * (ex * ex + ey * ey) * ey) by ring. rewrite KN. lra. }
    destruct (Req_dec k 0) as [O|O].
    { exists s, 0. split; [lra|]. split; [lra|]. split; [tauto|]. rewrite !Q. rewrite K1, K2, O. lra. }
    destruct (leave_2 s r (s + 2) (r + 2 / k) Hs Hr) as (t & T & I & J & B); [lra|].
    exists (s + t * (s + 2 - s)), (r + t * (r + 2 / k - r)).
    split; [assumption|]. split; [assumption|]. split; [assumption|]. rewrite !Q. right.
    replace ((r + t * (r + 2 / k - r) - r) * fx) with ((s + t * (s + 2 - s) - s) * ex) by (rewrite K1; field; exact O).
    replace ((r + t * (r + 2 / k - r) - r) * fy) with ((s + t * (s + 2 - s) - s) * ey) by (rewrite K2; field; exact O).
    ring.
  - set (x := (wx * fy - wy * fx) / D). set (y := (ex * wy - ey * wx) / D).
    assert (X : wx = x * ex + y * fx) by (subst x y; unfold D in *; field; exact Z).
    assert (Y : wy = x * ey + y * fy) by (subst x y; unfold D in *; field; exact Z).
    destruct (leave_2 s r (s + x) (r - y) Hs Hr) as (t & T & I & J & B).
    { intros (I & J). apply (N (s + x) (r - y) I J). apply point2_eq; cbn; fold ex ey fx fy; subst wx wy; lra. }
    exists (s + t * (s + x - s)), (r + t * (r - y - r)).
    split; [assumption|]. split; [assumption|]. split; [assumption|]. rewrite !Q.
    replace (wx + (r + t * (r - y - r) - r) * fx - (s + t * (s + x - s) - s) * ex) with ((1 - t) * wx)
      by (rewrite X at 1; rewrite X; ring).
    replace (wy + (r + t * (r - y - r) - r) * fy - (s + t * (s + x - s) - s) * ey) with ((1 - t) * wy)
      by (rewrite Y at 1; rewrite Y; ring).
    replace (wx + (r - r) * fx - (s - s) * ex) with wx by ring.
    replace (wy + (r - r) * fy - (s - s) * ey) with wy by ring.
    assert ((1 - t) * (1 - t) <= 1) by nra. nra.
Qed.

(** The search keeps the first of the nearest pairs. *)
Definition candidates (ring0 ring1 : list Point2) : list (Point2 * Point2) :=
  flat_map (fun g => map (fun p => (p, projection p (fst g) (snd g))) ring1) (segments ring0).
Definition keep (m : Best) (c : Point2 * Point2) : Best :=
  if less (distance2 (fst c) (snd c)) (least m) then best (fst c) (snd c) (Some (distance2 (fst c) (snd c))) else m.

Lemma search_candidates ring0 ring1 m :
  nearest_in_polygon ring0 ring1 m = fold_left keep (candidates ring0 ring1) m.
Proof.
  unfold nearest_in_polygon, candidates. revert m. induction (segments ring0) as [|g gs IH]; intro m; [reflexivity|].
  cbn [flat_map fold_left]. rewrite fold_left_app, IH. f_equal. unfold nearest_to_segment.
  clear IH. revert m. induction ring1 as [|p ps IHp]; intro m; [reflexivity|].
  cbn [map fold_left]. rewrite IHp. reflexivity.
Qed.

(** [m] holds the first nearest of [seen_] *)
Definition holds (cs : list (Point2 * Point2)) (m : Best) : Prop :=
  least m = Some (distance2 (point_0 m) (point_1 m))
  /\ exists before after, cs = before ++ (point_0 m, point_1 m) :: after
     /\ (forall c, In c before -> distance2 (point_0 m) (point_1 m) < distance2 (fst c) (snd c))
     /\ (forall c, In c after -> distance2 (point_0 m) (point_1 m) <= distance2 (fst c) (snd c)).

Lemma keep_holds cs m c : holds cs m -> holds (cs ++ [c]) (keep m c).
Proof.
  intros (L & bf & af & E & B & A). unfold keep, less. rewrite L.
  destruct (Rlt_dec _ _) as [H|H].
  - split; [reflexivity|]. exists cs, []. cbn. split; [destruct c; reflexivity|]. split; [|intros ? []].
    intros x Hx. rewrite E in Hx. apply in_app_iff in Hx. destruct Hx as [Hx|[<-|Hx]].
    + specialize (B x Hx). lra.
    + exact H.
    + specialize (A x Hx). lra.
  - split; [exact L|]. exists bf, (af ++ [c]). split; [rewrite E, <- app_assoc; reflexivity|].
    split; [exact B|]. intros x Hx. apply in_app_iff in Hx. destruct Hx as [Hx|[<-|[]]]; [exact (A x Hx)|].
    apply Rnot_lt_le in H. exact H.
Qed.

Lemma fold_holds cs done m : holds done m -> holds (done ++ cs) (fold_left keep cs m).
Proof.
  revert done m. induction cs as [|c cs IH]; intros done m H; [rewrite app_nil_r; exact H|].
  cbn [fold_left]. replace (done ++ c :: cs) with ((done ++ [c]) ++ cs) by (rewrite <- app_assoc; reflexivity).
  apply IH, keep_holds, H.
Qed.

Lemma start_holds cs a b : cs <> [] -> holds cs (fold_left keep cs (best a b None)).
Proof.
  destruct cs as [|c cs]; [tauto|]. intros _. cbn [fold_left].
  apply (fold_holds cs [c]). split; [reflexivity|]. exists [], []. cbn. destruct c. split; [reflexivity|].
  split; intros ? [].
Qed.

(** *** Boxes *)
Definition hx (b : BBox) : R := vec_x (dimensions b) / 2.
Definition hy (b : BBox) : R := vec_y (dimensions b) / 2.

Lemma polygon_seen p b :
  polygon p b = [seen p b (hx b) (hy b); seen p b (- hx b) (hy b); seen p b (- hx b) (- hy b);
                 seen p b (hx b) (- hy b); seen p b (hx b) (hy b)].
Proof.
  unfold polygon, corners, closed, flatten, transform_point, seen, vec_add, times, front, rear, left, right, up, hx, hy.
  cbn. repeat (apply f_equal2; [apply point2_eq; cbn; field|]). reflexivity.
Qed.

Lemma seen_along p b x0 y0 x1 y1 s :
  along (seen p b x0 y0) (seen p b x1 y1) s = seen p b (x0 + s * (x1 - x0)) (y0 + s * (y1 - y0)).
Proof. apply point2_eq; cbn; ring. Qed.

Lemma Rabs_bound x h : Rabs x <= h <-> - h <= x <= h.
Proof. unfold Rabs. destruct (Rcase_abs x); split; lra. Qed.
Lemma Rabs_end x h : 0 <= h -> Rabs x = h <-> x = h \/ x = - h.
Proof. intro. unfold Rabs. destruct (Rcase_abs x); split; lra. Qed.

Lemma on_covers p b g q : 0 <= hx b -> 0 <= hy b ->
  In g (segments (polygon p b)) -> on (fst g) (snd g) q -> outline p b q.
Proof.
  intros Px Py Hg (s & Hs & ->). rewrite polygon_seen in Hg. cbn [segments In] in Hg.
  unfold outline, inside. fold (hx b) (hy b).
  destruct Hg as [<-|[<-|[<-|[<-|[]]]]]; cbn [fst snd]; rewrite seen_along;
    match goal with |- exists x y, _ /\ _ /\ seen _ _ ?u ?v = _ => exists u, v end;
    (split; [split; apply Rabs_bound; split; nra|]); (split; [|reflexivity]).
  - right. apply Rabs_end; [exact Py|]. left. ring.
  - left. apply Rabs_end; [exact Px|]. right. ring.
  - right. apply Rabs_end; [exact Py|]. right. ring.
  - left. apply Rabs_end; [exact Px|]. left. ring.
Qed.

Lemma share_of h y : 0 < h -> - h <= y <= h -> exists s, 0 <= s <= 1 /\ y = h + s * (- h - h) .
Proof.
  intros Hh Hy. exists ((h - y) / (2 * h)). split; [split|].
  - apply Rmult_le_pos; [lra|]. left. apply Rinv_0_lt_compat. lra.
  - apply (Rmult_le_reg_r (2 * h)); [lra|]. unfold Rdiv. rewrite Rmult_assoc, Rinv_l; lra.
  - field. lra.
Qed.

Lemma outline_on p b q : 0 < hx b -> 0 < hy b -> outline p b q ->
  exists g, In g (segments (polygon p b)) /\ on (fst g) (snd g) q.
Proof.
  intros Px Py (x & y & (Ix & Iy) & E & ->). fold (hx b) in Ix, E. fold (hy b) in Iy, E.
  apply Rabs_bound in Ix. apply Rabs_bound in Iy. rewrite polygon_seen. cbn [segments].
  destruct E as [E|E]; apply Rabs_end in E; try lra; destruct E as [-> | ->].
  - destruct (share_of (hy b) (- y) Py) as (s & Hs & Es); [lra|].
    exists (seen p b (hx b) (- hy b), seen p b (hx b) (hy b)). split; [cbn; tauto|].
    exists s. split; [exact Hs|]. cbn [fst snd]. rewrite seen_along. f_equal; lra.
  - destruct (share_of (hy b) y Py Iy) as (s & Hs & Es).
    exists (seen p b (- hx b) (hy b), seen p b (- hx b) (- hy b)). split; [cbn; tauto|].
    exists s. split; [exact Hs|]. cbn [fst snd]. rewrite seen_along. f_equal; lra.
  - destruct (share_of (hx b) x Px Ix) as (s & Hs & Es).
    exists (seen p b (hx b) (hy b), seen p b (- hx b) (hy b)). split; [cbn; tauto|].
    exists s. split; [exact Hs|]. cbn [fst snd]. rewrite seen_along. f_equal; lra.
  - destruct (share_of (hx b) (- x) Px) as (s & Hs & Es); [lra|].
    exists (seen p b (- hx b) (- hy b), seen p b (hx b) (- hy b)). split; [cbn; tauto|].
    exists s. split; [exact Hs|]. cbn [fst snd]. rewrite seen_along. f_equal; lra.
Qed.

Lemma outline_covers p b q : outline p b q -> covers p b q.
Proof. intros (x & y & I & _ & E). exists x, y. tauto. Qed.

Lemma vertex_corner p b v : 0 <= hx b -> 0 <= hy b -> In v (polygon p b) -> corner p b v.
Proof.
  intros Px Py Hv. rewrite polygon_seen in Hv. cbn [In] in Hv. unfold corner. fold (hx b) (hy b).
  destruct Hv as [<-|[<-|[<-|[<-|[<-|[]]]]]];
    match goal with |- exists x y, _ /\ _ /\ seen _ _ ?u ?v = _ => exists u, v end;
    (split; [apply Rabs_end; [exact Px|tauto]|]); (split; [apply Rabs_end; [exact Py|tauto]|reflexivity]).
Qed.

Lemma corner_vertex p b v : 0 <= hx b -> 0 <= hy b -> corner p b v -> In v (polygon p b).
Proof.
  intros Px Py (x & y & Ex & Ey & ->). fold (hx b) in Ex. fold (hy b) in Ey.
  apply Rabs_end in Ex; [|exact Px]. apply Rabs_end in Ey; [|exact Py]. rewrite polygon_seen. cbn [In].
  destruct Ex as [-> | ->], Ey as [-> | ->]; tauto.
Qed.

Lemma corner_covers p b v : corner p b v -> covers p b v.
Proof. intros (x & y & Ex & Ey & E). exists x, y. split; [split; lra|exact E]. Qed.

Lemma seen_all p b q : upright p -> exists x y, q = seen p b x y.
Proof.
  intros (O & U). unfold orientation in O.
  set (m := rotation_matrix (qx p) (qy p) (qz p) (qw p)) in *.
  assert (D : m11 m * m22 m - m12 m * m21 m = m33 m).
  { transitivity (m33 m * (qx p * qx p + qy p * qy p + qz p * qz p + qw p * qw p)); [|rewrite O; ring].
    unfold m; cbn. ring. }
  assert (N : m33 m <> 0). { intro E. apply U. cbn [times vec_x vec_y vec_z]. rewrite E. ring. }
  rewrite <- D in N.
  set (o := seen p b 0 0). set (wx := px q - px o). set (wy := py q - py o).
  exists ((wx * m22 m - wy * m12 m) / (m11 m * m22 m - m12 m * m21 m)).
  exists ((m11 m * wy - m21 m * wx) / (m11 m * m22 m - m12 m * m21 m)).
  apply point2_eq.
  - transitivity (px o + wx); [subst wx; ring|]. unfold o, seen. fold m. cbn [px py vec_add vec_x vec_y vec_z times].
    clearbody wx wy m. field. exact N.
  - transitivity (py o + wy); [subst wy; ring|]. unfold o, seen. fold m. cbn [px py vec_add vec_x vec_y vec_z times].
    clearbody wx wy m. field. exact N.
Qed.

Lemma solid_sizes p b : solid p b -> upright p /\ 0 < hx b /\ 0 < hy b.
Proof. intros (U & X & Y). unfold hx, hy. repeat split; try assumption; try apply U; lra. Qed.

Lemma unit_of h x : 0 < h -> exists s, x = - h + s * (2 * h) /\ (- h <= x <= h <-> 0 <= s <= 1).
Proof.
  intro H. exists ((x + h) / (2 * h)).
  assert (E : x = - h + (x + h) / (2 * h) * (2 * h)) by (field; lra).
  split; [exact E|]. set (s := (x + h) / (2 * h)) in *. clearbody s. subst x. split; nra.
Qed.

(** A way from inside a box to the outside crosses the outline, and gets nearer. *)
Lemma cross p b u q : solid p b -> covers p b u -> ~ covers p b q ->
  exists u', outline p b u' /\ sq u' q <= sq u q.
Proof.
  intros Hs (x & y & (Ix & Iy) & ->) N. destruct (solid_sizes p b Hs) as (U & Px & Py).
  fold (hx b) in Ix. fold (hy b) in Iy. apply Rabs_bound in Ix. apply Rabs_bound in Iy.
  destruct (seen_all p b q U) as (x' & y' & ->).
  destruct (unit_of (hx b) x Px) as (s & Es & Bs). destruct (unit_of (hx b) x' Px) as (s' & Es' & Bs').
  destruct (unit_of (hy b) y Py) as (r & Er & Br). destruct (unit_of (hy b) y' Py) as (r' & Er' & Br').
  destruct (leave_2 s r s' r') as (t & T & I & J & B); [tauto|tauto| |].
  { intros (A1 & A2). apply N. exists x', y'. split; [|reflexivity]. split; apply Rabs_bound; fold (hx b) (hy b); tauto. }
  set (s1 := s + t * (s' - s)) in *. set (r1 := r + t * (r' - r)) in *.
  set (x1 := - hx b + s1 * (2 * hx b)). set (y1 := - hy b + r1 * (2 * hy b)).
  exists (seen p b x1 y1). split.
  - exists x1, y1. fold (hx b) (hy b). split; [|split; [|reflexivity]].
    + split; apply Rabs_bound; fold (hx b) (hy b); subst x1 y1; split; nra.
    + destruct B as [B|[B|[B|B]]]; [left|left|right|right]; (apply Rabs_end; [lra|]); subst x1 y1; rewrite B; lra.
  - assert (X1 : x1 = x + t * (x' - x)) by (subst x1 s1; rewrite Es, Es'; ring).
    assert (Y1 : y1 = y + t * (y' - y)) by (subst y1 r1; rewrite Er, Er'; ring).
    rewrite X1, Y1, <- seen_along. set (A := seen p b x y). set (B' := seen p b x' y').
    replace (sq (along A B' t) B') with ((1 - t) * (1 - t) * sq A B') by (unfold sq, along; cbn [px py]; ring).
    pose proof (sq_nonneg A B'). assert ((1 - t) * (1 - t) <= 1) by nra. nra.
Qed.

Lemma candidates_in r0 r1 c : In c (candidates r0 r1) <->
  exists g v, In g (segments r0) /\ In v r1 /\ c = (v, projection v (fst g) (snd g)).
Proof.
  unfold candidates. rewrite in_flat_map. split.
  - intros (g & G & H). apply in_map_iff in H. destruct H as (v & <- & V). exists g, v. tauto.
  - intros (g & v & G & V & ->). exists g. split; [exact G|]. apply in_map_iff. exists v. tauto.
Qed.

Lemma candidate_box p0 b0 p1 b1 c : 0 <= hx b0 -> 0 <= hy b0 -> 0 <= hx b1 -> 0 <= hy b1 ->
  In c (candidates (polygon p0 b0) (polygon p1 b1)) -> corner p1 b1 (fst c) /\ outline p0 b0 (snd c).
Proof.
  intros A B C D Hc. apply candidates_in in Hc. destruct Hc as (g & v & G & V & ->). cbn [fst snd]. split.
  - apply vertex_corner; assumption.
  - apply (on_covers p0 b0 g); try assumption. apply projection_on.
Qed.

Lemma segment_ends p b g : In g (segments (polygon p b)) -> In (fst g) (polygon p b) /\ In (snd g) (polygon p b).
Proof.
  rewrite polygon_seen. cbn [segments In]. intros [<-|[<-|[<-|[<-|[]]]]]; cbn [fst snd]; tauto.
Qed.

(** A corner of box 1 and a point of box 0 outside of which the corner is *)
Lemma corner_candidate p0 b0 p1 b1 v u : solid p0 b0 -> In v (polygon p1 b1) -> ~ covers p0 b0 v -> covers p0 b0 u ->
  exists c, In c (candidates (polygon p0 b0) (polygon p1 b1)) /\ fst c = v /\ sq (fst c) (snd c) <= sq v u.
Proof.
  intros S0 V N Hu. destruct (solid_sizes _ _ S0) as (_ & Px & Py).
  destruct (cross p0 b0 u v S0 Hu N) as (u' & O & L).
  destruct (outline_on p0 b0 u' Px Py O) as (g & G & (s & Hs & ->)).
  exists (v, projection v (fst g) (snd g)). split; [apply candidates_in; exists g, v; tauto|].
  split; [reflexivity|]. cbn [fst snd]. pose proof (projection_least v (fst g) (snd g) s Hs) as M.
  rewrite (sq_sym (along _ _ _) v), (sq_sym u v) in L. lra.
Qed.

Lemma empty_covers p b q : empty b -> covers p b q -> q = seen p b (hx b) (hy b).
Proof.
  intros (X & Y) (x & y & (Ix & Iy) & ->). unfold hx, hy. rewrite X, Y in *.
  apply Rabs_bound in Ix. apply Rabs_bound in Iy. f_equal; lra.
Qed.

Definition both (p0 : Pose) (b0 : BBox) (p1 : Pose) (b1 : BBox) : list (Point2 * Point2) :=
  candidates (polygon p0 b0) (polygon p1 b1) ++ candidates (polygon p1 b1) (polygon p0 b0).

Lemma sizes p b : solid p b \/ empty b -> 0 <= hx b /\ 0 <= hy b.
Proof. intros [(_ & X & Y)|(X & Y)]; unfold hx, hy; lra. Qed.

Lemma candidate_nearest p0 b0 p1 b1 u w : solid p0 b0 -> solid p1 b1 \/ empty b1 -> ~ touch p0 b0 p1 b1 ->
  covers p0 b0 u -> covers p1 b1 w -> exists c, In c (both p0 b0 p1 b1) /\ sq (fst c) (snd c) <= sq u w.
Proof.
  intros S0 S1 N Hu Hw. destruct (solid_sizes _ _ S0) as (_ & Px & Py).
  destruct S1 as [S1|E1].
  - destruct (solid_sizes _ _ S1) as (_ & Qx & Qy).
    destruct (cross p0 b0 u w S0 Hu) as (u' & Ou & Lu). { intro C. apply N. exists w. tauto. }
    destruct (cross p1 b1 w u' S1 Hw) as (w' & Ow & Lw).
    { intro C. apply N. exists u'. split; [apply outline_covers, Ou|exact C]. }
    destruct (outline_on p0 b0 u' Px Py Ou) as (g & G & (s & Hs & ->)).
    destruct (outline_on p1 b1 w' Qx Qy Ow) as (k & K & (r & Hr & ->)).
    destruct (segments_nearest (fst g) (snd g) (fst k) (snd k) s r) as (s' & r' & Hs' & Hr' & B & L).
    { intros x y Hx Hy E. apply N. exists (along (fst g) (snd g) x). split; apply outline_covers.
      - apply (on_covers p0 b0 g); try lra; [exact G|]. exists x. tauto.
      - apply (on_covers p1 b1 k); try lra; [exact K|]. exists y. tauto. }
    { exact Hs. } { exact Hr. }
    rewrite (sq_sym (along (fst k) _ _)) in Lw. rewrite (sq_sym w) in Lw.
    assert (L2 : sq (along (fst g) (snd g) s') (along (fst k) (snd k) r') <= sq u w) by lra.
    destruct (segment_ends _ _ _ G) as (G0 & G1). destruct (segment_ends _ _ _ K) as (K0 & K1).
    assert (First : forall v, In v (polygon p0 b0) -> sq v (along (fst k) (snd k) r') <= sq u w ->
              exists c, In c (both p0 b0 p1 b1) /\ sq (fst c) (snd c) <= sq u w).
    { intros v V H. exists (v, projection v (fst k) (snd k)). split.
      - apply in_app_iff. right. apply candidates_in. exists k, v. tauto.
      - cbn [fst snd]. pose proof (projection_least v (fst k) (snd k) r' Hr'). lra. }
    assert (Second : forall v, In v (polygon p1 b1) -> sq v (along (fst g) (snd g) s') <= sq u w ->
              exists c, In c (both p0 b0 p1 b1) /\ sq (fst c) (snd c) <= sq u w).
    { intros v V H. exists (v, projection v (fst g) (snd g)). split.
      - apply in_app_iff. left. apply candidates_in. exists g, v. tauto.
      - cbn [fst snd]. pose proof (projection_least v (fst g) (snd g) s' Hs'). lra. }
    destruct B as [-> |[-> |[-> | ->]]].
    + rewrite along_0 in L2. exact (First _ G0 L2).
    + rewrite along_1 in L2. exact (First _ G1 L2).
    + rewrite along_0, sq_sym in L2. exact (Second _ K0 L2).
    + rewrite along_1, sq_sym in L2. exact (Second _ K1 L2).
  - assert (V : In w (polygon p1 b1)).
    { rewrite (empty_covers p1 b1 w E1 Hw), polygon_seen. left. reflexivity. }
    destruct (corner_candidate p0 b0 p1 b1 w u S0 V) as (c & C & _ & L).
    { intro C. apply N. exists w. tauto. } { exact Hu. }
    exists c. split; [apply in_app_iff; left; exact C|]. rewrite (sq_sym u w). exact L.
Qed.

Lemma both_nonempty p0 b0 p1 b1 : both p0 b0 p1 b1 <> [].
Proof. unfold both, candidates. rewrite !polygon_seen. cbn. discriminate. Qed.

(** *** The nearest point of a ring *)
Lemma closest_fold query es p d :
  match fold_left (closest_step query) es (p, Some d) with
  | (r, Some e) => e <= d /\ (r = p /\ e = d \/ exists g, In g es /\ r = projection query (fst g) (snd g) /\ e = distance2 query r)
      /\ forall g, In g es -> e <= distance2 query (projection query (fst g) (snd g))
  | (_, None) => False
  end.
Proof.
  revert p d. induction es as [|g es IH]; intros p d.
  - cbn. split; [lra|]. split; [tauto|]. intros ? [].
  - cbn [fold_left]. unfold closest_step at 2. cbn [snd less].
    destruct (Rlt_dec _ _) as [H|H].
    + specialize (IH (projection query (fst g) (snd g)) (distance2 query (projection query (fst g) (snd g)))).
      destruct (fold_left _ _ _) as (r, [e|]); [|exact IH]. destruct IH as (L & F & M). split; [lra|]. split.
      * right. destruct F as [(-> & ->)|(k & K & R1 & R2)]; [exists g|exists k]; cbn [In]; tauto.
      * intros k [<-|K]; [exact L|exact (M k K)].
    + specialize (IH p d). destruct (fold_left _ _ _) as (r, [e|]); [|exact IH]. destruct IH as (L & F & M).
      apply Rnot_lt_le in H. split; [exact L|]. split.
      * destruct F as [F|(k & K & R1 & R2)]; [left; exact F|right; exists k; cbn [In]; tauto].
      * intros k [<-|K]; [lra|exact (M k K)].
Qed.

Lemma closest_found query vertices : vertices <> [] ->
  (exists g, In g (edges vertices) /\ closest_point query vertices = projection query (fst g) (snd g))
  /\ forall g, In g (edges vertices) ->
     distance2 query (closest_point query vertices) <= distance2 query (projection query (fst g) (snd g)).
Proof.
  destruct vertices as [|a l]; [tauto|]. intros _. unfold closest_point.
  assert (E : exists g es, edges (a :: l) = g :: es).
  { cbn [edges tl]. destruct l; cbn; eauto. }
  destruct E as (g & es & ->). cbn [fold_left].
  change (closest_step query (point2 0 0, None) g)
    with (projection query (fst g) (snd g), Some (distance2 query (projection query (fst g) (snd g)))).
  pose proof (closest_fold query es (projection query (fst g) (snd g)) (distance2 query (projection query (fst g) (snd g)))) as C.
  destruct (fold_left _ _ _) as (r, [e|]); [|contradiction]. destruct C as (L & F & M). cbn [fst].
  assert (e = distance2 query r) as Er by (destruct F as [(-> & ->)|(k & _ & _ & ->)]; reflexivity).
  split.
  - destruct F as [(-> & _)|(k & K & -> & _)]; [exists g|exists k]; cbn [In]; tauto.
  - intros k [<-|K]; rewrite <- Er; [exact L|exact (M k K)].
Qed.
