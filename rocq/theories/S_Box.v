(** Specification of bounding boxes seen from above: which points a box covers, its outline, and what
    nearest means. It speaks of poses and boxes, not of polygons or of how they are searched. *)
From Coq Require Import List Reals.
From Verif Require Import M_Ego M_Box.
Local Open Scope R_scope.

(** The straight distance of two points of the plane *)
Definition apart (p q : Point2) : R := sqrt ((px p - px q) * (px p - px q) + (py p - py q) * (py p - py q)).

(** Where the point with coordinates [x], [y] of the box's own axes is, seen from above: the box's top
    is the rectangle around [center] with the lengths [dimensions], placed by the pose. *)
Definition seen (p : Pose) (b : BBox) (x y : R) : Point2 :=
  let v := vec_add (at_ p) (times (rotation_matrix (qx p) (qy p) (qz p) (qw p))
             (vec (vec_x (center b) + x) (vec_y (center b) + y)
                  (vec_z (center b) + vec_z (dimensions b) / 2))) in
  point2 (vec_x v) (vec_y v).
Definition inside (b : BBox) (x y : R) : Prop :=
  Rabs x <= vec_x (dimensions b) / 2 /\ Rabs y <= vec_y (dimensions b) / 2.
Definition covers (p : Pose) (b : BBox) (q : Point2) : Prop :=
  exists x y, inside b x y /\ q = seen p b x y.
(** The points of the four edges, and the four corners *)
Definition outline (p : Pose) (b : BBox) (q : Point2) : Prop :=
  exists x y, inside b x y
    /\ (Rabs x = vec_x (dimensions b) / 2 \/ Rabs y = vec_y (dimensions b) / 2) /\ q = seen p b x y.
Definition corner (p : Pose) (b : BBox) (q : Point2) : Prop :=
  exists x y, Rabs x = vec_x (dimensions b) / 2 /\ Rabs y = vec_y (dimensions b) / 2
    /\ q = seen p b x y.

(** An orientation is a unit quaternion; a vehicle does not stand on its side: the vertical axis of the
    box is not level. *)
Definition orientation (p : Pose) : Prop :=
  qx p * qx p + qy p * qy p + qz p * qz p + qw p * qw p = 1.
Definition upright (p : Pose) : Prop :=
  orientation p /\ vec_z (times (rotation_matrix (qx p) (qy p) (qz p) (qw p)) (vec 0 0 1)) <> 0.
(** On level ground only the heading is turned. *)
Definition level (p : Pose) : Prop := orientation p /\ qx p = 0 /\ qy p = 0.
(** A box with a length and a width, or the empty box of a plain position *)
Definition solid (p : Pose) (b : BBox) : Prop :=
  upright p /\ 0 < vec_x (dimensions b) /\ 0 < vec_y (dimensions b).
Definition empty (b : BBox) : Prop := vec_x (dimensions b) = 0 /\ vec_y (dimensions b) = 0.

(** Two boxes touch when they have a point in common. *)
Definition touch (p0 : Pose) (b0 : BBox) (p1 : Pose) (b1 : BBox) : Prop :=
  exists q, covers p0 b0 q /\ covers p1 b1 q.
(** What is asked of [boost::geometry::disjoint] *)
Definition sound (disjoint : list Point2 -> list Point2 -> bool) (p0 : Pose) (b0 : BBox) (p1 : Pose) (b1 : BBox)
  : Prop :=
  disjoint (polygon p0 b0) (polygon p1 b1) = true <-> ~ touch p0 b0 p1 b1.

(** [a] of the first box and [b] of the second are as near as the boxes get. *)
Definition nearest (p0 : Pose) (b0 : BBox) (p1 : Pose) (b1 : BBox) (a b : Point2) : Prop :=
  covers p0 b0 a /\ covers p1 b1 b
  /\ forall p q, covers p0 b0 p -> covers p1 b1 q -> apart a b <= apart p q.
