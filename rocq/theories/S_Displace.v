(** What an observer sees of the noise. *)
From Coq Require Import Reals List.
From Verif Require Import M_Ego M_Box M_Quaternion.
Local Open Scope R_scope.

(** A point of the plane turned about another by an angle, to the left. *)
Definition turned_about (o : Point2) (angle : R) (p : Point2) : Point2 :=
  point2 (px o + (cos angle * (px p - px o) - sin angle * (py p - py o)))
         (py o + (sin angle * (px p - px o) + cos angle * (py p - py o))).
(** Where a point is that is so far away from an observer in a direction and so far to the right. *)
Definition seen_from (o : Point2) (direction : Point2) (away right_ : R) : Point2 :=
  point2 (px o + away * px direction + right_ * py direction)
         (py o + away * py direction - right_ * px direction).
(** A point moved the way that leads from one point to another. *)
Definition moved (o p : Point2) (q : Point2) : Point2 :=
  point2 (px q + (px p - px o)) (py q + (py p - py o)).
(** Where a point of the entity, given in its own coordinates, is on the map. *)
Definition lies (p : Pose) (v : Vec) : Point2 := flatten (transform_point p v).
(** The point of an entity opposite to one, seen from its middle. *)
Definition opposite (b : BBox) (v : Vec) : Vec :=
  vec (2 * vec_x (center b) - vec_x v) (2 * vec_y (center b) - vec_y v) (vec_z v).
