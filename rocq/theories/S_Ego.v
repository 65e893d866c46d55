(** Words for the properties of the simulated ego entity. *)
From Coq Require Import Reals.
From Verif Require Import M_Vehicle M_Ego.
Open Scope R_scope.

(** The initial pose of the ego entity has an orientation, given by a quaternion of length one. *)
Definition oriented (e : Ego) : Prop :=
  exists x y z w, x * x + y * y + z * z + w * w = 1 /\ frame e = rotation_matrix x y z w.

(** The height of a position above the plane of the initial pose: the product with the third axis of
    the initial pose *)
Definition above_plane (e : Ego) (p : Vec) : R :=
  m13 (frame e) * (vec_x p - vec_x (origin e)) + m23 (frame e) * (vec_y p - vec_y (origin e))
  + m33 (frame e) * (vec_z p - vec_z (origin e)).

(** The initial pose is level. *)
Definition level (e : Ego) : Prop := m13 (frame e) = 0 /\ m23 (frame e) = 0.
