(** What following a trajectory means, independently of how the plugin finds the position. *)
From Coq Require Import Reals List.
From Verif Require Import M_Ego M_Quaternion M_Nothing.
Import ListNotations.
Local Open Scope R_scope.

(** A point of a path with the time at which it is to be there. *)
Record Stop : Set := stop { s_time : R; s_at : Vec; s_facing : Quat }.
(** At least two points, and each is to be reached later than the one before it. *)
Fixpoint later (t : R) (l : list Stop) : Prop :=
  match l with [] => True | p :: r => t < s_time p /\ later (s_time p) r end.
Definition in_order (l : list Stop) : Prop :=
  match l with [] => False | p :: r => r <> [] /\ later (s_time p) r end.
(** Two points of a path, one directly after the other. *)
Definition successive (l : list Stop) (a b : Stop) : Prop := exists l1 l2, l = l1 ++ a :: b :: l2.
(** Between two points one moves in a straight line and evenly. *)
Definition between (a b : Stop) (t : R) (p : Vec) : Prop :=
  s_time a <= t <= s_time b /\
  let d := s_time b - s_time a in
  d * (vec_x p - vec_x (s_at a)) = (t - s_time a) * (vec_x (s_at b) - vec_x (s_at a)) /\
  d * (vec_y p - vec_y (s_at a)) = (t - s_time a) * (vec_y (s_at b) - vec_y (s_at a)) /\
  d * (vec_z p - vec_z (s_at a)) = (t - s_time a) * (vec_z (s_at b) - vec_z (s_at a)).
(** The first and the last point of a path. *)
Definition begins (l : list Stop) (a : Stop) : Prop := exists r, l = a :: r.
Definition ends (l : list Stop) (a : Stop) : Prop := exists r, l = r ++ [a].

(** The trajectory that is in effect when these points are asked for with the times counted from
    [start], as the plugin is given it. *)
Definition point_of (p : Stop) : Vertex := vertex (Some (s_time p)) (s_at p) (s_facing p).
Definition timed (start : R) (l : list Stop) : Trajectory :=
  trajectory (Some start) (map point_of l) false true 0.
