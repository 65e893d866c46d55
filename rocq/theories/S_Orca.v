(** * Specification: choosing a velocity that avoids collisions. *)
From Coq Require Import List Reals.
From Verif Require Import M_Orca.
Local Open Scope R_scope.

(** A velocity is on the left of a line, or on it. *)
Definition left_of (l : line) (v : vec) : Prop :=
  0 <= vx (direction l) * (vy v - vy (point l)) - vy (direction l) * (vx v - vx (point l)).
(** How far it is on the right of a line whose direction has length one; negative on the left. *)
Definition to_the_right (l : line) (v : vec) : R :=
  vy (direction l) * (vx v - vx (point l)) - vx (direction l) * (vy v - vy (point l)).
Definition length2 (v : vec) : R := vx v * vx v + vy v * vy v.
Definition distance2 (v w : vec) : R :=
  (vx v - vx w) * (vx v - vx w) + (vy v - vy w) * (vy v - vy w).
(** No faster than allowed and on the left of all lines. *)
Definition slow (speed : R) (v : vec) : Prop := length2 v <= speed * speed.
Definition allowed (lines : list line) (speed : R) (v : vec) : Prop :=
  slow speed v /\ forall l, In l lines -> left_of l v.
(** The allowed velocity that is nearest to the preferred one. *)
Definition nearest (lines : list line) (speed : R) (preferred v : vec) : Prop :=
  allowed lines speed v /\
  forall w, allowed lines speed w -> distance2 v preferred <= distance2 w preferred.
(** No velocity that is slow enough keeps all lines with a smaller bound on how far it is on the right. *)
Definition least_wrong (lines : list line) (speed : R) (v : vec) : Prop :=
  slow speed v /\
  forall w bound, slow speed w -> (forall l, In l lines -> to_the_right l w <= bound) ->
    forall l, In l lines -> to_the_right l v <= bound.

(** Directions of length one; two directions are parallel, or the sine of their angle exceeds the threshold. *)
Definition unit (l : line) : Prop := length2 (direction l) = 1.
Definition crisp (a b : vec) : Prop :=
  vx a * vy b - vy a * vx b = 0 \/ 1 / 100000 < Rabs (vx a * vy b - vy a * vx b).
(** The directions of the bisectors of three lines, made of length one, likewise. *)
Definition bisector (a b : vec) : vec :=
  let d := Vec (vx b - vx a) (vy b - vy a) in
  Vec (vx d / sqrt (length2 d)) (vy d / sqrt (length2 d)).
Definition crisp_lines (lines : list line) : Prop :=
  (forall l, In l lines -> unit l) /\
  (forall a b, In a lines -> In b lines -> crisp (direction a) (direction b)).
Definition crisp_bisectors (lines : list line) : Prop :=
  forall a b c, In a lines -> In b lines -> In c lines ->
    direction b <> direction a -> direction c <> direction a ->
    crisp (bisector (direction a) (direction b)) (bisector (direction a) (direction c)).

(** The vector between the centres after some time, if both entities keep their velocities. *)
Definition after (between v w : vec) (t : R) : vec :=
  Vec (vx between + (vx w - vx v) * t) (vy between + (vy w - vy v) * t).
Definition opposite (a : vec) : vec := Vec (- vx a) (- vy a).
Definition difference (a b : vec) : vec := Vec (vx a - vx b) (vy a - vy b).
(** The relative velocity, seen from the one that would take five seconds to the centre of the other entity. *)
Definition beyond (between relative : vec) : vec :=
  Vec (vx relative - vx between / 5) (vy relative - vy between / 5).
Definition product (a b : vec) : R := vx a * vx b + vy a * vy b.
(** It is nearer to the front of the forbidden cone than to one of its sides. *)
Definition at_front (between relative : vec) (r : R) : Prop :=
  let w := beyond between relative in
  product w between < 0 /\ r * r * length2 w < product w between * product w between.
