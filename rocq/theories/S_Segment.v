(** Plane geometry in which the properties of segments are stated. Nothing here refers to the
    model except the points. *)
From Coq Require Import Reals List.
From Verif Require Import M_Segment.
Import ListNotations.
Open Scope R_scope.

(** The point of the plane at the fraction [t] of the way from [a] to [b]. *)
Definition at_fraction (a b : Point) (t : R) : R * R :=
  (x a + t * (x b - x a), y a + t * (y b - y a)).

(** The point [p] of the plane lies between [a] and [b]. *)
Definition between (a b : Point) (p : R * R) : Prop :=
  exists t, 0 <= t <= 1 /\ p = at_fraction a b t.

(** The segments from [a] to [b] and from [c] to [d] have a point of the plane in common. *)
Definition meet (a b c d : Point) : Prop :=
  exists p, between a b p /\ between c d p.

(** Twice the signed area of the triangle [a], [b], [p]: positive when [p] is to the left. *)
Definition turn (a b p : Point) : R :=
  (x b - x a) * (y p - y a) - (y b - y a) * (x p - x a).

(** The triangle is either flat or large enough to be seen. *)
Definition visible (a b p : Point) : Prop :=
  turn a b p = 0 \/ epsilon < Rabs (turn a b p).

Definition all_visible (a b c d : Point) : Prop :=
  visible a b c /\ visible a b d /\ visible c d a /\ visible c d b.

(** The directions' parallelogram, zero for parallel segments. *)
Definition slant (a b c d : Point) : R :=
  (x b - x a) * (y d - y c) - (y b - y a) * (x d - x c).

(** A polyline: neighbours in a list of points. *)
Inductive neighbours : list Point -> Point -> Point -> Prop :=
| here p q rest : neighbours (p :: q :: rest) p q
| later r rest p q : neighbours rest p q -> neighbours (r :: rest) p q.

(** The space point [p] lies between [a] and [b]. *)
Definition between_3d (a b p : Point) : Prop :=
  exists t, 0 <= t <= 1 /\
    x p = x a + t * (x b - x a) /\ y p = y a + t * (y b - y a) /\ z p = z a + t * (z b - z a).

(** Segments follow one another, from [p] to [q]. *)
Fixpoint linked (p : Point) (segments : list Segment) (q : Point) : Prop :=
  match segments with
  | [] => p = q
  | s :: rest => start_point s = p /\ linked (end_point s) rest q
  end.
