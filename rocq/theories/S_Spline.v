(** Words for the properties of splines; of the model only points are used, and the tolerance and
    the equations of the solver. *)
From Coq Require Import Reals List.
From Verif Require Import M_Segment M_Solver S_Segment S_Solver.
Import ListNotations.
Open Scope R_scope.

(** [points] is [raw] without repetitions of neighbours. *)
Inductive thinned : list Point -> list Point -> Prop :=
| thin_none : thinned [] []
| thin_one p : thinned [p] [p]
| thin_drop p raw points : thinned (p :: raw) points -> thinned (p :: p :: raw) points
| thin_keep p q raw points : p <> q -> thinned (q :: raw) points ->
    thinned (p :: q :: raw) (p :: points).

(** Numbers that grow from one to the next *)
Definition growing (l : list R) : Prop :=
  forall i j s t, (i < j)%nat -> nth_error l i = Some s -> nth_error l j = Some t -> s < t.

(** Vectors are written as points. *)
Definition plus (p q : Point) : Point := point (x p + x q) (y p + y q) (z p + z q).
Definition times (k : R) (p : Point) : Point := point (k * x p) (k * y p) (k * z p).
Definition minus (p q : Point) : Point := point (x p - x q) (y p - y q) (z p - z q).
Definition norm (p : Point) : R := sqrt (x p * x p + y p * y p + z p * z p).
Definition zero : Point := point 0 0 0.

(** A partial curve is defined everywhere and all its coordinates are continuous. *)
Definition continuous (f : R -> option Point) : Prop :=
  exists fx fy fz, continuity fx /\ continuity fy /\ continuity fz /\
    forall s, f s = Some (point (fx s) (fy s) (fz s)).

(** Points one step [d] apart, [n] of them *)
Fixpoint evenly (p d : Point) (n : nat) : list Point :=
  match n with O => [] | S m => p :: evenly (plus p d) d m end.

(** The edges of a closed polygon *)
Definition edge_of (polygon : list Point) (p q : Point) : Prop :=
  neighbours polygon p q \/
  exists first rest, polygon = first :: rest /\ p = last polygon first /\ q = first.

(** An equation the solver is exact for: of degree three away from a triple root and from a double
    one on the wrong side, or of degree two away from a double root, or of degree one. *)
Definition solvable (a b c d : R) : Prop :=
  (tolerance < Rabs a /\ exists q r, reduced a b c d q r /\ sharp q r) \/
  (a = 0 /\ tolerance < Rabs b /\ tolerance < Rabs (c * c - 4 * b * d)) \/
  (a = 0 /\ b = 0 /\ tolerance < Rabs c).

(** The same without the case of one real root, in which an almost real pair may be added *)
Definition exactly_solvable (a b c d : R) : Prop :=
  (tolerance < Rabs a /\ exists q r, reduced a b c d q r /\ 0 < q /\ r ^ 2 <= q ^ 3) \/
  (a = 0 /\ tolerance < Rabs b /\ tolerance < Rabs (c * c - 4 * b * d)) \/
  (a = 0 /\ b = 0 /\ tolerance < Rabs c).

(** The function [f] is a polynomial whose equation is of the kind [K]. *)
Definition equation (K : R -> R -> R -> R -> Prop) (f : R -> R) : Prop :=
  exists a b c d, (forall t, f t = cubic_at a b c d t) /\ K a b c d.

(** The ends of the edge differ in the plane. *)
Definition proper (p q : Point) : Prop := x p <> x q \/ y p <> y q.

(** The point lies on the edge, seen from above. *)
Definition on_edge (p q u : Point) : Prop := between p q (x u, y u).
