(** Words for the properties of the polynomial solver; only the two constants of the code are
    taken from the model. *)
From Coq Require Import Reals List.
From Verif Require Import M_Solver.
Open Scope R_scope.

(** The polynomials themselves *)
Definition cubic_at (a b c d x : R) : R := a * x ^ 3 + b * x ^ 2 + c * x + d.
Definition quadratic_at (a b c x : R) : R := a * x ^ 2 + b * x + c.

(** [v] is [x], moved to the nearer end of the range [lo] to [hi] if it is outside of it by no more
    than the tolerance. *)
Definition snapped (lo hi x v : R) : Prop :=
  (lo <= x <= hi /\ v = x) \/
  (hi < x <= hi + tolerance /\ v = hi) \/
  (lo - tolerance <= x < lo /\ v = lo).

(** The form without a square: the two numbers [q] and [r] decide how many roots there are. There
    are three (with multiplicity) when r^2 <= q^3, and one otherwise. *)
Definition reduced (a b c d q r : R) : Prop :=
  forall x, cubic_at a b c d x
            = a * ((x + b / (3 * a)) ^ 3 - 3 * q * (x + b / (3 * a)) + 2 * r).

(** Neither a triple root nor within the tolerance of having a double one on the wrong side *)
Definition sharp (q r : R) : Prop :=
  (0 < q /\ r ^ 2 <= q ^ 3) \/ q ^ 3 + tolerance < r ^ 2.

(** [v] and [i] are the real and imaginary part of a pair of complex roots. *)
Definition complex_pair (a b c d v i : R) : Prop :=
  exists w, forall x, cubic_at a b c d x = a * (x - w) * ((x - v) ^ 2 + i ^ 2).
