(** * What a user expects of the occupancy grid *)

From Coq Require Import ZArith QArith List.
Import ListNotations.
Open Scope Z_scope.

(** ** Cells and segments *)

(** The point lies in the cell, its border included. *)
Definition in_cell (c : Z * Z) (p : Q * Q) : Prop :=
  (inject_Z (fst c) <= fst p <= inject_Z (fst c + 1) /\
   inject_Z (snd c) <= snd p <= inject_Z (snd c + 1))%Q.

(** ... its border excluded. *)
Definition inside_cell (c : Z * Z) (p : Q * Q) : Prop :=
  (inject_Z (fst c) < fst p < inject_Z (fst c + 1) /\
   inject_Z (snd c) < snd p < inject_Z (snd c + 1))%Q.

(** The point a fraction [u] of the way from [p] to [q]. *)
Definition along (p q : Q * Q) (u : Q) : Q * Q :=
  ((fst p + u * (fst q - fst p))%Q, (snd p + u * (snd q - snd p))%Q).

(** A moving point passes the cells one after the other, from time [t] to 1. *)
Inductive passes (f : Q -> Q * Q) : Q -> list (Z * Z) -> Prop :=
| passes_last t c : (t <= 1)%Q -> (forall u, t <= u <= 1 -> in_cell c (f u))%Q ->
    passes f t [c]
| passes_more t t' c l : (t <= t')%Q -> (t' <= 1)%Q ->
    (forall u, t <= u <= t' -> in_cell c (f u))%Q ->
    passes f t' l -> passes f t (c :: l).

(** Cells that share a side. *)
Definition neighbours (a b : Z * Z) : Prop :=
  Z.abs (fst a - fst b) + Z.abs (snd a - snd b) = 1.

Inductive connected : list (Z * Z) -> Prop :=
| connected_one c : connected [c]
| connected_more a b l : neighbours a b -> connected (b :: l) -> connected (a :: b :: l).

(** ** Polygons *)

Definition sides (poly : list (Q * Q)) : list ((Q * Q) * (Q * Q)) :=
  match poly with [] => [] | p :: r => combine poly (r ++ [p]) end.

(** Positive when [p] lies to the left of the line from [a] to [b]. *)
Definition side (a b p : Q * Q) : Q :=
  ((fst b - fst a) * (snd p - snd a) - (snd b - snd a) * (fst p - fst a))%Q.

(** The point lies inside the convex polygon: on the same side of all its sides, whichever way
    round they are listed, and below one vertex and above another. *)
Definition inside (poly : list (Q * Q)) (p : Q * Q) : Prop :=
  ((forall s, In s (sides poly) -> side (fst s) (snd s) p <= 0)%Q \/
   (forall s, In s (sides poly) -> 0 <= side (fst s) (snd s) p)%Q) /\
  (exists v, In v poly /\ snd v < snd p)%Q /\ (exists v, In v poly /\ snd p < snd v)%Q.

(** The point lies on the outline. *)
Definition on_outline (poly : list (Q * Q)) (p : Q * Q) : Prop :=
  exists s u, In s (sides poly) /\ (0 <= u <= 1)%Q /\
    (fst p == fst (along (fst s) (snd s) u))%Q /\ (snd p == snd (along (fst s) (snd s) u))%Q.

(** The vertices have positive coordinates and do not lie on the lines between cells. *)
Definition off_lines (poly : list (Q * Q)) : Prop :=
  forall v, In v poly -> (0 <= fst v /\ 0 <= snd v)%Q /\
    forall z, ~ (fst v == inject_Z z)%Q /\ ~ (snd v == inject_Z z)%Q.

(** All vertices lie in one cell. *)
Definition within_a_cell (poly : list (Q * Q)) : Prop :=
  exists c, forall v, In v poly -> in_cell c v.
