(** What interpolation in a table means. *)
From Coq Require Import Reals List.
Import ListNotations.
Open Scope R_scope.

(** [r] is the value at [q] of the straight line between two neighbouring entries around [q]. *)
Definition on_line (keys values : list R) (q r : R) : Prop :=
  exists i k0 k1 v0 v1,
    nth_error keys i = Some k0 /\ nth_error keys (S i) = Some k1 /\
    nth_error values i = Some v0 /\ nth_error values (S i) = Some v1 /\
    k0 <= q <= k1 /\ k0 < k1 /\ (r - v0) * (k1 - k0) = (v1 - v0) * (q - k0).

(** Every key is above the ones before it. *)
Definition ascending (keys : list R) : Prop :=
  forall i j a b, nth_error keys i = Some a -> nth_error keys j = Some b -> (i < j)%nat -> a < b.

(** A usable table: at least two speeds and two accelerations, ascending, and rows as long as there
    are speeds, as many as there are accelerations *)
Definition usable (speeds accelerations : list R) (rows : list (list R)) : Prop :=
  (2 <= List.length speeds)%nat /\ (2 <= List.length accelerations)%nat /\
  ascending speeds /\ ascending accelerations /\
  List.length rows = List.length accelerations /\
  forall row, In row rows -> List.length row = List.length speeds.

(** The number between the first and the last key nearest to [q] *)
Definition nearest_key (keys : list R) (q : R) : R := Rmin (Rmax q (hd 0 keys)) (last keys 0).
