(** * Specification of lane changes. *)
From Coq Require Import List Bool Arith ZArith QArith Qabs.
From Verif Require Import M_LaneChange.
Import ListNotations.
Local Open Scope Z_scope.

(** A lane that is reached by changing so many times to the lane on one side. *)
Inductive reach (side : Z -> option Z) : nat -> Z -> Z -> Prop :=
| Reach_here l : reach side 0 l l
| Reach_next n l l' l'' : side l = Some l' -> reach side n l' l'' -> reach side (S n) l l''.

(** The lane of the entity that a target names: the requesting one or another that it knows. *)
Inductive lane_of (e : entity) : nat -> Z -> Prop :=
| Lane_own l : e_lane e = Some l -> lane_of e (e_name e) l
| Lane_other n l : n <> e_name e -> e_others e n = Some (Some l) -> lane_of e n l.

(** A way along lanes and the number of changes to the left and to the right in it. *)
Inductive counted (next lefts rights : Z -> list Z) : list Z -> nat -> nat -> Prop :=
| Counted_end l : counted next lefts rights [l] 0 0
| Counted_ahead l l' r a b : In l' (next l) ->
    counted next lefts rights (l' :: r) a b -> counted next lefts rights (l :: l' :: r) a b
| Counted_left l l' r a b : In l' (lefts l) ->
    counted next lefts rights (l' :: r) a b -> counted next lefts rights (l :: l' :: r) (S a) b
| Counted_right l l' r a b : In l' (rights l) ->
    counted next lefts rights (l' :: r) a b -> counted next lefts rights (l :: l' :: r) a (S b).

(** No lane lies both ahead of, to the left of or to the right of another. *)
Definition exclusive (next lefts rights : Z -> list Z) : Prop :=
  forall l l', (In l' (next l) -> ~ In l' (lefts l) /\ ~ In l' (rights l)) /\
  (In l' (lefts l) -> ~ In l' (rights l)).

(** A point at a whole metre of the target lane to which the entity may drive: on the lane, more
    than a metre ahead of it, along a curve that nowhere bends by ten or more. *)
Definition suitable (to : Z -> curve) (length : Q) (s : Z) : Prop :=
  0 <= s /\ (inject_Z s < length /\ 1 < ahead (to s) /\ curvature (to s) < 10)%Q.
(** How far the length of the curve is from twenty metres. *)
Definition misfit (k : curve) : Q := Qabs (20 - extent k).
