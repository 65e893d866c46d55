(** What random tests should report, and where they should start. *)
From Coq Require Import Reals List Arith.
From Verif Require Import M_Random.
Import ListNotations.
Local Open Scope R_scope.

(** The times of a history do not go back. *)
Inductive ordered : list R -> Prop :=
  | ordered_nil : ordered []
  | ordered_one t : ordered [t]
  | ordered_more l t t' : ordered (l ++ [t]) -> t <= t' -> ordered (l ++ [t; t']).

(** The collisions that are known after a history of collisions *)
Definition met (h : list (nat * R)) : Collisions :=
  fold_left (fun c e => snd (collided c (fst e) (snd e))) h [].

(** The count of standstill after a history of times and speeds *)
Definition driven (h : list (R * R)) : Standstill :=
  fold_left (fun s e => snd (standing s (fst e) (snd e))) h no_standstill.

(** No frame is more than two seconds after the one before. *)
Inductive gapless : list R -> Prop :=
  | gapless_one t : gapless [t]
  | gapless_more l t t' : gapless (l ++ [t]) -> t' - t <= 2 -> gapless (l ++ [t; t']).

Definition slow (e : R * R) : Prop := snd e < 1 / 100.

(** In all frames after some frame before the time [before] it was slow. *)
Definition slow_since (h : list (R * R)) (before : R) : Prop :=
  exists h1 e h2, h = h1 ++ e :: h2 /\ fst e < before /\ Forall slow h2.

(** Travelling from s = [s0] on the lanelet [l0]: the point s of the lanelet l is [d + s] ahead, or [d - s]
    behind. *)
Inductive ahead_by (len : nat -> R) (following : nat -> list nat) (l0 : nat) (s0 : R) : nat -> R -> Prop :=
  | ahead_here : ahead_by len following l0 s0 l0 (- s0)
  | ahead_next l l' d : ahead_by len following l0 s0 l d -> In l' (following l) ->
      ahead_by len following l0 s0 l' (d + len l).
Inductive behind_by (len : nat -> R) (previous : nat -> list nat) (l0 : nat) (s0 : R) : nat -> R -> Prop :=
  | behind_here : behind_by len previous l0 s0 l0 s0
  | behind_next l l' d : behind_by len previous l0 s0 l d -> In l' (previous l) ->
      behind_by len previous l0 s0 l' (d + len l').

(** Where a search starts: the pose, the opposite pose, and the same s on the lanelets beside *)
Definition origin (l : nat) (s : R) (opposite : option (nat * R)) (besides : list nat) (l0 : nat) (s0 : R) : Prop :=
  (l0 = l /\ s0 = s) \/ opposite = Some (l0, s0) \/ (In l0 besides /\ s0 = s).

Definition within (p : Part) (s : R) : Prop := start_s p <= s <= end_s p.

(** A pose is in one of the parts. *)
Definition in_parts (parts : list Part) (p : Pose) : Prop :=
  exists q, In q parts /\ fst p = part_lane q /\ within q (snd p).
