(** Specification of job lists in terms of the operations made and the callbacks called. *)
From Coq Require Import List Bool Arith QArith.
From Verif Require Import M_Job.
Import ListNotations.

Section Spec.
Context {W : Type}.

(** What was asked for by the n-th Append of a history. *)
Record kind := { k_type : type; k_exclusive : bool; k_event : event }.
Fixpoint requested (os : list (op W)) : list kind :=
  match os with
  | [] => []
  | Append _ _ t ex e :: os' => {| k_type := t; k_exclusive := ex; k_event := e |} :: requested os'
  | _ :: os' => requested os'
  end.
Definition same_key (a b : kind) : Prop := k_type a = k_type b /\ k_exclusive a = k_exclusive b.
End Spec.

(** The elapsed times job [i] was updated with, in order. *)
Fixpoint elapsed_times (i : nat) (cs : list call) : list Q :=
  match cs with
  | [] => []
  | Updated k d _ :: cs' => if Nat.eqb k i then d :: elapsed_times i cs' else elapsed_times i cs'
  | CleanedUp _ :: cs' => elapsed_times i cs'
  end.
Fixpoint cleanups (i : nat) (cs : list call) : nat :=
  match cs with
  | [] => 0
  | CleanedUp k :: cs' => if Nat.eqb k i then S (cleanups i cs') else cleanups i cs'
  | Updated _ _ _ :: cs' => cleanups i cs'
  end.
Definition concerns (i : nat) (c : call) : Prop :=
  match c with Updated k _ _ => k = i | CleanedUp k => k = i end.

Definition concernsb (i : nat) (c : call) : bool :=
  match c with Updated k _ _ => Nat.eqb k i | CleanedUp k => Nat.eqb k i end.
(** The calls of job [i] only. *)
Definition about (i : nat) (cs : list call) : list call := filter (concernsb i) cs.

Section Since.
Context {W : Type}.
(** The number of updates of event [e] made after the [i]-th Append (counting from 0). *)
Fixpoint count_updates (e : event) (os : list (op W)) : nat :=
  match os with
  | [] => 0
  | Update _ e' :: os' => if event_eqb e' e then S (count_updates e os') else count_updates e os'
  | _ :: os' => count_updates e os'
  end.
Fixpoint updates_since (i : nat) (e : event) (os : list (op W)) : nat :=
  match os with
  | [] => 0
  | Append _ _ _ _ _ :: os' => match i with O => count_updates e os' | S i' => updates_since i' e os' end
  | _ :: os' => updates_since i e os'
  end.
(** All updates have the same step. *)
Definition steady (dt : Q) (os : list (op W)) : Prop :=
  forall step e, In (Update step e) os -> step = dt.
End Since.
