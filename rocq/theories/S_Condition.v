(** Specification of conditions over the whole, never discarded, history of evaluations:
    evaluation [i] happens at time [t i] and the expression then has the value [v i]. *)
From Coq Require Import ZArith List.
From Verif Require Import M_Storyboard M_Condition.
Import ListNotations.
Local Open Scope Z_scope.

(** Simulation time never runs backwards. *)
Definition monotone (t : nat -> Z) : Prop := forall i j, (i <= j)%nat -> t i <= t j.

(** [k] is the latest evaluation (up to and including evaluation [n]) whose time is not later than
    [delay] before evaluation [n]. *)
Definition latest (t : nat -> Z) (d : Z) (n k : nat) : Prop :=
  (k <= n)%nat /\ t k <= t n - d /\ forall j, (k < j <= n)%nat -> t n - d < t j.

(** What evaluation [n] has to answer. *)
Definition spec_answer (e : edge) (t : nat -> Z) (v : nat -> bool) (d : Z) (n : nat) : Prop :=
  match e with
  | NoEdge => exists k, latest t d n k /\ v k = true
  | Rising => exists k, latest t d n (S k) /\ v (S k) = true /\ v k = false
  | Falling => exists k, latest t d n (S k) /\ v (S k) = false /\ v k = true
  | RisingOrFalling => exists k, latest t d n (S k) /\ v (S k) <> v k
  | Sticky => exists m k, (m <= n)%nat /\ latest t d m k /\ v k = true
  end.

(** The number of evaluations in the last delay window, (t n - d, t n]. *)
Definition in_window (t : nat -> Z) (d : Z) (n : nat) : nat :=
  length (filter (fun i => t n - d <? t i) (seq 0 (S n))).

(** Evaluations every [dt]. *)
Definition uniform (t : nat -> Z) (dt : Z) : Prop := forall i, t (S i) = t i + dt.

(** ceil (d / dt). *)
Definition lag (d dt : Z) (c : nat) : Prop := (Z.of_nat c - 1) * dt < d <= Z.of_nat c * dt.

(** The states a storyboard element has visited: its initial state and every one entered. *)
Fixpoint visited (ops : list sop) (s : state) : Prop :=
  match ops with
  | [] => False
  | Enter s' :: ops' => s' = s \/ visited ops' s
  | Evaluate :: ops' => visited ops' s
  end.

(** All (group, index) pairs of a trigger in document order. *)
Definition document_order (tr : trigger) : list name :=
  concat (map (fun '(g, gr) => map (fun i => (g, i)) (seq 0 (length (g_conds gr))))
              (combine (seq 0 (length (tr_groups tr))) (tr_groups tr))).

(** Condition [i] of group [g]. *)
Definition cond_at (tr : trigger) (n : name) : option condition :=
  match nth_error (tr_groups tr) (fst n) with
  | Some gr => nth_error (g_conds gr) (snd n)
  | None => None
  end.
