(** * Specification of simulation time.

    Given the calls and their results, what every clock must show. *)
From Coq Require Import ZArith QArith List Bool.
From Verif Require Import M_Clock.
Import ListNotations.
Local Open Scope Q_scope.

(** The time that passes: each successful frame takes the step in force, factor / rate; a factor of at
    least 0.001 replaces the old one. *)
Fixpoint elapsed (f r : Q) (xs : list (call * result)) : Q :=
  match xs with
  | [] => 0
  | (SetStepTime s _, _) :: xs' => elapsed (if Qle_bool (1 # 1000) s then s else f) r xs'
  | (UpdateFrame _ _ _ _, Yes) :: xs' => f / r + elapsed f r xs'
  | _ :: xs' => elapsed f r xs'
  end.
(** The part of the history after the accepted start, if any, with the factor in force then. *)
Fixpoint after_start (f : Q) (xs : list (call * result)) : option (Q * list (call * result)) :=
  match xs with
  | [] => None
  | (StartNpcLogic, Yes) :: xs' => Some (f, xs')
  | (SetStepTime s _, _) :: xs' => after_start (if Qle_bool (1 # 1000) s then s else f) xs'
  | _ :: xs' => after_start f xs'
  end.
(** Scenario time: what elapsed since the start; undefined before. *)
Definition scenario_clock (f r : Q) (xs : list (call * result)) : option Q :=
  match after_start f xs with Some (f', ys) => Some (elapsed f' r ys) | None => None end.
Definition same (a b : option Q) : Prop :=
  match a, b with Some x, Some y => x == y | None, None => True | _, _ => False end.

(** How many frames succeeded. *)
Definition frames (xs : list (call * result)) : nat :=
  length (filter (fun x => match x with (UpdateFrame _ _ _ _, Yes) => true | _ => false end) xs).
