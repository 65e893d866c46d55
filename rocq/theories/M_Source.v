(** * Model of traffic sources.

    "source" is /repo/simulation/traffic_simulator/src/traffic/traffic_source.cpp, "source.hpp" its
    header. Simplifications: times and rates are rationals (no rounding); which entity is spawned where
    (random pose, validity) is up to the caller: spawning a name either succeeds or throws. *)
From Coq Require Import String Ascii DecimalString.
From Coq Require Import List Bool Arith ZArith QArith.
Import ListNotations.
Local Open Scope string_scope.

(** std::to_string(std::size_t). *)
Definition decimal (n : nat) : string := NilEmpty.string_of_uint (Nat.to_uint n).
(** source:106-107. *)
Definition entity_name (id count : nat) : string :=
  "TrafficSource_" ++ decimal id ++ "_Entity_" ++ decimal count.

(** source.hpp:106-150: rate, start_execution_time_, id, entity_count_. *)
Record source := { rate : Q; t0 : Q; id : nat; count : nat }.
(** source.hpp:73-105, constructor. *)
Definition new_source (r : Q) (i : nat) (now : option Q) (delay : Q) : source :=
  {| rate := r; id := i; count := 0;
     t0 := ((match now with Some t => t | None => 0 end) + (if Qle_bool 0 delay then delay else 0))%Q |}.

(** source:101: current_time - start_execution_time_ > 1.0 / rate * entity_count_. None is NaN. With
    rate 0 the right-hand side is inf * 0 = NaN (entity_count_ stays 0). *)
Definition due (s : source) (t : option Q) : bool :=
  match t with
  | None => false
  | Some t =>
      if Qeq_bool (rate s) 0 then false
      else negb (Qle_bool (t - t0 s) (1 / rate s * inject_Z (Z.of_nat (count s))))%Q
  end.

Section Execute.
  Context {W : Type} (spawn : string -> W -> W * bool).
  Inductive outcome := Done (s : source) (w : W) | Threw (s : source) (w : W) | OutOfFuel.
  (** source:98-147, execute: the for loop. *)
  Fixpoint execute (fuel : nat) (t : option Q) (s : source) (w : W) : outcome :=
    match fuel with
    | O => OutOfFuel
    | S fuel' =>
        if due s t then
          let '(w', ok) := spawn (entity_name (id s) (count s)) w in
          if ok then execute fuel' t {| rate := rate s; t0 := t0 s; id := id s; count := S (count s) |} w'
          else Threw s w'
        else Done s w
    end.
  (** One execution per frame; the first exception ends the run. *)
  Fixpoint executions (fuel : nat) (ts : list (option Q)) (s : source) (w : W) : outcome :=
    match ts with
    | [] => Done s w
    | t :: ts' => match execute fuel t s w with Done s' w' => executions fuel ts' s' w' | o => o end
    end.
End Execute.
