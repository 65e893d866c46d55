(** * Model of the rate at which traffic lights are published.

    Paths are relative to /repo/simulation/traffic_simulator. *)
From Coq Require Import Reals List.
Import ListNotations.
Local Open Scope R_scope.

(** include/traffic_simulator/traffic_lights/configurable_rate_updater.hpp:46-48: [update_rate_] and
    [timer_], with the period of the timer. A timer that is cancelled is let go of at once and nothing
    else can cancel one, so [is_canceled] is never true of [timer_]. [firing] are the periods of all
    timers that were created and not cancelled, whether held or not. *)
Record updater := { rate : R; timer : option R; firing : list R }.
Definition fresh : updater := {| rate := 0; timer := None; firing := [] |}.

(** src/traffic_lights/configurable_rate_updater.cpp:20-28, startTimer. *)
Definition start_timer (u : updater) (r : R) : updater :=
  match timer u with
  | Some _ => u
  | None => {| rate := r; timer := Some (1 / r); firing := (1 / r) :: firing u |}
  end.
(** The timer held, which is the one created last, is cancelled. *)
Definition cancel (u : updater) : updater :=
  match timer u with
  | Some _ => {| rate := rate u; timer := None; firing := tl (firing u) |}
  | None => u
  end.
(** src/traffic_lights/configurable_rate_updater.cpp:30-37, resetTimer. *)
Definition reset_timer (u : updater) (r : R) : updater := start_timer (cancel u) r.

(** src/traffic_lights/traffic_lights_base.cpp:21-29: what is called. *)
Inductive request := Start (r : R) | Reset (r : R).
Definition obey (u : updater) (q : request) : updater :=
  match q with Start r => start_timer u r | Reset r => reset_timer u r end.
Definition after (h : list request) : updater := fold_left obey h fresh.
