(** * Model of the simulation clock and of the frame loop of the API.

    Paths are relative to /repo/simulation/traffic_simulator; "clock" is
    src/simulation_clock/simulation_clock.cpp, "clock.hpp" its header, "api" is src/api/api.cpp.
    Simplifications: seconds are rationals (no rounding of double); NaN scenario time is None; int64
    nanoseconds are unbounded integers; what the entities and the traffic modules do with the time they
    are given is not modelled here; the answers of the environment simulator are inputs. *)
From Coq Require Import ZArith QArith Qround List Bool.
Import ListNotations.
Local Open Scope Q_scope.

(** clock.hpp:51-61. [ros_start] is time_at_the_start_of_the_simulator_ (0 with use_sim_time). *)
Record clock :=
  { factor : Q; rate : Q; since : Q; at_start : option Q }.
(** clock:20-27. *)
Definition new_clock (f r : Q) : clock := {| factor := f; rate := r; since := 0; at_start := None |}.
(** clock.hpp:41, getStepTime. *)
Definition step_time (c : clock) : Q := factor c / rate c.
(** clock:29-32, update. *)
Definition update (c : clock) : clock :=
  {| factor := factor c; rate := rate c; since := since c + factor c / rate c; at_start := at_start c |}.
(** clock.hpp:34-37, getCurrentScenarioTime. *)
Definition scenario_time (c : clock) : option Q :=
  match at_start c with Some s => Some (since c - s) | None => None end.
(** clock.hpp:39, getCurrentSimulationTime. *)
Definition simulation_time (c : clock) : Q := since c.
(** rclcpp::Duration::from_seconds: 1e9 * seconds converted to int64 (toward zero). *)
Definition nanoseconds (s : Q) : Z := Z.quot (Qnum s * 1000000000) (Zpos (Qden s)).
(** clock:41-49, getCurrentRosTime, with use_sim_time. *)
Definition ros_time (c : clock) : Z := nanoseconds (simulation_time c).
(** clock:51-59, start; None: throws. *)
Definition start (c : clock) : option clock :=
  match at_start c with
  | Some _ => None
  | None => Some {| factor := factor c; rate := rate c; since := since c; at_start := Some (since c) |}
  end.

(** What happens inside a frame, in order. *)
Inductive event :=
| StatusesExchanged
| EntitiesUpdated (t : option Q) (step : Q)
| ModulesExecuted (t : option Q) (step : Q)
| LightsSent
| TimeSent (sim : Q) (scen : option Q) (ros : Z)
| Published (ros : Z)
| NpcStarted (t : option Q)
| StepTimeSent (step : Q).
Inductive result := Yes | No | Throws.

(** entity_manager.hpp: npc_logic_started_; configuration_.standalone_mode. *)
Record api := { c : clock; npc_started : bool; standalone : bool }.
Definition with_clock (k : clock) (a : api) : api :=
  {| c := k; npc_started := npc_started a; standalone := standalone a |}.

(** Calls of the API, with the answers of the environment simulator. *)
Inductive call :=
| SetStepTime (s : Q) (answer : bool)
| StartNpcLogic
| UpdateFrame (any_ego status_ok lights_ok time_ok : bool).

(** api:39-53, setSimulationStepTime. *)
Definition set_step_time (s : Q) (answer : bool) (a : api) : api * list event * result :=
  if Qle_bool (1 # 1000) s then
    let k := {| factor := s; rate := rate (c a); since := since (c a); at_start := at_start (c a) |} in
    (with_clock k a, [StepTimeSent (step_time k)], if answer then Yes else No)
  else (a, [], No).
(** api:55-63, startNpcLogic; src/entity/entity_manager.cpp:45-52. *)
Definition start_npc_logic (a : api) : api * list event * result :=
  if npc_started a then (a, [], Throws)
  else
    match start (c a) with
    | None => (a, [], Throws)
    | Some k => ({| c := k; npc_started := true; standalone := standalone a |},
                 [NpcStarted (scenario_time k)], Yes)
    end.
(** api:126-151, updateFrame, with 72-80 and 116-124 (isAnyTrafficLightChanged is constantly true,
    src/traffic_lights/traffic_lights_base.cpp:32). *)
Definition update_frame (any_ego status_ok lights_ok time_ok : bool) (a : api)
  : api * list event * result :=
  if standalone a && any_ego then (a, [], Throws)
  else if negb status_ok then (a, [StatusesExchanged], No)
  else
    let t := scenario_time (c a) in
    let done := [StatusesExchanged; EntitiesUpdated t (step_time (c a)); ModulesExecuted t (step_time (c a))] in
    let finish log := let k := update (c a) in (with_clock k a, log ++ [Published (ros_time k)], Yes) in
    if standalone a then finish done
    else if negb lights_ok then (a, done ++ [LightsSent], No)
    else
      let log := done ++ [LightsSent; TimeSent (simulation_time (c a)) t (ros_time (c a))] in
      if negb time_ok then (a, log, No) else finish log.

Definition do (x : call) (a : api) : api * list event * result :=
  match x with
  | SetStepTime s ok => set_step_time s ok a
  | StartNpcLogic => start_npc_logic a
  | UpdateFrame g s l t => update_frame g s l t a
  end.
Fixpoint run (xs : list call) (a : api) : api * list event * list result :=
  match xs with
  | [] => (a, [], [])
  | x :: xs' =>
      let '(a1, l, r) := do x a in
      let '(a2, l', rs) := run xs' a1 in (a2, l ++ l', r :: rs)
  end.
Definition new_api (alone : bool) (f r : Q) : api :=
  {| c := new_clock f r; npc_started := false; standalone := alone |}.
