(** * Model of spawning and despawning in the two simulator processes.

    Paths are relative to /repo/simulation; "api" is traffic_simulator/src/api/api.cpp, "api.hpp" its
    header, "manager" is traffic_simulator/src/entity/entity_manager.cpp, "sensor" is
    simple_sensor_simulator/src/simple_sensor_simulator.cpp. The traffic simulator (entity manager)
    calls the sensor simulator synchronously over ZeroMQ (simulation_interface/src/zmq_multi_server.cpp:24-104);
    a call is a function call here (messages are not lost). Simplifications: an entity is a name, a
    kind and a position; the unordered map of entities is an association list (the newest first; what
    the loops over it leave behind does not depend on the order, see T_World); the constructor of an entity succeeds or throws, as given. *)
From Coq Require Import String.
From Coq Require Import List Bool Arith QArith.
Import ListNotations.

Inductive kind := Ego | Vehicle | Pedestrian | Misc.
Definition kind_eqb (a b : kind) : bool :=
  match a, b with
  | Ego, Ego | Vehicle, Vehicle | Pedestrian, Pedestrian | Misc, Misc => true
  | _, _ => false
  end.
Record entity := { e_kind : kind; e_x : Q; e_y : Q; e_z : Q }.
Definition entities := list (string * entity).

(** std::unordered_map: find, emplace on an absent key, erase. *)
Fixpoint find (n : string) (m : entities) : option entity :=
  match m with
  | [] => None
  | (k, e) :: m' => if String.eqb k n then Some e else find n m'
  end.
Definition erase (n : string) (m : entities) : entities :=
  filter (fun p => negb (String.eqb (fst p) n)) m.

(** simple_sensor_simulator.hpp: ego_vehicles_, vehicles_, pedestrians_, misc_objects_ (vectors), whether
    ego_entity_simulation_ is set, and the keys of entity_status_. *)
Record sensor :=
  { s_egos : list string; s_vehicles : list string; s_pedestrians : list string;
    s_miscs : list string; s_ego_running : bool; s_status : list string }.

(** sensor:179-191, insertEntitySpawnedStatus: std::map::insert. *)
Definition insert_status (n : string) (l : list string) : list string :=
  if existsb (String.eqb n) l then l else n :: l.

(** sensor:193-251, spawnVehicleEntity, spawnPedestrianEntity, spawnMiscObjectEntity. None: the server
    throws; otherwise the response is a success. *)
Definition sensor_spawn (n : string) (k : kind) (s : sensor) : option sensor :=
  match k with
  | Ego =>
      match s_egos s with
      | _ :: _ => None
      | [] => Some {| s_egos := s_egos s ++ [n]; s_vehicles := s_vehicles s;
                      s_pedestrians := s_pedestrians s; s_miscs := s_miscs s; s_ego_running := true;
                      s_status := insert_status n (s_status s) |}
      end
  | Vehicle => Some {| s_egos := s_egos s; s_vehicles := s_vehicles s ++ [n];
                       s_pedestrians := s_pedestrians s; s_miscs := s_miscs s;
                       s_ego_running := s_ego_running s; s_status := insert_status n (s_status s) |}
  | Pedestrian => Some {| s_egos := s_egos s; s_vehicles := s_vehicles s;
                          s_pedestrians := s_pedestrians s ++ [n]; s_miscs := s_miscs s;
                          s_ego_running := s_ego_running s; s_status := insert_status n (s_status s) |}
  | Misc => Some {| s_egos := s_egos s; s_vehicles := s_vehicles s;
                    s_pedestrians := s_pedestrians s; s_miscs := s_miscs s ++ [n];
                    s_ego_running := s_ego_running s; s_status := insert_status n (s_status s) |}
  end.

(** sensor:256-264, remove_despawn_requested_entity_from. *)
Definition without (n : string) (l : list string) : list string :=
  filter (fun x => negb (String.eqb x n)) l.
Definition removed (n : string) (l : list string) : bool :=
  negb (Nat.eqb (length l) (length (without n l))).
Definition of_kind (k : kind) (s : sensor) : list string :=
  match k with
  | Ego => s_egos s | Vehicle => s_vehicles s | Pedestrian => s_pedestrians s | Misc => s_miscs s
  end.
(** sensor:253-279, despawnEntity, with the short-circuit of [or]; the answer is the success. *)
Definition sensor_despawn (n : string) (s : sensor) : sensor * bool :=
  let status := without n (s_status s) in
  if removed n (s_egos s) then
    ({| s_egos := without n (s_egos s); s_vehicles := s_vehicles s; s_pedestrians := s_pedestrians s;
        s_miscs := s_miscs s; s_ego_running := false; s_status := status |}, true)
  else if removed n (s_vehicles s) then
    ({| s_egos := s_egos s; s_vehicles := without n (s_vehicles s); s_pedestrians := s_pedestrians s;
        s_miscs := s_miscs s; s_ego_running := s_ego_running s; s_status := status |}, true)
  else if removed n (s_pedestrians s) then
    ({| s_egos := s_egos s; s_vehicles := s_vehicles s; s_pedestrians := without n (s_pedestrians s);
        s_miscs := s_miscs s; s_ego_running := s_ego_running s; s_status := status |}, true)
  else if removed n (s_miscs s) then
    ({| s_egos := s_egos s; s_vehicles := s_vehicles s; s_pedestrians := s_pedestrians s;
        s_miscs := without n (s_miscs s); s_ego_running := s_ego_running s; s_status := status |}, true)
  else (s, false).

(** sensor:130-176, updateEntityStatus: which names are accepted. An ego needs ego_entity_simulation_
    (an assertion), every name must be a key of entity_status_ (otherwise the server throws). *)
Definition mem (n : string) (l : list string) : bool := existsb (String.eqb n) l.
Definition accepts_status (s : sensor) (n : string) : bool :=
  mem n (s_status s) && (negb (mem n (s_egos s)) || s_ego_running s).
(** sensor:341-365, getBoundingBox: finds the entity (otherwise the server throws). *)
Definition has_bounding_box (s : sensor) (n : string) : bool :=
  mem n (s_egos s) || mem n (s_vehicles s) || mem n (s_pedestrians s) || mem n (s_miscs s).

(** Both processes; configuration_.standalone_mode. *)
Record world := { manager : entities; server : sensor; standalone : bool }.
Definition with_manager (m : entities) (w : world) : world :=
  {| manager := m; server := server w; standalone := standalone w |}.
Definition with_server (s : sensor) (w : world) : world :=
  {| manager := manager w; server := s; standalone := standalone w |}.

(** What a call of the API does: it returns (true or false), throws, or the server process dies. *)
Inductive outcome := Returned (b : bool) | Threw | ServerDied.

(** manager:237-242, isAnyEgoSpawned. *)
Definition any_ego (m : entities) : bool := existsb (fun p => kind_eqb (e_kind (snd p)) Ego) m.

(** traffic_simulator/include/traffic_simulator/entity/entity_manager.hpp:113-193, spawnEntity: the
    arguments (ego check, constructor) are evaluated before emplace. None: throws. *)
Definition spawn_entity (n : string) (e : entity) (constructs : bool) (m : entities) : option entities :=
  if kind_eqb (e_kind e) Ego && any_ego m then None
  else if negb constructs then None
  else match find n m with Some _ => None | None => Some ((n, e) :: m) end.
(** api.hpp:119-190, spawn. *)
Definition spawn (n : string) (e : entity) (constructs : bool) (w : world) : world * outcome :=
  match spawn_entity n e constructs (manager w) with
  | None => (w, Threw)
  | Some m =>
      if standalone w then (with_manager m w, Returned true)
      else
        match sensor_spawn n (e_kind e) (server w) with
        | None => (with_manager m w, ServerDied)
        | Some s => (with_server s (with_manager m w), Returned true)
        end
  end.

(** manager:362-365, despawnEntity. *)
Definition despawn_entity (n : string) (m : entities) : option entities :=
  match find n m with None => None | Some _ => Some (erase n m) end.
(** api:323-335, despawn. *)
Definition despawn (n : string) (w : world) : world * bool :=
  match despawn_entity n (manager w) with
  | None => (w, false)
  | Some m =>
      if standalone w then (with_manager m w, true)
      else let '(s, b) := sensor_despawn n (server w) in (with_server s (with_manager m w), b)
  end.
(** api:337-342, despawnEntities: std::all_of stops at the first failure. *)
Fixpoint despawn_each (ns : list string) (w : world) : world * bool :=
  match ns with
  | [] => (w, true)
  | n :: ns' => let '(w1, b) := despawn n w in if b then despawn_each ns' w1 else (w1, false)
  end.
(** manager:283-290, getEntityNames. *)
Definition names (m : entities) : list string := map fst m.
Definition despawn_all (w : world) : world * bool := despawn_each (names (manager w)) w.

(** manager:328-360, resetBehaviorPlugin: despawns and spawns in the entity manager only. [constructs]:
    whether the new entity (with the new plugin) can be constructed. The status is read through a
    reference into the despawned entity; its values are not modelled beyond that. *)
Definition reset_behavior (n : string) (constructs : bool) (w : world) : world * outcome :=
  match find n (manager w) with
  | None => (w, Threw)
  | Some e =>
      match e_kind e with
      | Ego | Misc => (w, Threw)
      | Vehicle | Pedestrian =>
          match spawn_entity n e constructs (erase n (manager w)) with
          | None => (with_manager (erase n (manager w)) w, Threw)
          | Some m => (with_manager m w, Returned true)
          end
      end
  end.

(** traffic_simulator/src/traffic/traffic_sink.cpp:49-57 and 88-101. The distance is compared by
    squares: sqrt d > r iff r < 0 or d > r * r. *)
Record sink := { k_x : Q; k_y : Q; k_z : Q; k_radius : Q; k_kinds : list kind }.
Definition sinkable (k : sink) (e : entity) : bool :=
  if negb (existsb (kind_eqb (e_kind e)) (k_kinds k)) then false
  else
    let d := ((k_x k - e_x e) * (k_x k - e_x e) + (k_y k - e_y e) * (k_y k - e_y e) +
              (k_z k - e_z e) * (k_z k - e_z e))%Q in
    Qle_bool 0 (k_radius k) && Qle_bool d (k_radius k * k_radius k).
(** The loop of execute over the names at its start; None: getEntity throws. *)
Fixpoint sink_each (k : sink) (ns : list string) (w : world) : option world :=
  match ns with
  | [] => Some w
  | n :: ns' =>
      match find n (manager w) with
      | None => None
      | Some e => sink_each k ns' (if sinkable k e then fst (despawn n w) else w)
      end
  end.
Definition run_sink (k : sink) (w : world) : option world := sink_each k (names (manager w)) w.

(** The entities move (EntityManager::update). *)
Definition move (f : string -> entity -> Q * Q * Q) (m : entities) : entities :=
  map (fun p => let '(n, e) := p in let '(x, y, z) := f n e in
                (n, {| e_kind := e_kind e; e_x := x; e_y := y; e_z := z |})) m.

(** What happens. *)
Inductive action :=
| Spawn (n : string) (e : entity) (constructs : bool)
| Despawn (n : string)
| DespawnAll
| Reset (n : string) (constructs : bool)
| Sink (k : sink)
| Move (f : string -> entity -> Q * Q * Q).
Definition act (a : action) (w : world) : world * outcome :=
  match a with
  | Spawn n e c => spawn n e c w
  | Despawn n => let '(w', b) := despawn n w in (w', Returned b)
  | DespawnAll => let '(w', b) := despawn_all w in (w', Returned b)
  | Reset n c => reset_behavior n c w
  | Sink k => match run_sink k w with None => (w, Threw) | Some w' => (w', Returned true) end
  | Move f => (with_manager (move f (manager w)) w, Returned true)
  end.
Fixpoint acts (xs : list action) (w : world) : world * list outcome :=
  match xs with
  | [] => (w, [])
  | a :: xs' => let '(w1, o) := act a w in let '(w2, os) := acts xs' w1 in (w2, o :: os)
  end.
(** sensor:61-85, initialize. *)
Definition initial (alone : bool) : world :=
  {| manager := []; standalone := alone;
     server := {| s_egos := []; s_vehicles := []; s_pedestrians := []; s_miscs := [];
                  s_ego_running := false; s_status := [] |} |}.
