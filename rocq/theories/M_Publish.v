(** * Model of what is published about traffic lights: the bulbs on the wire, the messages for
    Autoware and for older tools, the detector of the sensor simulator, the architectures.

    Paths are relative to /repo/simulation: "light.hpp" is
    traffic_simulator/include/traffic_simulator/traffic_lights/traffic_light.hpp, "lights.hpp"
    traffic_lights.hpp beside it, "publisher" is
    traffic_simulator/src/traffic_lights/traffic_light_publisher.cpp, "conversions.hpp" is
    simulation_interface/include/simulation_interface/conversions.hpp, "schema" is
    simulation_interface/proto/simulation_api_schema.proto. Confidences are integers (doubles
    narrowed to floats in the code); time stamps are in nanoseconds. *)
From Coq Require Import Ascii String List Bool Arith ZArith.
From Verif Require Import M_TrafficLight.
Import ListNotations.
Local Open Scope list_scope.
Local Open Scope Z_scope.

(** ** Bulbs *)

(** schema, message TrafficLight: the numbers of the enumerations on the wire. *)
Record wire_bulb := { w_color : Z; w_shape : Z; w_status : Z; w_confidence : Z }.
(** light.hpp:266-289 with schema. *)
Definition wire_color (c : color) : Z :=
  match c with Green => 2 | Yellow => 1 | Red => 0 | White => 3 | UnknownColor => 4 end.
(** light.hpp:291-308 with schema. *)
Definition wire_status (s : status) : Z :=
  match s with SolidOn => 1 | SolidOff => 0 | Flashing => 2 | UnknownStatus => 3 end.
(** light.hpp:310-346 with schema. *)
Definition wire_shape (s : shape) : Z :=
  match s with
  | Circle => 0 | Cross => 9 | Left => 1 | Down => 6 | Up => 3 | Right => 2
  | LowerLeft => 7 | LowerRight => 8 | UpperLeft => 4 | UpperRight => 5 | UnknownShape => 10
  end.
(** light.hpp:264-356; the confidence 1.0 set there is overwritten by 541-545 except in
    predictions. *)
Definition to_wire (confidence : Z) (b : bulb) : wire_bulb :=
  {| w_color := wire_color (b_color b); w_shape := wire_shape (b_shape b);
     w_status := wire_status (b_status b); w_confidence := confidence |}.

(** traffic_simulator_msgs/msg/TrafficLightBulbV1.msg; the elements of autoware_perception_msgs
    (not in the repository) carry the same names, taken to have the same numbers. *)
Record bulb_message := { b_m_color : Z; b_m_shape : Z; b_m_status : Z; b_m_confidence : Z }.
(** conversions.hpp:195-211, convert_color. *)
Definition message_color (n : Z) : Z :=
  match n with 0 => 1 | 1 => 2 | 2 => 3 | 3 => 4 | 4 => 0 | _ => 0 end.
(** conversions.hpp:213-242, convert_shape: numbers 4 and 5 have no case. *)
Definition message_shape (n : Z) : Z :=
  match n with
  | 0 => 1 | 1 => 2 | 2 => 3 | 3 => 4 | 6 => 7 | 7 => 8 | 8 => 9 | 9 => 10 | 10 => 0 | _ => 0
  end.
(** conversions.hpp:244-258, convert_status. *)
Definition message_status (n : Z) : Z :=
  match n with 0 => 1 | 1 => 2 | 2 => 3 | 3 => 0 | _ => 0 end.
(** conversions.hpp:188-264. *)
Definition to_message (w : wire_bulb) : bulb_message :=
  {| b_m_color := message_color (w_color w); b_m_shape := message_shape (w_shape w);
     b_m_status := message_status (w_status w); b_m_confidence := w_confidence w |}.

(** light.hpp:358-450 with 549-559, the direct conversion to TrafficLightBulbV1. *)
Definition direct_color (c : color) : Z :=
  match c with Green => 3 | Yellow => 2 | Red => 1 | White => 4 | UnknownColor => 0 end.
Definition direct_status (s : status) : Z :=
  match s with SolidOn => 2 | SolidOff => 1 | Flashing => 3 | UnknownStatus => 0 end.
Definition direct_shape (s : shape) : Z :=
  match s with
  | Circle => 1 | Cross => 10 | Left => 2 | Down => 7 | Up => 4 | Right => 3
  | LowerLeft => 8 | LowerRight => 9 | UpperLeft => 5 | UpperRight => 6 | UnknownShape => 0
  end.
Definition to_message_directly (confidence : Z) (b : bulb) : bulb_message :=
  {| b_m_color := direct_color (b_color b); b_m_shape := direct_shape (b_shape b);
     b_m_status := direct_status (b_status b); b_m_confidence := confidence |}.

(** ** Signals *)

(** A 64-bit id given to a setter that takes an int32 (schema, message TrafficSignal: int32 id,
    repeated int32 relation_ids): it is reduced modulo 2^32. *)
Definition int32 (z : Z) : Z := (z + 2147483648) mod 4294967296 - 2147483648.

Record signal := { s_id : Z; s_relations : list Z; s_bulbs : list wire_bulb }.
(** light.hpp:533-547. *)
Definition light_signal (l : light) : signal :=
  {| s_id := int32 (l_way l); s_relations := map int32 (l_relations l);
     s_bulbs := map (to_wire (l_confidence l)) (l_bulbs l) |}.
(** traffic_lights_base.cpp:114-123, generateUpdateTrafficLightsRequest. *)
Definition request (m : lights) : list signal := map (fun '(_, l) => light_signal l) m.

(** lights.hpp:85-105, DetectedTrafficLights::apply: the key of the override (64 bits) is compared
    with the id in the message (32 bits). *)
Fixpoint replace_first (r : list signal) (id : Z) (l : light) : option (list signal) :=
  match r with
  | [] => None
  | g :: r' =>
      if s_id g =? id then
        Some ({| s_id := s_id g; s_relations := s_relations g;
                 s_bulbs := s_bulbs (light_signal l) |} :: r')
      else option_map (cons g) (replace_first r' id l)
  end.
Definition detect1 (r : list signal) (e : Z * light) : list signal :=
  match replace_first r (fst e) (snd e) with
  | Some r' => r'
  | None => r ++ [light_signal (snd e)]
  end.
Definition detect (d : lights) (r : list signal) : list signal := fold_left detect1 d r.

(** ** Messages *)

(** lights.hpp:205, traffic_lights.cpp:80-102: predictions_ by way id, each a list of stamps with
    bulbs. *)
Definition predictions := list (Z * list (Z * list bulb)).
Fixpoint phases (p : predictions) (id : Z) : option (list (Z * list bulb)) :=
  match p with
  | [] => None
  | (i, l) :: p' => if i =? id then Some l else phases p' id
  end.

(** TrafficLightGroup: id, elements, predictions. *)
Record group := {
  u_id : Z;
  u_elements : list bulb_message;
  u_predictions : list (Z * list bulb_message) }.
(** publisher 126-147: [None] is the null pointer. *)
Definition group_predictions (p : option predictions) (id : Z) : list (Z * list bulb_message) :=
  match p with
  | None => []
  | Some p =>
      match phases p id with
      | None => []
      | Some l => map (fun '(t, bs) => (t, map (fun b => to_message (to_wire 1 b)) bs)) l
      end
  end.
(** publisher 99-156, TrafficLightGroupArray. *)
Definition groups (p : option predictions) (r : list signal) : list group :=
  flat_map (fun s =>
    flat_map (fun relation =>
      match s_bulbs s with
      | [] => []
      | bs => [{| u_id := relation; u_elements := map to_message bs;
                  u_predictions := group_predictions p (s_id s) |}]
      end) (s_relations s)) r.
(** publisher 41-72, TrafficSignalArray: id, elements. *)
Definition signals (r : list signal) : list (Z * list bulb_message) :=
  flat_map (fun s =>
    flat_map (fun relation =>
      match s_bulbs s with
      | [] => []
      | bs => [(relation, map to_message bs)]
      end) (s_relations s)) r.
(** publisher 75-97, TrafficLightArrayV1: way id, bulbs. *)
Definition light_array (r : list signal) : list (Z * list bulb_message) :=
  map (fun s => (s_id s, map to_message (s_bulbs s))) r.

(** ** Frames *)

(** The lights of the conventional channel, its detected states, and what the sensor simulator
    holds (traffic_signals_states_); [k_detector] says whether a detector was attached. *)
Record system := {
  k_lights : lights;
  k_detected : lights;
  k_held : list signal;
  k_detector : bool }.
(** What happens to it: the lights and the detected states become others, a detector is attached,
    the sensor simulator is initialised (simple_sensor_simulator/src/simple_sensor_simulator.cpp:61-85:
    the held states stay), a frame. *)
Inductive happening :=
| Lights (m : lights)
| Detected (d : lights)
| Attach
| Initialize
| Frame.
(** traffic_lights_base.cpp:32 and traffic_lights.cpp:19-25: isAnyTrafficLightChanged, the first
    disjunct is always true. *)
Definition any_changed (k : system) : bool :=
  true || true || match k_detected k with [] => false | _ => true end.
(** api/api.cpp:116-124, 138-143; simple_sensor_simulator.cpp:86-118, 320-328;
    sensor_simulation.cpp:49-51; traffic_lights_detector.hpp:50-55. The message published in the
    frame, if any: [updateTimeInSim] is only called after [updateTrafficLightsInSim]. *)
Definition frame (k : system) : system * option (list group) :=
  let k' := if any_changed k then
              {| k_lights := k_lights k; k_detected := k_detected k;
                 k_held := detect (k_detected k) (request (k_lights k));
                 k_detector := k_detector k |}
            else k in
  (k', if any_changed k then (if k_detector k' then Some (groups None (k_held k')) else None)
       else None).
Definition happen (k : system) (h : happening) : system * list (option (list group)) :=
  match h with
  | Lights m => ({| k_lights := m; k_detected := k_detected k; k_held := k_held k;
                    k_detector := k_detector k |}, [])
  | Detected d => ({| k_lights := k_lights k; k_detected := d; k_held := k_held k;
                      k_detector := k_detector k |}, [])
  | Attach => ({| k_lights := k_lights k; k_detected := k_detected k; k_held := k_held k;
                  k_detector := true |}, [])
  | Initialize => (k, [])
  | Frame => let '(k', o) := frame k in (k', [o])
  end.
Fixpoint history (k : system) (l : list happening) : system * list (option (list group)) :=
  match l with
  | [] => (k, [])
  | h :: l' => let '(k', o) := happen k h in let '(k'', o') := history k' l' in (k'', o ++ o')
  end.
(** lights.hpp:137-151, V2ITrafficLights::update, the message of each of its two topics. *)
Definition v2i_message (m d : lights) (p : predictions) : list group :=
  groups (Some p) (detect d (request m)).
(** lights.hpp:48-57, ConventionalTrafficLights::update, /simulation/traffic_lights. *)
Definition truth_message (m : lights) : list (Z * list bulb_message) := light_array (request m).

(** ** Architectures *)

(** std::string comparison: lexicographic on unsigned characters. *)
Fixpoint str_le (a b : str) : bool :=
  match a, b with
  | [], _ => true
  | _ :: _, [] => false
  | x :: a', y :: b' =>
      if (nat_of_ascii x <? nat_of_ascii y)%nat then true
      else if (nat_of_ascii y <? nat_of_ascii x)%nat then false
      else str_le a' b'
  end.
Inductive format := Signals | Groups | Refused.
(** traffic_lights_detector.hpp:70-91; both message packages are taken to be present. *)
Definition detector_format (a : str) : format :=
  if str_eqb a (text "awf/universe") then Refused
  else if str_eqb a (text "awf/universe/20230906") then Signals
  else if str_le (text "awf/universe/20240605") a then Groups
  else Refused.
(** lights.hpp:163-183. *)
Definition v2i_format (a : str) : format :=
  if str_eqb a (text "awf/universe") then Refused
  else if str_le a (text "awf/universe/20230906") then Signals
  else if str_le (text "awf/universe/20240605") a then Groups
  else Refused.
(** std::string::find != npos: the text occurs somewhere. *)
Fixpoint occurs (p s : str) : bool :=
  match strip_prefix p s with
  | Some _ => true
  | None => match s with [] => false | _ :: s' => occurs p s' end
  end.
(** sensor_simulation.hpp:51, 69, 90 (lidar, detection and occupancy grid sensors) and
    traffic_simulator/src/entity/ego_entity.cpp:43-82. *)
Definition other_sensors_accept (a : str) : bool := occurs (text "awf/universe") a.
(** ego_entity.cpp:67: perception/enable_traffic_light. *)
Definition lights_enabled (a : str) : bool := str_le (text "awf/universe/20230906") a.
