(** * Following a polyline trajectory

    Models simulation/traffic_simulator/src/behavior/follow_trajectory.cpp, [makeUpdatedStatus],
    which the vehicle and pedestrian plugins and the ego entity call once per frame, and
    openscenario/openscenario_interpreter/src/syntax/follow_trajectory_action.cpp.

    What depends on the map and on three-dimensional geometry is a field of the record [world]:
    the distance along the lanes, the direction from one place to another, and the place reached by
    a displacement (which includes the refinement at the border of two lanes, lines 485-509).
    [P] is a place, [H] a direction.  Numbers are rationals; a time that is NaN (no time given) is
    [None].  The checks for NaN and infinity (lines 296-342, 350-370, 394-452, 519-525) therefore
    never fire and are left out.  An entity's speed is the x component of its velocity in its own
    frame; the other two are zero, as line 546 makes them. *)

From Coq Require Import List Bool ZArith QArith Qabs Qminmax.
From Verif Require Import M_FollowControl.
Import ListNotations.
Open Scope Q_scope.

(** traffic_simulator_msgs/msg/{Vertex,Polyline,PolylineTrajectory}.msg; [base] is [base_time],
    [ignorable] is [dynamic_constraints_ignorable]. *)
Record vertex (P : Type) := Vertex { position : P; arrival : option Q }.
Arguments Vertex {P} _ _. Arguments position {P} _. Arguments arrival {P} _.

Record trajectory (P : Type) := Trajectory {
  vertices : list (vertex P); base : option Q; closed : bool; ignorable : bool }.
Arguments Trajectory {P} _ _ _ _. Arguments vertices {P} _. Arguments base {P} _.
Arguments closed {P} _. Arguments ignorable {P} _.

(** The parts of [EntityStatus] that are read or written: [time], [pose.position],
    [pose.orientation], [twist.linear.x], [accel.linear.x]. *)
Record status (P H : Type) := Status {
  time : Q; place : P; heading : H; speed : Q; acceleration : Q }.
Arguments Status {P H} _ _ _ _ _. Arguments time {P H} _. Arguments place {P H} _.
Arguments heading {P H} _. Arguments speed {P H} _. Arguments acceleration {P H} _.

(** [gap]: [distance_along_lanelet], lines 172-216.  [toward]: the direction of
    [velocity_from_speed], lines 581-596.  [course]: [previous_target_waypoint_direction], lines
    471-480.  [shifted p h length v]: the place reached from [p] by a displacement of [length]
    (negative: backwards) in the direction [h] with the desired speed [v], lines 530-541. *)
Record world (P H : Type) := World {
  gap : P -> P -> Q;
  toward : status P H -> P -> H;
  course : P -> P -> H -> H;
  shifted : status P H -> H -> Q -> Q -> P }.
Arguments gap {P H} _ _ _. Arguments toward {P H} _ _ _.
Arguments course {P H} _ _ _ _. Arguments shifted {P H} _ _ _ _ _.

(** [behavior_parameter.dynamic_constraints] and the step time; [fuel] bounds the loops of the
    controller's predictions and [cast] is its conversion to [size_t] (see M_FollowControl). *)
Record settings := Settings { dyn : constraints; dt : Q; fuel : nat; cast : Q -> Z }.

(** What a frame ends with: a new status, the end of the trajectory, or an exception or
    undefined behaviour.  [Endless] means that the bound on the depth of the recursion was
    reached, which the code does not have. *)
Inductive failure :=
| LateArrival | TooFar | StoppedShort | WrongMode | NoAcceleration (spinning undefined : bool)
| TooFewVertices | Endless.
Inductive result (P H : Type) := Moved (s : status P H) | Finished | Failed (f : failure).
Arguments Moved {P H} _. Arguments Finished {P H}. Arguments Failed {P H} _.

Definition epsilon : Q := 1 # 4503599627370496. (* numeric_limits<double>::epsilon(), 2^-52 *)

(** common/math/arithmetic/include/arithmetic/floating_point/comparison.hpp:40-51. *)
Definition definitely_less (a b : Q) : bool := lt (epsilon * Qmax (Qabs a) (Qabs b)) (b - a).

(** follow_trajectory.cpp:150-155, [nearest_timed_waypoint]: the vertices from it on, out of those
    after the first. *)
Fixpoint from_timed {P} (targets : list (vertex P)) : list (vertex P) :=
  match targets with
  | [] => []
  | v :: rest => match arrival v with Some _ => targets | None => from_timed rest end
  end.

(** follow_trajectory.cpp:157-160, [is_nearest_timed_waypoint_final]. *)
Definition nearest_timed_final {P} (targets : list (vertex P)) : bool :=
  (length (from_timed targets) <=? 1)%nat.

(** follow_trajectory.cpp:219-255, [distance_to_timed_or_final_waypoint]: the way from [from] by
    the targets to the nearest timed one, or to the last. *)
Fixpoint distance_by {P H} (w : world P H) (from : P) (targets : list (vertex P)) : Q :=
  match targets with
  | [] => 0
  | v :: rest =>
      gap w from (position v)
      + match arrival v with Some _ => 0 | None => distance_by w (position v) rest end
  end.

(** follow_trajectory.cpp:263-274, [remaining_time_to_waypoint]. *)
Definition remaining {P} (b : option Q) (now : Q) (v : vertex P) : option Q :=
  match arrival v with
  | None => None
  | Some t =>
      let r := match b with Some b => b | None => 0 end + t - now in
      Some (if Qeq_bool r 0 then epsilon else r)
  end.

(** follow_trajectory.cpp:282-291, [remaining_time_to_nearest_timed_waypoint]. *)
Definition remaining_timed {P} (b : option Q) (now : Q) (targets : list (vertex P)) : option Q :=
  match from_timed targets with [] => None | v :: _ => remaining b now v end.

(** follow_trajectory.cpp:373-392, [validate_arrival_time]. *)
Definition late {P} (p : settings) (b : option Q) (now : Q) (targets : list (vertex P)) : bool :=
  match remaining_timed b now targets with Some r => lt r (- dt p) | None => false end.

(** A velocity: its direction and its size, which is negative for the opposite direction. *)
Definition velocity (H : Type) : Type := (H * Q)%type.

(** follow_trajectory.cpp:458-469, the length of [step_displacement_vector]. *)
Definition step_length {P H} (p : settings) (s : status P H) (v : velocity H) : Q :=
  (Qabs (speed s) + Qabs (snd v)) * (1 # 2) * dt p.

(** follow_trajectory.cpp:458-469 and 530-541, the new position: below the machine precision the
    direction is the entity's own. *)
Definition displaced {P H} (w : world P H) (p : settings) (s : status P H) (v : velocity H) : P :=
  if lt epsilon (Qabs (snd v)) then
    shifted w s (fst v)
      (if le 0 (snd v) then step_length p s v else - step_length p s v) (snd v)
  else shifted w s (heading s) (step_length p s v) (snd v).

(** follow_trajectory.cpp:512-562, [update_entity_status]. *)
Definition update {P H} (w : world P H) (p : settings) (t : trajectory P) (s : status P H)
    (v : velocity H) : result P H :=
  match vertices t with
  | previous :: target :: rest =>
      if late p (base t) (time s) (target :: rest) then Failed LateArrival
      else
        Moved (Status (Qred (time s + dt p)) (displaced w p s v)
                 (course w (position previous) (position target) (heading s))
                 (Qred (Qabs (snd v))) (Qred ((Qabs (snd v) - speed s) / dt p)))
  | _ => Failed TooFewVertices
  end.

(** follow_trajectory.cpp:569-579, [constrained_brake_velocity]: the speed. *)
Definition brake_speed (p : settings) (v : Q) : Q :=
  v + Qmax (with_jerk (dt p) v 0 (max_deceleration_rate (dyn p))) (- max_deceleration (dyn p))
      * dt p.

(** follow_trajectory.cpp:598-667, [desired_velocity]; [inr] is an exception. *)
Definition desired_velocity {P H} (w : world P H) (p : settings) (wanted : option Q)
    (t : trajectory P) (s : status P H) (target : vertex P) (rest : list (vertex P))
  : velocity H + failure :=
  if negb (ignorable t) then inr WrongMode
  else
    let targets := target :: rest in
    let left := remaining_timed (base t) (time s) targets in
    let c := make_controller (dyn p) (dt p) (nearest_timed_final targets)
               match left with None => wanted | Some _ => None end in
    match accelerate (fuel p) (cast p) c left (distance_by w (place s) targets)
            (acceleration s) (speed s) with
    | Value a => inl (toward w s (position target), Qred (speed s + a * dt p))
    | Error | Semantic => inr (NoAcceleration false false)
    | Undefined => inr (NoAcceleration false true)
    | Spinning => inr (NoAcceleration true false)
    end.

(** follow_trajectory.cpp:703-739, [discard_previous_waypoint_and_recurse], before the call. *)
Definition discard {P} (t : trajectory P) (now : Q) (previous target : vertex P)
    (rest : list (vertex P)) : trajectory P :=
  Trajectory (if closed t then target :: rest ++ [previous] else target :: rest)
    match base t, arrival target with Some _, Some _ => Some now | b, _ => b end
    (closed t) (ignorable t).

(** follow_trajectory.cpp:778-783, [is_entity_immobile]. *)
Definition still {P H} (s : status P H) : bool :=
  lt (Qabs (speed s)) local_epsilon && lt (Qabs (acceleration s)) local_epsilon.

(** follow_trajectory.cpp:785-827, [handle_final_waypoint]. *)
Definition handle_final {P H} (w : world P H) (p : settings) (wanted : option Q)
    (t : trajectory P) (s : status P H) (previous target : vertex P) : result P H :=
  let distance := gap w (place s) (position target) in
  let near := le distance remaining_distance_tolerance in
  if still s && near then
    match remaining (base t) (time s) target with
    | None => Finished
    | Some r =>
        if definitely_less r (dt p / 2) then Finished
        else update w p t s (heading s, 0)
    end
  else if still s && lt distance (gap w (place s) (position previous)) then Failed StoppedShort
  else if near then update w p t s (heading s, brake_speed p (speed s))
  else match desired_velocity w p wanted t s target [] with
       | inr f => Failed f
       | inl v => update w p t s v
       end.

(** follow_trajectory.cpp:99-104,741-776,868-876, [makeUpdatedStatus] and
    [handle_intermediate_waypoint]: the trajectory afterwards, and how the frame ends.  [depth]
    bounds the recursion. *)
Fixpoint follow {P H} (depth : nat) (w : world P H) (p : settings) (wanted : option Q)
    (t : trajectory P) (s : status P H) : trajectory P * result P H :=
  match vertices t with
  | [previous; target] => (t, handle_final w p wanted t s previous target)
  | previous :: target :: rest =>
      match desired_velocity w p wanted t s target rest with
      | inr f => (t, Failed f)
      | inl v =>
          let distance := gap w (place s) (position target) in
          let reached := le distance (step_length p s v) || lt distance local_epsilon in
          let next :=
            match depth with
            | O => (t, Failed Endless)
            | S depth =>
                follow depth w p wanted (discard t (time s) previous target rest) s
            end in
          match remaining (base t) (time s) target with
          | None => if reached then next else (t, update w p t s v)
          | Some r =>
              if definitely_less r (dt p / 2) then
                if reached then next else (t, Failed TooFar)
              else (t, update w p t s v)
          end
      end
  | _ => (t, Failed TooFewVertices)
  end.

(** ** The action *)

(** openscenario_interpreter, [FollowTrajectoryAction::start]: what the scenario says.  [timing]
    is the [TimeReference]: whether it is relative, the offset and the scale. *)
Record timing := Timing { relative : bool; offset : Q; scale : Q }.

(** follow_trajectory_action.cpp:78-104, [repack_trajectory], and 106-116. *)
Definition repack {P} (g : timing) (now : Q) (is_closed position_mode : bool)
    (written : list (vertex P)) : trajectory P :=
  Trajectory
    (map (fun v => Vertex (position v)
                     match arrival v with
                     | None => None
                     | Some t => Some (offset g + scale g * t)
                     end) written)
    (if relative g then Some now else None) is_closed position_mode.

(** simulator_core.hpp:496-506, [applyFollowTrajectoryAction]: the entity's own position becomes
    the first vertex of the trajectory it is given a pointer to. *)
Definition prepend {P} (here : P) (t : trajectory P) : trajectory P :=
  Trajectory (Vertex here None :: vertices t) (base t) (closed t) (ignorable t).

(** follow_trajectory_action.cpp:75-118, one actor with its objects: they are all given the same
    pointer, so this is the trajectory each of them follows. *)
Definition start_actor {P} (g : timing) (now : Q) (is_closed position_mode : bool)
    (written : list (vertex P)) (objects : list P) : trajectory P :=
  fold_left (fun t here => prepend here t) objects (repack g now is_closed position_mode written).

(** One frame of several entities that hold the same pointer, in the order in which the simulator
    updates them: each finds the trajectory as the one before it has left it. *)
Fixpoint follow_together {P H} (depth : nat) (w : world P H) (p : settings)
    (t : trajectory P) (entities : list (status P H * option Q))
  : trajectory P * list (result P H) :=
  match entities with
  | [] => (t, [])
  | (s, wanted) :: rest =>
      let '(t1, r) := follow depth w p wanted t s in
      let '(t2, rs) := follow_together depth w p t1 rest in (t2, r :: rs)
  end.

(** follow_trajectory_action.cpp:33-68, [accomplished]: the table of actors that were seen to have
    finished, the answers of [is_running] for this call, and the result.  [None] is the empty
    table, as [start] leaves it.  The table is an unordered map; [std::all_of] looks at the
    actors in its order and stops at the first that is still running. *)
Fixpoint all_finished {A} (running : A -> bool) (table : list (A * bool))
  : list (A * bool) * bool :=
  match table with
  | [] => ([], true)
  | (a, done) :: rest =>
      let done := done || negb (running a) in
      if done then let '(rest, r) := all_finished running rest in ((a, done) :: rest, r)
      else ((a, done) :: rest, false)
  end.

(** follow_trajectory_action.cpp:54-63, [is_running]: whether each object of the actor is in the
    state "follow_polyline_trajectory"; the shape is a polyline, the only one the simulator
    knows. *)
Definition is_running (objects : list bool) : bool :=
  match objects with [] => true | _ => forallb (fun b => b) objects end.

Definition accomplished {A} (is_closed : bool) (actors : list A) (running : A -> bool)
    (table : list (A * bool)) : list (A * bool) * bool :=
  if is_closed then (table, false)
  else match table with
       | [] => (map (fun a => (a, false)) actors, false)
       | _ => all_finished running table
       end.
