(** * Model of the requests for routes, of following a trajectory as the ego, and of respawning.

    "ego" is /repo/simulation/traffic_simulator/src/entity/ego_entity.cpp, "vehicle" and "pedestrian"
    the files beside it, "misc" include/traffic_simulator/entity/misc_object_entity.hpp, "api"
    src/api/api.cpp there, "operator" /repo/external/concealer/src/field_operator_application.cpp,
    "acquire" and "assign" the actions acquire_position_action.cpp and assign_route_action.cpp of
    /repo/openscenario/openscenario_interpreter/src/syntax. The status of entities is that of M_Status.
    What is asked of Autoware is the list of tasks put into the queue of FieldOperatorApplication, oldest
    first; M_Concealer models how the queue is worked off. Not modelled here: what a vehicle does with
    its route (M_Lane models the route planner), and the parameter allow_goal_modification of the
    deprecated requests without options (ego:206-218, 232-248). *)
From Coq Require Import String List Bool ZArith Reals.
From Verif Require Import M_Status.
Import ListNotations.
Local Open Scope R_scope.

(** data_type/route_option.hpp:23-28. *)
Record options := { o_modify : bool; o_lanes : bool }.

(** operator:260-270 clearRoute, 272-278 enableAutowareControl, 280-319 engage, 334-370 initialize,
    434-459 and 461-487 plan, 604-615 setVelocityLimit. *)
Inductive command :=
| Clear | Initialize (p : pose) | PlanPoints (goal : pose) (through : list pose) (modify : bool)
| PlanLanes (goal : pose) (lanes : list Z) (modify : bool) | Engage | Enable | Limit (v : R).

(** EgoEntity: its status, the member initialized of FieldOperatorApplication,
    is_controlled_by_simulator_, target_speed_, the largest speed of behavior_parameter_, and what was
    asked of Autoware. *)
Record ego := {
  g_entity : entity; g_initialized : bool; g_controlled : bool; g_target : option R; g_max : R;
  g_sent : list command }.
Definition send (c : command) (g : ego) : ego :=
  {| g_entity := g_entity g; g_initialized := g_initialized g; g_controlled := g_controlled g;
     g_target := g_target g; g_max := g_max g; g_sent := g_sent g ++ [c] |}.
Definition with_control (b : bool) (g : ego) : ego :=
  {| g_entity := g_entity g; g_initialized := g_initialized g; g_controlled := b;
     g_target := g_target g; g_max := g_max g; g_sent := g_sent g |}.
Definition with_entity (e : entity) (g : ego) : ego :=
  {| g_entity := e; g_initialized := g_initialized g; g_controlled := g_controlled g;
     g_target := g_target g; g_max := g_max g; g_sent := g_sent g |}.

(** A request ends, throws (with what it had changed until then), or does what C++ leaves undefined (an
    assert aborts before that in a build that checks it). *)
Inductive result (A : Type) := Ok (a : A) | Error (a : A) | Undefined.
Arguments Ok {A}. Arguments Error {A}. Arguments Undefined {A}.

(** operator:334-336: only the first initialize has an effect. *)
Definition initialize (p : pose) (g : ego) : ego :=
  if g_initialized g then g
  else send (Initialize p)
         {| g_entity := g_entity g; g_initialized := true; g_controlled := g_controlled g;
            g_target := g_target g; g_max := g_max g; g_sent := g_sent g |}.
(** ego:301-308 and 344-351. *)
Definition begin_route (c : command) (g : ego) : ego :=
  if g_initialized g then send Engage (send c g)
  else send c (initialize (s_pose (e_status (g_entity g))) g).

(** std::unique: of equal neighbours the first is kept. *)
Fixpoint unique (l : list Z) : list Z :=
  match l with
  | a :: ((b :: _) as t) => if Z.eqb a b then unique t else a :: unique t
  | _ => l
  end.

Section Routes.
  (** route::routeFromGraph with changes of lanes allowed: empty if there is no route. *)
  Variable graph : Z -> Z -> list Z.
  (** The pose on the map of a lanelet pose. *)
  Variable on_map : lane_pose -> pose.
  (** pose::toCanonicalizedLaneletPose(pose, false), utils/pose.cpp:118-131. *)
  Variable found : pose -> option lane_pose.

  (** ego:331-352, a route of poses. *)
  Definition assign_points (g : ego) (modify : bool) (route : list pose) : result ego :=
    match route with
    | [] => Undefined
    | p :: _ => Ok (begin_route (PlanPoints (last route p) (removelast route) modify) (send Clear g))
    end.
  (** ego:271-289: [acc] is route_segments, [x] its last lanelet. *)
  Fixpoint segments (acc : list Z) (x : Z) (route : list lane_pose) : list Z :=
    match route with
    | [] => acc
    | r :: route' =>
        let acc' := acc ++ graph x (l_id r) in segments acc' (last acc' x) route'
    end.
  (** ego:254-308, a route of lanelets. *)
  Definition assign_lanes (g : ego) (modify : bool) (route : list lane_pose) : result ego :=
    match route with
    | [] => Undefined
    | p :: _ =>
        match e_lane (g_entity g) with
        | None => Error g
        | Some l =>
            Ok (begin_route (PlanLanes (on_map (last route p)) (unique (segments [l_id l] (l_id l) route))
                                       modify) (send Clear g))
        end
    end.
  (** ego:250-316. *)
  Definition ego_assign (g : ego) (o : options) (route : list lane_pose) : result ego :=
    if o_lanes o then assign_lanes g (o_modify o) route
    else assign_points g (o_modify o) (map on_map route).
  (** ego:322-329: the poses that match a lanelet. *)
  Fixpoint matched (route : list pose) : list lane_pose :=
    match route with
    | [] => []
    | p :: route' => match found p with Some l => l :: matched route' | None => matched route' end
    end.
  (** ego:318-353. *)
  Definition ego_assign_poses (g : ego) (o : options) (route : list pose) : result ego :=
    if o_lanes o then assign_lanes g (o_modify o) (matched route)
    else assign_points g (o_modify o) route.
  (** ego:220-224 and 226-230. *)
  Definition ego_acquire (g : ego) (o : options) (l : lane_pose) : result ego := ego_assign g o [l].
  Definition ego_acquire_pose (g : ego) (o : options) (p : pose) : result ego := ego_assign_poses g o [p].

  (** ego:399-425, requestReplanRoute. The waypoints are written through waypoints.begin() of an empty
      vector: with more than one pose that is undefined. *)
  Definition replan (g : ego) (modify : bool) (route : list pose) : result ego :=
    match route with
    | [] => Undefined
    | [p] => Ok (send Engage (send Enable (send (PlanPoints p [] modify) (send Clear g))))
    | _ => Undefined
    end.

  (** ** Vehicles and pedestrians *)

  (** behavior::Request, and what the planner and the behaviour were given. *)
  Inductive wish := NoRequest | FollowLane | OtherRequest (n : nat).
  Record npc := { n_entity : entity; n_wish : wish; n_waypoints : list lane_pose; n_goals : list pose }.
  (** pose::toCanonicalizedLaneletPose with the bounding box and distance of the entity, without
      crosswalks for a vehicle (vehicle:192-195) and with them for a pedestrian (pedestrian:188-191). *)
  Variable found_by : entity -> pose -> option lane_pose.
  Definition with_wish (w : wish) (n : npc) : npc :=
    {| n_entity := n_entity n; n_wish := w; n_waypoints := n_waypoints n; n_goals := n_goals n |}.
  (** vehicle:178-186, pedestrian:174-182. *)
  Definition npc_acquire (n : npc) (l : lane_pose) : result npc :=
    Ok {| n_entity := n_entity n; n_wish := FollowLane;
          n_waypoints := match e_lane (n_entity n) with Some _ => [l] | None => n_waypoints n end;
          n_goals := [on_map l] |}.
  (** vehicle:188-200, pedestrian:184-196. *)
  Definition npc_acquire_pose (n : npc) (p : pose) : result npc :=
    let n := with_wish FollowLane n in
    match found_by (n_entity n) p with Some l => npc_acquire n l | None => Error n end.
  (** vehicle:202-215, pedestrian:52-65. *)
  Definition npc_assign (n : npc) (route : list lane_pose) : result npc :=
    match e_lane (n_entity n) with
    | None => Ok n
    | Some _ => Ok {| n_entity := n_entity n; n_wish := FollowLane; n_waypoints := route;
                      n_goals := map on_map route |}
    end.
  (** vehicle:217-232, pedestrian:67-81. *)
  Fixpoint all_found (e : entity) (route : list pose) : option (list lane_pose) :=
    match route with
    | [] => Some []
    | p :: route' =>
        match found_by e p, all_found e route' with
        | Some l, Some ls => Some (l :: ls)
        | _, _ => None
        end
    end.
  Definition npc_assign_poses (n : npc) (route : list pose) : result npc :=
    match all_found (n_entity n) route with Some ls => npc_assign n ls | None => Error n end.

  (** ** The actions of a scenario *)

  (** An actor; objects refuse every route (misc:69-90). *)
  Inductive actor := AEgo (g : ego) | ANpc (n : npc) | AMisc.
  Definition lift {A} (f : A -> actor) (r : result A) : result actor :=
    match r with Ok a => Ok (f a) | Error a => Error (f a) | Undefined => Undefined end.
  (** What is asked: a position on the map (acquire:35-39), a position on a lane (acquire:40-54), or a
      route (assign:97-99; M_Reader reads positions). *)
  Inductive target := ToPose (p : pose) | ToLane (l : lane_pose) | Along (route : list lane_pose).
  Definition request (a : actor) (t : target) (o : options) : result actor :=
    match a with
    | AEgo g => lift AEgo (match t with
                           | ToPose p => ego_acquire_pose g o p
                           | ToLane l => ego_acquire g o l
                           | Along r => ego_assign g o r
                           end)
    | ANpc n => lift ANpc (match t with
                           | ToPose p => npc_acquire_pose n p
                           | ToLane l => npc_acquire n l
                           | Along r => npc_assign n r
                           end)
    | AMisc => Error AMisc
    end.
  (** acquire:56-78 and 86-93, assign:59-81 and 89-96: the property allowGoalModification of the controller of the actor, or
      else the parameter RoutingAction__allow_goal_modification, or else false. *)
  Definition modification (property parameter : option bool) : bool :=
    match property with
    | Some b => b
    | None => match parameter with Some b => b | None => false end
    end.
  (** acquire:80-98, assign:83-102: every actor in turn, with its property; an exception ends the
      action. [lanes] is the parameter RoutingAction__use_lane_ids_for_routing. *)
  Fixpoint act (lanes parameter : option bool) (t : target) (actors : list (actor * option bool))
    : result (list actor) :=
    match actors with
    | [] => Ok []
    | (a, property) :: rest =>
        match request a t {| o_modify := modification property parameter;
                             o_lanes := match lanes with Some b => b | None => false end |} with
        | Ok a' =>
            match act lanes parameter t rest with
            | Ok r => Ok (a' :: r)
            | Error r => Error (a' :: r)
            | Undefined => Undefined
            end
        | Error a' => Error (a' :: map fst rest)
        | Undefined => Undefined
        end
    end.
End Routes.

(** ** Other requests to the ego *)

Inductive demand :=
| LaneChange | SpeedChange (v : R) | RelativeSpeedChange | VelocityLimit (v : R)
| FollowTrajectory (given : bool) | ClearRoute.
(** ego:357-363 requestFollowTrajectory (a missing trajectory throws in vehicle:255-260), 365-379
    requestLaneChange, 381-395 and 438-452 requestSpeedChange, 397 requestClearRoute, 454-458
    setVelocityLimit. *)
Definition ask (g : ego) (d : demand) : result ego :=
  match d with
  | LaneChange | RelativeSpeedChange => Error g
  | SpeedChange v =>
      if Rlt_dec 0 (s_time (e_status (g_entity g))) then Error g
      else Ok {| g_entity := g_entity g; g_initialized := g_initialized g;
                 g_controlled := g_controlled g; g_target := Some v; g_max := g_max g;
                 g_sent := g_sent g |}
  | VelocityLimit v =>
      Ok (send (Limit v) {| g_entity := g_entity g; g_initialized := g_initialized g;
                            g_controlled := g_controlled g; g_target := g_target g; g_max := v;
                            g_sent := g_sent g |})
  | FollowTrajectory given => if given then Ok (with_control true g) else Error g
  | ClearRoute => Ok (send Clear g)
  end.

Section Frames.
  Variable canonicalize : lane_pose -> option lane_pose.
  Variable on_map : lane_pose -> pose.
  Variable match_among : pose -> list Z -> R -> option lane_pose.
  Variable match_any : pose -> Z -> bool -> R -> option lane_pose.
  Variable reach : entity -> R.

  (** ego:180-204, onUpdate until the callbacks: [step] is what follow_trajectory::makeUpdatedStatus
      gives (M_FollowTrajectory models it), None at the end of the trajectory; [t] is the time after the
      frame. *)
  Definition frame (g : ego) (step : entity -> option status) (t : R) : result ego :=
    if g_controlled g then
      match step (g_entity g) with
      | Some s =>
          match set_status_among canonicalize on_map match_among match_any reach (g_entity g) s
                  (lane_ids (g_entity g)) with
          | Done e => Ok (with_entity e g)
          | Threw => Error g
          | Aborted => Undefined
          end
      | None => Ok (with_control false (send Enable g))
      end
    else Ok (with_entity (write_time (g_entity g) t) g).

  (** ** Respawning *)

  (** UpdateEntityStatusRequest and its answer: whether it succeeded, and the statuses in it. *)
  Record update := { u_status : status; u_overwrite : bool }.
  Record answer := { w_success : bool; w_statuses : list (string * pose * action) }.
  (** api:310-315: pose, twist and acceleration of the answer are taken, the rest is kept. *)
  Definition taken (e : entity) (a : action) : entity :=
    write_action e {| a_name := a_name (s_action (e_status e)); a_speed := a_speed a;
                      a_acceleration := a_acceleration a; a_jerk := a_jerk (s_action (e_status e)) |}.
  (** api:278-321 for an entity that is an ego (entity_manager.cpp:254-263 throws for others); [ids] are
      the lanelets of Autoware's path (ego:154-163). Result: the ego, and the request sent. *)
  Definition respawn (g : ego) (frame_id : string) (p : pose) (goal : pose) (ids : list Z)
    (simulator : update -> answer) : result ego * option update :=
    if string_dec frame_id "map" then
      match ego_set_map_pose canonicalize on_map match_among match_any reach (g_entity g) true p idle with
      | Done e =>
          let u := {| u_status := e_status e; u_overwrite := true |} in
          let g1 := with_control false (with_entity e g) in
          let w := simulator u in
          (if w_success w then
             match w_statuses w with
             | [(n, q, a)] =>
                 if string_dec n (s_name (e_status e)) then
                   match report_map_pose canonicalize on_map match_among match_any reach e q ids with
                   | Done e2 => replan (with_entity (taken e2 a) g1) false [goal]
                   | Threw => Error g1
                   | Aborted => Undefined
                   end
                 else Error g1
             | _ => Error g1
             end
           else Error g1, Some u)
      | Threw => (Error (with_control true g), None)
      | Aborted => (Undefined, None)
      end
    else (Error g, None).
End Frames.
