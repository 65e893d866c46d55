(** * The behaviour trees of vehicles and pedestrians that the simulator drives itself

    Models simulation/behavior_tree_plugin: the two trees in config/*.xml, the transition events,
    [update] of the two plugins and the decisions of every action node.

    The engine (class [FallbackNode], [TreeNode::executeTick], [haltChild] of the library
    BehaviorTree.CPP v3) is a dependency that is not part of /repo; its documented behaviour is
    modelled here and named as an assumption in DESIGN.md.

    Speeds and distances are rationals.  What an action reads from the map, from the other
    entities and from the speed planner is a field of the record [world], as a function of the
    entity's own status [E]; how the status changes is a field as well.  A thrown exception, and
    a call with undefined behaviour, is the outcome [None]. *)

From Coq Require Import String List Bool QArith.
Import ListNotations.
Open Scope Q_scope.

Definition le (a b : Q) : bool := Qle_bool a b.
Definition lt (a b : Q) : bool := negb (Qle_bool b a).

(** ** Requests *)

(** traffic_simulator/include/traffic_simulator/data_type/behavior.hpp, [enum class Request]. *)
Inductive request := NoRequest | LaneChangeR | FollowLaneR | FollowPolylineR | WalkStraightR.

(** traffic_simulator/src/data_type/behavior.cpp:38-54, [getRequestString]. *)
Definition request_string (r : request) : string :=
  match r with
  | NoRequest => "none"
  | LaneChangeR => "lane_change"
  | FollowLaneR => "follow_lane"
  | FollowPolylineR => "follow_polyline_trajectory"
  | WalkStraightR => "walk_straight"
  end%string.

(** ** The engine *)

(** [BT::NodeStatus]. *)
Inductive bt_status := Idle | Running | Success | Failure.

Definition bt_status_eqb (a b : bt_status) : bool :=
  match a, b with
  | Idle, Idle | Running, Running | Success, Success | Failure, Failure => true
  | _, _ => false
  end.

Section Engine.
  (** The kinds of action nodes, their names in the tree, and the state they work on. *)
  Variable leaf : Type.
  Variable leaf_name : leaf -> string.
  Variable S : Type.
  (** [tick] of an action node: [None] is a thrown exception. *)
  Variable act : leaf -> request -> S -> option (bt_status * S).

  (** A node with its current status; a [Fallback] also keeps [current_child_idx_]. *)
  Inductive node :=
  | Leaf (l : leaf) (st : bt_status)
  | Fallback (name : string) (st : bt_status) (index : nat) (children : list node).

  (** The blackboard's request, the [current_action_] of the transition events and the state.
      [LoggingEvent] and [ResetRequestEvent] see the same notifications and so hold the same
      [current_action_]; one field stands for both. *)
  Record context := Context { ctx_request : request; ctx_action : string; ctx_state : S }.

  Definition status_of (n : node) : bt_status :=
    match n with Leaf _ st => st | Fallback _ st _ _ => st end.

  (** src/transition_events/transition_event.cpp:24-34,41-46, logging_event.cpp:26-34 and
      reset_request_event.cpp:31-41.  [TreeNode::setStatus] notifies only when the status
      changes; changes to IDLE are ignored. *)
  Definition notify (name : string) (old new : bt_status) (c : context) : context :=
    if bt_status_eqb old new then c
    else match new with
         | Idle => c
         | Running => Context (ctx_request c) name (ctx_state c)
         | Success =>
             if String.eqb (request_string (ctx_request c)) (ctx_action c)
             then Context NoRequest (ctx_action c) (ctx_state c) else c
         | Failure =>
             if String.eqb (request_string (ctx_request c)) name
             then Context NoRequest name (ctx_state c)
             else Context (ctx_request c) name (ctx_state c)
         end.

  (** [ControlNode::haltChild]: a running child is halted with everything below it; every child
      becomes IDLE. *)
  Fixpoint halt_child (n : node) : node :=
    match n with
    | Leaf l _ => Leaf l Idle
    | Fallback name Running _ ks => Fallback name Idle 0 (map halt_child ks)
    | Fallback name _ i ks => Fallback name Idle i ks
    end.

  (** [FallbackNode::tick] and [TreeNode::executeTick]: children before [current_child_idx_] are
      skipped, the first one that does not fail decides. *)
  Fixpoint tick (n : node) (c : context) {struct n} : option (node * context * bt_status) :=
    match n with
    | Leaf l st =>
        match act l (ctx_request c) (ctx_state c) with
        | None => None
        | Some (r, s) =>
            Some (Leaf l r, notify (leaf_name l) st r (Context (ctx_request c) (ctx_action c) s), r)
        end
    | Fallback name st index ks =>
        let fix children (ks : list node) (skip at_ : nat) (c : context)
          : option (list node * nat * context * bt_status) :=
          match ks with
          | nil => Some (nil, at_, c, Failure)
          | k :: rest =>
              match skip with
              | Datatypes.S skip' =>
                  match children rest skip' (Datatypes.S at_) c with
                  | Some (rest', i, c', r) => Some (k :: rest', i, c', r)
                  | None => None
                  end
              | O =>
                  match tick k c with
                  | None => None
                  | Some (_, _, Idle) => None
                  | Some (k', c', Running) => Some (k' :: rest, at_, c', Running)
                  | Some (k', c', Success) => Some (k' :: rest, at_, c', Success)
                  | Some (k', c', Failure) =>
                      match children rest O (Datatypes.S at_) c' with
                      | Some (rest', i, c'', r) => Some (k' :: rest', i, c'', r)
                      | None => None
                      end
                  end
              end
          end in
        match children ks index O (notify name st Running c) with
        | None => None
        | Some (ks', i, c', Running) => Some (Fallback name Running i ks', c', Running)
        | Some (ks', _, c', r) =>
            Some (Fallback name r O (map halt_child ks'), notify name Running r c', r)
        end
    end.

  (** What a call of [update] comes to: it returned, it threw, or it was still looping after
      [fuel] ticks. *)
  Inductive updated :=
  | Returned (tree : node) (c : context) (ticks : nat)
  | Threw
  | Looping.

  (** src/vehicle/behavior_tree.cpp:145-151 and src/pedestrian/behavior_tree.cpp:86-92, [update]:
      one tick, then further ticks as long as the current action is "root". *)
  Fixpoint update (fuel done : nat) (tree : node) (c : context) : updated :=
    match fuel with
    | O => Looping
    | Datatypes.S fuel' =>
        match tick tree c with
        | None => Threw
        | Some (tree', c', _) =>
            if String.eqb (ctx_action c') "root" then update fuel' (Datatypes.S done) tree' c'
            else Returned tree' c' (Datatypes.S done)
        end
    end.

End Engine.

Arguments Leaf {leaf} _ _.
Arguments Fallback {leaf} _ _ _ _.
Arguments Context {S} _ _ _.
Arguments ctx_request {S} _.
Arguments ctx_action {S} _.
Arguments ctx_state {S} _.
Arguments status_of {leaf} _.
Arguments notify {S} _ _ _ _.
Arguments halt_child {leaf} _.
Arguments tick {leaf} _ {S} _ _ _.
Arguments update {leaf} _ {S} _ _ _ _ _.
Arguments Returned {leaf S} _ _ _.
Arguments Threw {leaf S}.
Arguments Looping {leaf S}.

(** ** The two trees *)

Inductive leaf :=
| LaneChange | FollowTrajectory | FollowLane | FollowFrontEntity | StopAtTrafficLight
| StopAtStopLine | StopAtCrossingEntity | Yield | MoveBackward | WalkStraight.

(** The [name] attributes in config/vehicle_entity_behavior.xml and
    config/pedestrian_entity_behavior.xml. *)
Definition leaf_name (l : leaf) : string :=
  match l with
  | LaneChange => "lane_change"
  | FollowTrajectory => "follow_polyline_trajectory"
  | FollowLane => "follow_lane"
  | FollowFrontEntity => "follow_front_entity"
  | StopAtTrafficLight => "stop_at_traffic_light"
  | StopAtStopLine => "stop_at_stop_line"
  | StopAtCrossingEntity => "stop_at_crossing_entity"
  | Yield => "yield"
  | MoveBackward => "move_backward"
  | WalkStraight => "walk_straight"
  end%string.

(** config/vehicle_entity_behavior.xml:3-19. *)
Definition vehicle_tree : node leaf :=
  Fallback "root" Idle 0
    [ Leaf LaneChange Idle;
      Fallback "follow_trajectory_sequence" Idle 0 [ Leaf FollowTrajectory Idle ];
      Fallback "follow_lane_sequence" Idle 0
        [ Leaf FollowLane Idle;
          Fallback "follow_lane_behavior_selector" Idle 0
            [ Leaf FollowFrontEntity Idle; Leaf StopAtTrafficLight Idle; Leaf StopAtStopLine Idle;
              Leaf StopAtCrossingEntity Idle; Leaf Yield Idle; Leaf MoveBackward Idle ] ] ].

(** config/pedestrian_entity_behavior.xml:3-9. *)
Definition pedestrian_tree : node leaf :=
  Fallback "root" Idle 0
    [ Leaf FollowLane Idle; Leaf WalkStraight Idle;
      Fallback "follow_trajectory_sequence" Idle 0 [ Leaf FollowTrajectory Idle ] ].

(** ** What the actions read and write *)

(** The nearest entity ahead found along the lane: its distance with the vehicle's own width as
    lateral threshold (src/action_node.cpp:245-248, follow_front_entity_action.cpp:127-131), its
    distance with the configured lateral threshold (src/action_node.cpp:185-189), which may find
    nothing, and its speed. *)
Record front := Front { gap : Q; gap_threshold : option Q; front_speed : Q }.

(** Lane change request (traffic_simulator/data_type/lane_change.hpp). *)
Inductive lane_constraint := NoConstraint | LateralVelocity (v : Q) | LongitudinalDistance (d : Q)
| Duration (t : Q).
Inductive lane_policy := Force | BestEffort.
Record lane_request := LaneRequest { lc_constraint : lane_constraint; lc_policy : lane_policy }.

(** A planned lane change curve: its length, the lateral offset it covers, the position on the
    target lane where it ends. *)
Record curve := Curve { curve_length : Q; curve_offset : Q; curve_target : Q }.

(** [curve_], [current_s_], [target_s_] and [lane_change_velocity_] of the lane change action. *)
Record lane_plan := Plan { plan_curve : curve; plan_s : Q; plan_velocity : Q }.

Inductive followed (E : Type) := Moved (e : E) | Finished | Broke.
Arguments Moved {E} _.
Arguments Finished {E}.
Arguments Broke {E}.

Section Actions.
  (** The status of the entity, with the trajectory it may be following. *)
  Variable E : Type.

  (** What one frame offers.  Fields that depend on the entity's own status are functions of it;
      [right_of_way] depends on the route and the other entities only (route.cpp:57-84). *)
  Record world := World {
    speed : E -> Q;
    in_lane : E -> bool;
    advance : Q -> E -> E;              (* calculateUpdatedEntityStatus + set, on a lanelet *)
    world_advance : Q -> E -> E;        (* calculateUpdatedEntityStatusInWorldFrame + set *)
    stand : E -> E;                     (* stopEntity *)
    stop_distance : E -> Q;             (* calculateStopDistance *)
    right_of_way : bool;                (* route::isNeedToRightOfWay *)
    lane_front : E -> option front;     (* getFrontEntityName, getDistanceToFrontEntity *)
    path_front : E -> option (Q * Q);   (* getFrontEntityNameAndDistanceByTrajectory, speed *)
    stop_line : E -> option Q;          (* distanceToStopLine *)
    light_line : E -> option Q;         (* getDistanceToActiveTrafficLightStopLine *)
    conflict : E -> option Q;           (* distanceToNearestConflictingPose *)
    yield_line : E -> option Q;         (* getYieldStopDistance *)
    limit : E -> Q;                     (* route::speedLimit of the route ahead *)
    back_limit : E -> Q;                (* route::speedLimit of the lanelets behind *)
    obstacle : E -> bool;               (* a pedestrian's detectObstacleInLane *)
    obstacle_ahead : E -> bool;         (* a pedestrian's isObstacleInFront *)
    trajectory : E -> bool;             (* a polyline trajectory is on the blackboard *)
    follow : E -> followed E;           (* follow_trajectory::makeUpdatedStatus *)
    plan_curve_from : E -> option curve;(* laneChangeTrajectory and the offset of its goal *)
    with_speed : Q -> Q -> E -> E;      (* set the linear speed and acceleration *)
    on_curve : Q -> E -> E;             (* pose on the curve at s *)
    land : Q -> E -> E;                 (* pose on the target lane at s *)
  }.

  (** Settings that stay the same during a frame. *)
  Record settings := Settings {
    see_around : bool;
    by_path : bool;                     (* use_trajectory_based_front_entity_detection *)
    length_ : Q;                        (* bounding_box.dimensions.x *)
    target_speed : option Q;
    lane_change : option lane_request;
    step : Q;
    max_acceleration : Q;
    max_deceleration : Q;
    max_speed : Q;
  }.

  (** How an action changed the entity's status. *)
  Inductive motion := Drive (target : Q) | Walk (target : Q) | Stand | Track | Shift (s : Q)
  | Land (s : Q).

  (** The status, the lane change in progress, and the changes made so far (newest first). *)
  Record state := State { entity : E; plan : option lane_plan; moves : list (leaf * motion) }.

  Variable w : world.
  Variable p : settings.

  (** src/action_node.cpp:140-143, [getHorizon]. *)
  Definition horizon (e : E) : Q :=
    let v := speed w e * 5 in
    if lt v 20 then 20 else if lt 50 v then 50 else v.

  (** Preconditions shared by the actions of the follow-lane sequence. *)
  Definition lane_following (r : request) : bool :=
    match r with NoRequest | FollowLaneR => true | _ => false end.

  Definition moved (l : leaf) (m : motion) (e : E) (s : state) : state :=
    State e (plan s) ((l, m) :: moves s).

  (** src/action_node.cpp:410-447 and 152-157: throws off the lanes. *)
  Definition drive (l : leaf) (target : Q) (s : state) : option state :=
    if in_lane w (entity s) then Some (moved l (Drive target) (advance w target (entity s)) s)
    else None.

  Definition running (o : option state) : option (bt_status * state) :=
    match o with Some s => Some (Running, s) | None => None end.

  Definition fail (s : state) : option (bt_status * state) := Some (Failure, s).

  (** [target_speed_], or the speed limit of the route when it is not set. *)
  Definition wanted (e : E) : Q :=
    match target_speed p with Some v => v | None => limit w e end.

  (** The cap of the stopping actions: the smaller of the target speed and the planned speed. *)
  Definition capped (planned : Q) : Q :=
    match target_speed p with
    | Some t => if lt planned t then planned else t
    | None => planned
    end.

  (** [calculateTargetSpeed] of stop_at_traffic_light_action.cpp:73-87,
      stop_at_stop_line_action.cpp:71-86, stop_at_crossing_entity_action.cpp:74-85 and
      yield_action.cpp:74-88: 0 once the rest is shorter than the stop distance, else the
      current speed. *)
  Definition approach (d : Q) (e : E) : Q :=
    if lt (d - (length_ p * (1 # 2) + 1)) (stop_distance w e) then 0 else speed w e.

  Definition exceeds (o : option Q) (test : Q -> bool) : bool :=
    match o with Some d => test d | None => false end.

  (** getDistanceToFrontEntity (src/action_node.cpp:174-193): nothing off the lanes. *)
  Definition front_distance (e : E) : option Q :=
    match lane_front w e with Some f => gap_threshold f | None => None end.

  (** follow_lane_action.cpp:109-121. *)
  Definition front_of_lane (e : E) : option Q :=
    if by_path p then match path_front w e with Some (d, _) => Some d | None => None end
    else front_distance e.

  (** follow_front_entity_action.cpp:111-133: distance and speed of the entity to follow. *)
  Definition front_to_follow (e : E) : option (Q * Q) :=
    if by_path p then path_front w e
    else match lane_front w e with Some f => Some (gap f, front_speed f) | None => None end.

  (** follow_lane_action.cpp:77-169. *)
  Definition follow_lane (r : request) (s : state) : option (bt_status * state) :=
    let e := entity s in
    if negb (lane_following r) then fail s
    else if negb (in_lane w e) then Some (Running, moved FollowLane Stand (stand w e) s)
    else if lt (speed w e) 0 then fail s
    else if see_around p && right_of_way w then fail s
    else if see_around p
              && exceeds (front_of_lane e) (fun d => le d (stop_distance w e + length_ p + 5))
         then fail s
    else if see_around p && exceeds (light_line w e) (fun d => le d (horizon e)) then fail s
    else if see_around p
              && exceeds (stop_line w e)
                   (fun d => le d (stop_distance w e + length_ p * (1 # 2) + 5)) then fail s
    else if see_around p
              && exceeds (conflict w e) (fun d => lt d (length_ p + 3 + stop_distance w e))
         then fail s
    else running (drive FollowLane (wanted e) s).

  (** follow_front_entity_action.cpp:163-180: the speed asked for behind a slower entity.
      [std::clamp] with a negative target speed is undefined. *)
  Definition behind (d v target : Q) (e : E) : option Q :=
    let asked :=
      if le d (stop_distance w e) then 0
      else if le (stop_distance w e + length_ p + 5) d then v + 2
      else v in
    if lt target 0 then None
    else Some (if lt asked 0 then 0 else if lt target asked then target else asked).

  (** follow_front_entity_action.cpp:61-78,80-94,96-186. *)
  Definition follow_front_entity (r : request) (s : state) : option (bt_status * state) :=
    let e := entity s in
    if negb (lane_following r) then fail s
    else if right_of_way w then fail s
    else if negb (see_around p) then fail s
    else if negb (in_lane w e) then None
    else if lt (speed w e) 0 then fail s
    else match front_to_follow e with
         | None => fail s
         | Some (d, v) =>
             if exceeds (conflict w e) (fun c => lt c d) then fail s
             else if exceeds (stop_line w e) (fun c => lt c d) then fail s
             else if le (wanted e) v then running (drive FollowFrontEntity (wanted e) s)
             else match behind d v (wanted e) e with
                  | None => None
                  | Some t => running (drive FollowFrontEntity t s)
                  end
         end.

  (** stop_at_traffic_light_action.cpp:89-139. *)
  Definition stop_at_traffic_light (r : request) (s : state) : option (bt_status * state) :=
    let e := entity s in
    if negb (lane_following r) then fail s
    else if negb (in_lane w e) then fail s
    else if negb (see_around p) then fail s
    else if right_of_way w then fail s
    else if lt (speed w e) 0 then fail s
    else match light_line w e with
         | None => fail s
         | Some d =>
             if lt (horizon e) d then fail s
             else running (drive StopAtTrafficLight (capped (approach d e)) s)
         end.

  (** stop_at_stop_line_action.cpp:55-69,88-165.  Off the lanes [getLaneletPose] throws for a
      vehicle that does not move backwards. *)
  Definition stop_at_stop_line (r : request) (s : state) : option (bt_status * state) :=
    let e := entity s in
    if negb (lane_following r) then fail s
    else if negb (see_around p) then fail s
    else if right_of_way w then fail s
    else if lt (speed w e) 0 then fail s
    else if negb (in_lane w e) then None
    else match stop_line w e with
         | None => fail s
         | Some d =>
             if exceeds (front_distance e) (fun f => le f d) then fail s
             else if exceeds (conflict w e) (fun c => le c d) then fail s
             else if lt (- (1 # 1000)) (speed w e) && lt (speed w e) (1 # 1000)
                       && le d (length_ p + 5)
                  then running (drive StopAtStopLine (wanted e) s)
             else running (drive StopAtStopLine (capped (approach d e)) s)
         end.

  (** stop_at_crossing_entity_action.cpp:87-148. *)
  Definition stop_at_crossing_entity (r : request) (s : state) : option (bt_status * state) :=
    let e := entity s in
    if negb (lane_following r) then fail s
    else if negb (in_lane w e) then fail s
    else if negb (see_around p) then fail s
    else if right_of_way w then fail s
    else if lt (speed w e) 0 then fail s
    else match conflict w e with
         | None => fail s
         | Some d =>
             if exceeds (front_distance e) (fun f => le f d) then fail s
             else if exceeds (stop_line w e) (fun c => le c d) then fail s
             else running (drive StopAtCrossingEntity (capped (approach d e)) s)
         end.

  (** yield_action.cpp:55-72 and 113-120,128-135: the waypoints are computed after the status has
      been changed; they are empty when the new speed is negative. *)
  Definition yielded (r : bt_status) (o : option state) : option (bt_status * state) :=
    match o with
    | None => None
    | Some s =>
        if negb (in_lane w (entity s)) then None
        else if lt (speed w (entity s)) 0 then fail s
        else Some (r, s)
    end.

  (** yield_action.cpp:90-136. *)
  Definition yield (r : request) (s : state) : option (bt_status * state) :=
    let e := entity s in
    if negb (lane_following r) then fail s
    else if negb (see_around p) then fail s
    else if negb (in_lane w e) then fail s
    else if negb (right_of_way w) then yielded Success (drive Yield (wanted e) s)
    else
      let target :=
        match yield_line w e with
        | Some d => approach d e
        | None => limit w e
        end in
      yielded Running (drive Yield target s).

  (** move_backward_action.cpp:37-83. *)
  Definition move_backward (r : request) (s : state) : option (bt_status * state) :=
    let e := entity s in
    if negb (lane_following r) then fail s
    else if negb (in_lane w e) then fail s
    else if negb (lt (speed w e) 0) then fail s
    else
      let target := match target_speed p with Some v => v | None => back_limit w e end in
      running (drive MoveBackward target s).

  (** follow_polyline_trajectory_action.cpp:57-96, for vehicles and pedestrians.  The status time
      is never NaN in the model. *)
  Definition follow_trajectory (r : request) (s : state) : option (bt_status * state) :=
    let e := entity s in
    match r with
    | FollowPolylineR =>
        if negb (trajectory w e) then fail s
        else match follow w e with
             | Moved e' => Some (Running, moved FollowTrajectory Track e' s)
             | Finished => Some (Success, s)
             | Broke => None
             end
    | _ => fail s
    end.

  (** lane_change_action.cpp:105-122: the speed along the curve.  [std::clamp] with a negative
      target speed is undefined. *)
  Definition lane_velocity (q : lane_request) (cu : curve) (e : E) : option Q :=
    let v :=
      match lc_constraint q with
      | NoConstraint => speed w e
      | LateralVelocity value => curve_length cu / (curve_offset cu / value)
      | LongitudinalDistance _ => speed w e
      | Duration value => curve_length cu / value
      end in
    match target_speed p with
    | None => Some v
    | Some t =>
        if lt t 0 then None else Some (if lt v 0 then 0 else if lt t v then t else v)
    end.

  (** lane_change_action.cpp:144-152: an empty [target_speed_] compares less than any speed. *)
  Definition effort (velocity : Q) (e : E) : Q :=
    let a := (velocity - speed w e) / step p in
    let over := match target_speed p with Some t => lt t (speed w e) | None => true end in
    if over then
      (if lt a (- max_deceleration p) then - max_deceleration p else if lt 0 a then 0 else a)
    else (if lt a 0 then 0 else if lt (max_acceleration p) a then max_acceleration p else a).

  (** lane_change_action.cpp:130-171: the speed of this frame.  (159-161: [std::clamp] to
      [-10, max_speed].) *)
  Definition lane_speed (q : lane_request) (velocity : Q) (e : E) : E :=
    match lc_policy q with
    | Force => with_speed w velocity 0 e
    | BestEffort =>
        let a := effort velocity e in
        let v := speed w e + a * step p in
        with_speed w (if lt v (- 10) then - 10 else if lt (max_speed p) v then max_speed p else v) a e
    end.

  (** lane_change_action.cpp:128-214: one frame along the curve. *)
  Definition lane_step (q : lane_request) (pl : lane_plan) (s : state)
    : option (bt_status * state) :=
    let e := lane_speed q (plan_velocity pl) (entity s) in
    let at_ := plan_s pl + speed w e * step p in
    let pl' := Plan (plan_curve pl) at_ (plan_velocity pl) in
    if lt at_ (curve_length (plan_curve pl)) then
      let e' := on_curve w at_ e in
      let s' := State e' (Some pl') ((LaneChange, Shift at_) :: moves s) in
      if lt (speed w e') 0 then fail s' else Some (Running, s')
    else if lt (speed w e) 0 then fail (State e (Some pl') (moves s))
    else
      let s_ := at_ - curve_length (plan_curve pl) + curve_target (plan_curve pl) in
      Some (Success, State (land w s_ e) None ((LaneChange, Land s_) :: moves s)).

  (** lane_change_action.cpp:69-127. *)
  Definition change_lane (r : request) (s : state) : option (bt_status * state) :=
    match r, lane_change p with
    | LaneChangeR, Some q =>
        match plan s with
        | Some pl => lane_step q pl s
        | None =>
            if negb (in_lane w (entity s)) then fail s
            else match plan_curve_from w (entity s) with
                 | None => fail s
                 | Some cu =>
                     match lane_velocity q cu (entity s) with
                     | None => None
                     | Some v => lane_step q (Plan cu 0 v) s
                     end
                 end
        end
    | _, _ => fail (State (entity s) None (moves s))
    end.

  (** src/pedestrian/follow_lane_action.cpp:167-200. *)
  Definition walk_lane (r : request) (s : state) : option (bt_status * state) :=
    let e := entity s in
    if negb (lane_following r) then fail s
    else if negb (in_lane w e) then Some (Running, moved FollowLane Stand (stand w e) s)
    else running (drive FollowLane (if obstacle w e then 0 else wanted e) s).

  (** src/pedestrian/walk_straight_action.cpp:211-229. *)
  Definition walk_straight (r : request) (s : state) : option (bt_status * state) :=
    let e := entity s in
    match r with
    | WalkStraightR =>
        let v := match target_speed p with Some v => v | None => 1111 # 1000 end in
        let v := if obstacle_ahead w e then 0 else v in
        Some (Running, moved WalkStraight (Walk v) (world_advance w v e) s)
    | _ => fail s
    end.

  (** src/vehicle/behavior_tree.cpp:38-49: the action nodes of a vehicle. *)
  Definition vehicle_act (l : leaf) (r : request) (s : state) : option (bt_status * state) :=
    match l with
    | LaneChange => change_lane r s
    | FollowTrajectory => follow_trajectory r s
    | FollowLane => follow_lane r s
    | FollowFrontEntity => follow_front_entity r s
    | StopAtTrafficLight => stop_at_traffic_light r s
    | StopAtStopLine => stop_at_stop_line r s
    | StopAtCrossingEntity => stop_at_crossing_entity r s
    | Yield => yield r s
    | MoveBackward => move_backward r s
    | WalkStraight => None
    end.

  (** src/pedestrian/behavior_tree.cpp: the action nodes of a pedestrian. *)
  Definition pedestrian_act (l : leaf) (r : request) (s : state) : option (bt_status * state) :=
    match l with
    | FollowLane => walk_lane r s
    | WalkStraight => walk_straight r s
    | FollowTrajectory => follow_trajectory r s
    | _ => None
    end.

  (** One frame: [update] with enough fuel (see C107), from the frame's own list of moves. *)
  Definition vehicle_frame (fuel : nat) (t : node leaf) (c : context state) : updated leaf state :=
    update leaf_name vehicle_act fuel 0 t c.

  Definition pedestrian_frame (fuel : nat) (t : node leaf) (c : context state)
    : updated leaf state :=
    update leaf_name pedestrian_act fuel 0 t c.

End Actions.
