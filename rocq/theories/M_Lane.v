(** Lanelets, lanelet poses and routes.

    simulation/traffic_simulator/src/lanelet_wrapper/pose.cpp, route.cpp,
    lanelet_map.cpp, distance.cpp; src/utils/pose.cpp, route.cpp, distance.cpp;
    src/data_type/lanelet_pose.cpp; src/behavior/route_planner.cpp.

    Simplifications: lengths and [s] values are rationals, not doubles; the routing graph of
    lanelet2 is a pair of functions giving the ids that follow and precede a lanelet; a lanelet
    id that is not on the map (laneletLayer.get throws) is not modelled; map poses (x, y, z,
    orientation) are not modelled.  Every [while] loop takes a fuel argument and has an explicit
    out-of-fuel result, so that termination is a theorem and not an assumption. *)
From Coq Require Import ZArith QArith List Bool.
Import ListNotations.
Local Open Scope Q_scope.

(** lanelet::Id (int64). *)
Definition id := Z.

(** The part of the map and of the routing graph the functions below use:
    src/lanelet_wrapper/lanelet_map.cpp:45-48 laneletLength,
    :199-209 nextLaneletIds(id, type), :249-259 previousLaneletIds(id, type);
    [straight] is the test attributeOr("turn_direction", "else") == "straight" of :221-234. *)
Record road := {
  next : id -> list id;
  previous : id -> list id;
  straight : id -> bool;
  len : id -> Q
}.

(** src/lanelet_wrapper/lanelet_map.cpp:221-234 nextLaneletIds(id, "straight", type). *)
Definition next_straight (m : road) (a : id) : list id := filter (straight m) (next m a).

(** src/lanelet_wrapper/lanelet_map.cpp:272-284 previousLaneletIds(id, "straight", type). *)
Definition previous_straight (m : road) (a : id) : list id := filter (straight m) (previous m a).

(** traffic_simulator_msgs/msg/LaneletPose.msg; the three angles rpy are carried along exactly
    like the offset by every function here except alternativeLaneletPoses (which sets them to
    zero), and are left out. *)
Record pose := { lane : id; sval : Q; offset : Q }.

Definition at_lane (p : pose) (a : id) (s : Q) : pose :=
  {| lane := a; sval := s; offset := offset p |}.

(** What a canonicalisation returns: a pose, the id of the lanelet where it gave up, or nothing
    because the loop is still running when the fuel ends. *)
Inductive canon :=
| Canonical (p : pose)
| EndOfRoad (a : id)
| Running.

Definition Qltb (a b : Q) : bool := negb (Qle_bool b a).

(** src/lanelet_wrapper/pose.cpp:347-356 first loop of canonicalizeLaneletPose(pose). *)
Fixpoint canon_back (m : road) (fuel : nat) (p : pose) : canon :=
  if Qltb (sval p) 0 then
    match fuel with
    | O => Running
    | S fuel' =>
        match previous m (lane p) with
        | [] => EndOfRoad (lane p)
        | a :: _ => canon_back m fuel' (at_lane p a (sval p + len m a))
        end
    end
  else Canonical p.

(** src/lanelet_wrapper/pose.cpp:357-369 second loop of canonicalizeLaneletPose(pose). *)
Fixpoint canon_forth (m : road) (fuel : nat) (p : pose) : canon :=
  if Qltb (len m (lane p)) (sval p) then
    match fuel with
    | O => Running
    | S fuel' =>
        match next m (lane p) with
        | [] => EndOfRoad (lane p)
        | a :: _ => canon_forth m fuel' (at_lane p a (sval p - len m (lane p)))
        end
    end
  else Canonical p.

(** src/lanelet_wrapper/pose.cpp:343-372 canonicalizeLaneletPose(pose). *)
Definition canonicalize (m : road) (fuel : nat) (p : pose) : canon :=
  match canon_back m fuel p with
  | Canonical q => canon_forth m fuel q
  | r => r
  end.

(** src/lanelet_wrapper/route.cpp:28-32 isInRoute. *)
Definition in_route (route : list id) (a : id) : bool := existsb (Z.eqb a) route.

(** src/lanelet_wrapper/pose.cpp:386-395: the [for] over the lanelets following the one the
    iteration started on.  There is no [break]: each of them that lies on the route moves the pose
    on, taking off the length of the lanelet the pose is on at that moment. *)
Fixpoint move_over (m : road) (route : list id) (candidates : list id) (found : bool) (p : pose)
  : bool * pose :=
  match candidates with
  | [] => (found, p)
  | a :: r =>
      if in_route route a
      then move_over m route r true (at_lane p a (sval p - len m (lane p)))
      else move_over m route r found p
  end.

(** src/lanelet_wrapper/pose.cpp:382-400 loop of canonicalizeLaneletPose(pose, route). *)
Fixpoint canon_route_forth (m : road) (route : list id) (fuel : nat) (p : pose) : canon :=
  if Qltb (len m (lane p)) (sval p) then
    match fuel with
    | O => Running
    | S fuel' =>
        match move_over m route (next m (lane p)) false p with
        | (true, q) => canon_route_forth m route fuel' q
        | (false, q) => EndOfRoad (lane q)
        end
    end
  else Canonical p.

(** src/lanelet_wrapper/pose.cpp:374-402 canonicalizeLaneletPose(pose, route). *)
Definition canonicalize_route (m : road) (route : list id) (fuel : nat) (p : pose) : canon :=
  if Qltb (sval p) 0 then canonicalize m fuel p
  else canon_route_forth m route fuel p.

(** src/lanelet_wrapper/pose.cpp:261-299: the lanelet taken next, straight ones first. *)
Definition pick (a b : list id) : option id :=
  match a with
  | x :: _ => Some x
  | [] => match b with x :: _ => Some x | [] => None end
  end.
Definition pick_next (m : road) (a : id) : option id := pick (next_straight m a) (next m a).
Definition pick_previous (m : road) (a : id) : option id :=
  pick (previous_straight m a) (previous m a).

(** src/lanelet_wrapper/pose.cpp:267-282; [EndOfRoad a] stands for the SemanticError that says the
    next lanelet of [a] is empty. *)
Fixpoint along_forth (m : road) (fuel : nat) (p : pose) : canon :=
  if Qle_bool (len m (lane p)) (sval p) then
    match fuel with
    | O => Running
    | S fuel' =>
        match pick_next m (lane p) with
        | None => EndOfRoad (lane p)
        | Some a => along_forth m fuel' (at_lane p a (sval p - len m (lane p)))
        end
    end
  else Canonical p.

(** src/lanelet_wrapper/pose.cpp:283-297. *)
Fixpoint along_back (m : road) (fuel : nat) (p : pose) : canon :=
  if Qltb (sval p) 0 then
    match fuel with
    | O => Running
    | S fuel' =>
        match pick_previous m (lane p) with
        | None => EndOfRoad (lane p)
        | Some a => along_back m fuel' (at_lane p a (sval p + len m a))
        end
    end
  else Canonical p.

(** src/lanelet_wrapper/pose.cpp:261-299 alongLaneletPose(from_pose, distance, type). *)
Definition along (m : road) (fuel : nat) (p : pose) (distance : Q) : canon :=
  let q := at_lane p (lane p) (sval p + distance) in
  if Qle_bool 0 (sval q) then along_forth m fuel q else along_back m fuel q.

(** src/lanelet_wrapper/pose.cpp:301-325 alongLaneletPose(from_pose, route_lanelets, distance).
    [None] is out of fuel. *)
Definition along_route (m : road) (route : list id) (fuel : nat) (p : pose) (distance : Q)
  : option pose :=
  let q := at_lane p (lane p) (sval p + distance) in
  match canonicalize_route m route fuel q with
  | Canonical r => Some r
  | EndOfRoad a => Some (at_lane q a (if Qle_bool (sval q) 0 then 0 else len m a))
  | Running => None
  end.

(** src/lanelet_wrapper/pose.cpp:205-259 alternativeLaneletPoses; [None] is out of fuel. *)
Fixpoint alternatives (m : road) (fuel : nat) (p : pose) : option (list pose) :=
  match fuel with
  | O => None
  | S fuel' =>
      let fix each (l : list pose) : option (list pose) :=
        match l with
        | [] => Some []
        | q :: r =>
            match alternatives m fuel' q, each r with
            | Some [], Some y => Some (q :: y)
            | Some x, Some y => Some (x ++ y)
            | _, _ => None
            end
        end in
      if Qltb (sval p) 0 then
        each (map (fun a => at_lane p a (sval p + len m a)) (previous m (lane p)))
      else if Qltb (len m (lane p)) (sval p) then
        each (map (fun a => at_lane p a (sval p - len m (lane p))) (next m (lane p)))
      else Some [p]
  end.

(** src/lanelet_wrapper/route.cpp:121-139 the loop of followingLanelets(id, distance, ...): the
    lanelets appended after [a] when [total] has been covered so far. *)
Fixpoint follow (m : road) (fuel : nat) (a : id) (total distance : Q) : option (list id) :=
  if Qltb total distance then
    match fuel with
    | O => None
    | S fuel' =>
        match pick_next m a with
        | None => Some []
        | Some b =>
            match follow m fuel' b (total + len m b) distance with
            | Some r => Some (b :: r)
            | None => None
            end
        end
    end
  else Some [].

(** src/lanelet_wrapper/route.cpp:112-140 followingLanelets(id, distance, include_self, type). *)
Definition following (m : road) (fuel : nat) (a : id) (distance : Q) (include_self : bool)
  : option (list id) :=
  match follow m fuel a 0 distance with
  | Some r => Some (if include_self then a :: r else r)
  | None => None
  end.

(** src/lanelet_wrapper/route.cpp:149-164, the same for previousLanelets. *)
Fixpoint follow_back (m : road) (fuel : nat) (a : id) (total distance : Q) : option (list id) :=
  if Qltb total distance then
    match fuel with
    | O => None
    | S fuel' =>
        match pick_previous m a with
        | None => Some []
        | Some b =>
            match follow_back m fuel' b (total + len m b) distance with
            | Some r => Some (b :: r)
            | None => None
            end
        end
    end
  else Some [].

(** src/lanelet_wrapper/route.cpp:142-166 previousLanelets. *)
Definition previous_lanelets (m : road) (fuel : nat) (a : id) (horizon : Q) : option (list id) :=
  match follow_back m fuel a 0 horizon with
  | Some r => Some (a :: r)
  | None => None
  end.

(** Outcome of a call that may throw a SemanticError, run into undefined behaviour or not end. *)
Inductive result (A : Type) :=
| Ok (x : A)
| Error
| Undefined
| NoFuel.
Arguments Ok {A} x.
Arguments Error {A}.
Arguments Undefined {A}.
Arguments NoFuel {A}.

(** src/lanelet_wrapper/route.cpp:79-94, the part of the loop after the starting lanelet was
    found.  [last] is the lanelet the next one must follow (the last one collected, or the current
    one if none is collected).  The message of the error thrown at :85 is built by adding lanelet
    ids to a character pointer, which leaves the string literal: undefined behaviour. *)
Fixpoint collect (m : road) (last : id) (route : list id) (total horizon : Q)
  : result (list id * Q) :=
  match route with
  | [] => Ok ([], total)
  | a :: r =>
      if in_route (next m last) a then
        if Qltb horizon (total + len m a) then Ok ([a], total + len m a)
        else
          match collect m a r (total + len m a) horizon with
          | Ok (l, t) => Ok (a :: l, t)
          | e => e
          end
      else Undefined
  end.

(** src/lanelet_wrapper/route.cpp:78-100, the loop up to the starting lanelet. *)
Fixpoint collect_from (m : road) (a : id) (route : list id) (horizon : Q) (include : bool)
  : result (list id * Q) :=
  match route with
  | [] => Ok ([], 0)
  | b :: r =>
      if (b =? a)%Z then
        match collect m a r 0 horizon with
        | Ok (l, t) => Ok (if include then a :: l else l, t)
        | e => e
        end
      else collect_from m a r horizon include
  end.

(** src/lanelet_wrapper/route.cpp:61-110 followingLanelets(id, route, horizon, include, type). *)
Definition following_route (m : road) (fuel : nat) (a : id) (route : list id) (horizon : Q)
    (include : bool) : result (list id) :=
  match route with
  | [] => Ok []
  | r0 :: _ =>
      match collect_from m a route horizon include with
      | Ok ([], _) => Error
      | Ok (l, total) =>
          if Qle_bool total horizon then
            match following m fuel (List.last route r0) (horizon - total) false with
            | Some r => Ok (l ++ r)
            | None => NoFuel
            end
          else Ok l
      | Error => Error
      | Undefined => Undefined
      | NoFuel => NoFuel
      end
  end.

(** src/behavior/route_planner.hpp members waypoint_queue_ and route_ (whole_lanelet_ids_ is only
    written, never read; the graph type is the one of the road). *)
Record planner := { queue : list pose; route_opt : option (list id) }.

(** A router: route::routeFromGraph(from, to, routing_configuration), src/lanelet_wrapper/
    route.cpp:51-59; the empty list means that there is no route.  The function-local static
    configuration of route_planner.cpp:109-114 is that of the first planner that asked; here one
    router serves all calls. *)
Definition router := id -> id -> list id.

(** include/traffic_simulator/data_type/lanelet_pose.hpp:66-81 operator<=. *)
Definition reached_by (w p : pose) : bool := (lane w =? lane p)%Z && Qle_bool (sval w) (sval p).

(** src/data_type/lanelet_pose.cpp:132-136 isSameLaneletId. *)
Definition same_lane (w p : pose) : bool := (lane w =? lane p)%Z.

(** src/behavior/route_planner.cpp:25-38 setWaypoints: route_ is kept. *)
Definition set_waypoints (pl : planner) (ws : list pose) : planner :=
  {| queue := ws; route_opt := route_opt pl |}.

(** src/behavior/route_planner.cpp:66-70 cancelRoute. *)
Definition cancel_route (pl : planner) : planner := {| queue := []; route_opt := None |}.

(** src/behavior/route_planner.cpp:72-86 cancelWaypoint. *)
Fixpoint drop_same (ws : list pose) (p : pose) : list pose :=
  match ws with
  | [] => []
  | w :: r => if same_lane w p then drop_same r p else ws
  end.
Definition cancel_waypoint (pl : planner) (p : pose) : planner :=
  match drop_same (queue pl) p with
  | [] => cancel_route pl
  | ws => {| queue := ws; route_opt := route_opt pl |}
  end.

(** src/behavior/route_planner.cpp:122-136: (re)compute the route to the first waypoint. *)
Definition plan_to_front (rt : router) (pl : planner) (p : pose) : planner :=
  match queue pl with
  | [] => pl
  | w :: _ =>
      match route_opt pl with
      | Some r =>
          if in_route r (lane p) then pl
          else {| queue := queue pl; route_opt := Some (rt (lane p) (lane w)) |}
      | None => {| queue := queue pl; route_opt := Some (rt (lane p) (lane w)) |}
      end
  end.

(** src/behavior/route_planner.cpp:106-137 updateRoute (called with a non-empty queue). *)
Definition update_route (rt : router) (pl : planner) (p : pose) : planner :=
  match queue pl with
  | [] => pl
  | w :: _ =>
      if reached_by w p then
        let pl' := cancel_waypoint pl p in
        match queue pl' with
        | [] => cancel_route pl'
        | _ :: _ => plan_to_front rt pl' p
        end
      else plan_to_front rt pl p
  end.

(** src/behavior/route_planner.cpp:40-64 getRouteLanelets. *)
Definition get_route_lanelets (m : road) (rt : router) (fuel : nat) (pl : planner) (p : pose)
    (horizon : Q) : result (list id) * planner :=
  let pl1 := match queue pl with [] => pl | _ :: _ => update_route rt pl p end in
  let straight_on := match following m fuel (lane p) horizon true with
                     | Some r => Ok r
                     | None => NoFuel
                     end in
  match route_opt pl1 with
  | None => (straight_on, pl1)
  | Some r =>
      if in_route r (lane p)
      then (following_route m fuel (lane p) r horizon true, pl1)
      else (straight_on, cancel_waypoint pl1 p)
  end.

(** The calls a user can make on a planner and the effect on its state. *)
Inductive planner_op :=
| SetWaypoints (ws : list pose)
| GetRoute (p : pose) (horizon : Q)
| CancelRoute.

Definition planner_step (m : road) (rt : router) (fuel : nat) (pl : planner) (o : planner_op)
  : planner :=
  match o with
  | SetWaypoints ws => set_waypoints pl ws
  | GetRoute p h => snd (get_route_lanelets m rt fuel pl p h)
  | CancelRoute => cancel_route pl
  end.

(** src/lanelet_wrapper/distance.cpp:95-121: the part of the distance that a lane change from
    lanelet [a] to lanelet [b] contributes; [svalue a (b, s)] is the coordinate on the centre line
    of [a] of the pose at [s] on that of [b], if any (CatmullRomSpline::getSValue). *)
Definition lane_change_distance (m : road) (svalue : id -> id * Q -> option Q) (a b : id)
  : option Q :=
  let middle := (if Qle_bool (len m a) (len m b) then len m a else len m b) * (1 # 2) in
  match svalue a (b, 0) with
  | Some x => Some x
  | None =>
      match svalue b (a, 0) with
      | Some x => Some (- x)
      | None =>
          match svalue a (b, middle) with
          | Some x => Some (x - middle)
          | None =>
              match svalue b (a, middle) with
              | Some x => Some (- (x - middle))
              | None => None
              end
          end
      end
  end.

(** src/lanelet_wrapper/distance.cpp:90-126: the loop over the route. *)
Fixpoint accumulate (m : road) (svalue : id -> id * Q -> option Q) (route : list id) (acc : Q)
  : option Q :=
  match route with
  | a :: ((b :: _) as r) =>
      if in_route (next m a) b then accumulate m svalue r (acc + len m a)
      else
        match lane_change_distance m svalue a b with
        | Some x => accumulate m svalue r (acc + x)
        | None => None
        end
  | _ => Some acc
  end.

(** src/lanelet_wrapper/distance.cpp:66-137 longitudinalDistance(from, to, configuration). *)
Definition forward_distance (m : road) (svalue : id -> id * Q -> option Q) (rt : router)
    (from to : pose) : option Q :=
  let route := rt (lane from) (lane to) in
  if (match route with [] => false | _ => true end) || (lane from =? lane to)%Z then
    match accumulate m svalue route 0 with
    | None => None
    | Some acc =>
        let d := acc - sval from + sval to in
        if Qle_bool 0 d then Some d else None
    end
  else None.

(** A canonicalized pose with its alternatives: include/traffic_simulator/data_type/
    lanelet_pose.hpp members lanelet_pose_, lanelet_poses_. *)
Record cpose := { main : pose; alts : list pose }.

(** src/data_type/lanelet_pose.cpp:70-89 getAlternativeLaneletPoseBaseOnShortestRouteFrom. *)
Fixpoint shortest_alternative (rt : router) (from : id) (best : pose) (best_route : list id)
    (l : list pose) : pose :=
  match l with
  | [] => best
  | p :: r =>
      let route := rt from (lane p) in
      if (length route <? length best_route)%nat
      then shortest_alternative rt from p route r
      else shortest_alternative rt from best best_route r
  end.
Definition alternative_from (rt : router) (from : id) (l : list pose) : option pose :=
  match l with
  | [] => None
  | p :: _ => Some (shortest_alternative rt from p (rt from (lane p)) l)
  end.

(** src/utils/distance.cpp:60-70: the pose of [to] that is used. *)
Definition target_pose (rt : router) (from to : cpose) : pose :=
  if (1 <? length (alts to))%nat then
    match alternative_from rt (lane (main from)) (alts to) with
    | Some p => p
    | None => main to
    end
  else main to.

(** src/utils/distance.cpp:72-88: the shorter way, negative when it leads backwards. *)
Definition signed (f b : option Q) : option Q :=
  match f, b with
  | Some x, Some y => if Qltb y x then Some (- y) else Some x
  | Some x, None => Some x
  | None, Some y => Some (- y)
  | None, None => None
  end.

(** src/utils/distance.cpp:54-88 longitudinalDistance, include_adjacent_lanelet = false. *)
Definition longitudinal_distance (m : road) (svalue : id -> id * Q -> option Q) (rt : router)
    (from to : cpose) : option Q :=
  let t := target_pose rt from to in
  signed (forward_distance m svalue rt (main from) t)
         (forward_distance m svalue rt t (main from)).

Definition Qabs_ (x : Q) : Q := if Qle_bool 0 x then x else - x.

(** src/utils/distance.cpp:110-123: keep the distance of smallest absolute value. *)
Definition closer (best d : option Q) : option Q :=
  match d with
  | None => best
  | Some x =>
      match best with
      | None => Some x
      | Some y => if Qltb (Qabs_ x) (Qabs_ y) then Some x else Some y
      end
  end.

(** src/utils/distance.cpp:89-126 longitudinalDistance, include_adjacent_lanelet = true; the
    candidate poses (toLaneletPoses) are given.  (Making each of them canonical may throw; not
    modelled.) *)
Definition adjacent_distance (m : road) (svalue : id -> id * Q -> option Q) (rt : router)
    (froms tos : list cpose) : option Q :=
  fold_left closer
    (flat_map (fun f => map (fun t => longitudinal_distance m svalue rt f t) tos) froms) None.

(** common/math/geometry/src/bounding_box.cpp getDistancesFromCenterToEdge. *)
Record box := { front : Q; rear : Q; left_ : Q; right_ : Q }.

(** src/utils/distance.cpp:188-207 boundingBoxLaneLongitudinalDistance. *)
Definition box_distance (d : option Q) (from to : box) : option Q :=
  match d with
  | None => None
  | Some x =>
      Some (x + if Qltb 0 x then - Qabs_ (front from) - Qabs_ (rear to)
                else if Qltb x 0 then Qabs_ (rear from) + Qabs_ (front to)
                else 0)
  end.
