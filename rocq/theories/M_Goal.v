(** * Model of the next goals and the speeds of pedestrians of the context gamma planner.

    Paths are below /repo/simulation/context_gamma_planner/: "lane" is
    src/planner/pedestrian/follow_lane_planner.cpp, "polyline" is
    src/planner/follow_polyline_trajectory_planner_base.cpp, "lane action" and "polyline action" are
    src/behavior/pedestrian/follow_lane_action.cpp and follow_polyline_trajectory_action.cpp, "plugin" is
    src/pedestrian_plugin.cpp. Simplifications: points are elements of a type, and the entity sees them through
    their distance to it and whether they are ahead of it; numbers are rationals, [None] is NaN. *)
From Coq Require Import List Bool Arith ZArith QArith.
Import ListNotations.
Local Open Scope Q_scope.

Section Goals.
  Variable point : Type.
  (** math::geometry::getRelativePose(...).position.x >= 0 and std::hypot(...) for the present pose. *)
  Record view := View { ahead : point -> bool; distance : point -> Q }.

  Definition at_least (a b : Q) : bool := Qle_bool b a.

  (** ** Following lanes. *)
  (** lane:48-59. *)
  Fixpoint skip_far (threshold : Q) (v : view) (goals : list point) : list point :=
    match goals with
    | [] => []
    | g :: rest => if at_least (distance v g) threshold then skip_far threshold v rest else g :: rest
    end.
  (** lane:64-76. *)
  Fixpoint drop_reached (threshold : Q) (v : view) (g : point) (rest : list point) : list point :=
    match rest with
    | [] => [g]
    | h :: rest' => if negb (at_least (distance v g) threshold) then drop_reached threshold v h rest' else g :: rest
    end.
  (** The outcomes of a tick of a node of the tree; [Error] is an exception. *)
  Inductive status := Success | Failure | Running.
  Inductive result (A : Type) := Error | Value (a : A).
  Arguments Error {A}. Arguments Value {A}.
  (** lane:39-77: the remaining goals; the next goal is the first of them. *)
  Definition next_on_lane (threshold : Q) (v : view) (goals : list point) : result (list point) :=
    match goals with
    | [] => Error
    | _ =>
        match skip_far threshold v goals with
        | [] => Value []
        | g :: rest => Value (drop_reached threshold v g rest)
        end
    end.
  Inductive request := NoRequest | FollowLane | FollowPolyline | OtherRequest.
  (** lane action:27-57: the status, the next goal, if any, and the speed to plan with; the centre points of the
      route are the goals. When the action fails, nothing is set. *)
  Definition lane_tick (threshold : Q) (v : view) (r : request) (target : option Q) (centre_points : list point) :
    result (status * option (option point * option Q)) :=
    match r with
    | NoRequest | FollowLane =>
        match next_on_lane threshold v centre_points with
        | Error => Error
        | Value [] => Value (Success, Some (None, Some 0))
        | Value (g :: _) => Value (Running, Some (Some g, target))
        end
    | _ => Value (Failure, None)
    end.
  (** plugin:136: the speed without one is zero. *)
  Definition planning_speed (s : option Q) : Q := match s with Some s => s | None => 0 end.

  (** ** Following trajectories. *)
  (** Times may be NaN: without a time (openscenario_interpreter's vertex.cpp:26) and, as the time of the start,
      with an absolute time reference (its follow_trajectory_action.cpp:110-113). *)
  Record trajectory :=
    { vertices : list (point * option Q);
      base_time : option Q;
      closed : bool;
      (** dynamic_constraints_ignorable, and the points of the spline otherwise. *)
      exact : bool;
      samples : list point }.
  (** polyline:28-49, setWaypoints. *)
  Definition waypoints (t : trajectory) : list point := if exact t then map fst (vertices t) else samples t.
  Definition reached (threshold : Q) (v : view) (g : point) : bool :=
    ahead v g && Qle_bool (distance v g) threshold.
  (** polyline:79-93, with the number of iterations; [None] if it is still in the loop after them. *)
  Fixpoint advance (fuel : nat) (threshold : Q) (v : view) (closed : bool) (goals : list point) :
    option (list point) :=
    match goals with
    | [] => Some []
    | g :: rest =>
        if reached threshold v g then
          match fuel with
          | O => None
          | S fuel => advance fuel threshold v closed (if closed then rest ++ [g] else rest)
          end
        else Some goals
    end.
  (** polyline:51-61, getCurrentTrajectoryWaypointIndex. *)
  Fixpoint first_ahead (v : view) (vs : list (point * option Q)) (i : nat) : option nat :=
    match vs with
    | [] => None
    | p :: vs => if ahead v (fst p) then Some i else first_ahead v vs (S i)
    end.
  Definition current_index (v : view) (t : trajectory) : nat :=
    match first_ahead v (vertices t) 0 with Some i => i | None => (length (vertices t) - 1)%nat end.
  (** std::fmod. *)
  Definition fmod (a b : option Q) : option Q :=
    match a, b with
    | Some a, Some b => if Qeq_bool b 0 then None else Some (a - b * inject_Z (Z.quot (Qnum (a / b)) (Zpos (Qden (a / b)))))
    | _, _ => None
    end.
  Definition lift (f : Q -> Q -> Q) (a b : option Q) : option Q :=
    match a, b with Some a, Some b => Some (f a b) | _, _ => None end.
  (** polyline:96-114, getTargetSpeed. *)
  Definition target_speed (v : view) (t : trajectory) (goals : list point) (maximum now : Q) : result (option Q) :=
    match base_time t with
    | Some b => if negb (Qle_bool b now) then Value (Some 0) else
        match goals with
        | [] => Error
        | g :: _ =>
            let goal_time := lift Qplus (Some b) (snd (nth (current_index v t) (vertices t) (g, None))) in
            match fmod goal_time (snd (last (vertices t) (g, None))) with
            | None => Value None
            | Some gt => if Qle_bool gt now then Value (Some maximum) else Value (Some (distance v g / (gt - now)))
            end
        end
    | None => match goals with [] => Error | g :: _ => Value None end
    end.

  (** The node that follows trajectories: its planner and what it read last. *)
  Record node := { goals : list point; planned : option trajectory; given : option trajectory; maximum : Q }.
  Definition initial : node := {| goals := []; planned := None; given := None; maximum := 0 |}.
  (** What a tick returns: an exception; a loop without an end, or one that needs more than [fuel] iterations; or
      a status, the next goal and the speed. *)
  Inductive tick_result :=
  | Thrown
  | Looping
  | Ticked (n : node) (s : status) (out : option (point * option Q)).
  (** polyline action:36-69. *)
  Definition polyline_tick (fuel : nat) (threshold : Q) (v : view) (r : request) (wanted : trajectory)
      (target : option Q) (now : Q) (n : node) : tick_result :=
    let n := match r with
             | FollowPolyline => {| goals := goals n; planned := planned n; given := Some wanted; maximum := maximum n |}
             | _ => n
             end in
    match r with
    | NoRequest | FollowPolyline =>
        match given n with
        | None => Thrown
        | Some t =>
            match vertices t with
            | [] => Thrown
            | _ =>
                let n := match target with
                         | Some s => {| goals := goals n; planned := planned n; given := given n; maximum := s |}
                         | None => n
                         end in
                let n := match goals n with
                         | [] => {| goals := waypoints t; planned := Some t; given := given n; maximum := maximum n |}
                         | _ => n
                         end in
                match goals n, planned n with
                | [], _ | _, None => Thrown
                | gs, Some p =>
                    match advance fuel threshold v (closed p) gs with
                    | None => Looping
                    | Some gs' =>
                        let n := {| goals := gs'; planned := planned n; given := given n; maximum := maximum n |} in
                        match gs' with
                        | [] => Ticked n Failure None
                        | g :: _ =>
                            match target_speed v p gs' (maximum n) now with
                            | Error => Thrown
                            | Value s =>
                                Ticked n (match goals n with [] => Success | _ => Running end) (Some (g, s))
                            end
                        end
                    end
                end
            end
        end
    | _ => Ticked {| goals := []; planned := planned n; given := given n; maximum := maximum n |} Failure None
    end.

  (** config/pedestrian_behavior.xml:1-8: a fallback of both actions; the second is ticked only if the first fails.
      src/transition_events/reset_request_event.cpp:29-39: once the action of the request has ended, nothing is
      requested. *)
  Definition tree_tick (fuel : nat) (threshold : Q) (v : view) (r : request) (centre_points : list point)
      (wanted : trajectory) (target : option Q) (now : Q) (n : node) : option (request * tick_result) :=
    match lane_tick threshold v r target centre_points with
    | Error => None
    | Value (Failure, _) =>
        let t := polyline_tick fuel threshold v r wanted target now n in
        match t, r with
        | Ticked _ Running _, _ => Some (r, t)
        | Ticked _ _ _, FollowPolyline => Some (NoRequest, t)
        | _, _ => Some (r, t)
        end
    | Value (s, out) =>
        Some (match s, r with Success, FollowLane => NoRequest | _, _ => r end,
              Ticked n s (match out with Some (Some g, speed) => Some (g, speed) | _ => None end))
    end.
End Goals.
Arguments Error {A}. Arguments Value {A}.
