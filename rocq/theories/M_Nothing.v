(** Entities that do nothing but follow a trajectory given to them:
    simulation/do_nothing_plugin/src/plugin.cpp, [applyFollowTrajectoryAction] of
    openscenario_interpreter/simulator_core.hpp, and the trajectory that
    openscenario_interpreter/src/syntax/follow_trajectory_action.cpp asks for.
    Numbers are exact reals; [None] is a number that is not a number or is infinite. Left out is what
    becomes of the status when it is matched to the lanes (see M_Status.v). *)
From Coq Require Import Reals List String.
From Verif Require Import M_Ego M_Quaternion.
Import ListNotations.
Local Open Scope R_scope.

Definition Number : Set := option R.
Definition plus (a b : Number) : Number :=
  match a, b with Some a, Some b => Some (a + b) | _, _ => None end.
Definition minus (a b : Number) : Number :=
  match a, b with Some a, Some b => Some (a - b) | _, _ => None end.
Definition by_ (a b : Number) : Number :=
  match a, b with Some a, Some b => if Req_EM_T b 0 then None else Some (a / b) | _, _ => None end.
(** [<=]: false if one of them is not a number *)
Definition le (a b : Number) : bool :=
  match a, b with Some a, Some b => if Rle_dec a b then true else false | _, _ => false end.

(** traffic_simulator_msgs/msg/Vertex and PolylineTrajectory *)
Record Vertex : Set := vertex { v_time : Number; v_at : Vec; v_facing : Quat }.
Record Trajectory : Set := trajectory
  { base : Number; vertices : list Vertex; closed : bool; ignorable : bool; offset : R }.
(** of the status: the pose, the twist (linear.x, angular.x, angular.z), the acceleration (linear.x,
    angular.z) and the jerk *)
Record Status : Set := status
  { at_ : option Vec; facing : option Quat; speed : Number; rolling : Number; turning : Number;
    acceleration : Number; turning_acceleration : Number; jerk : Number }.

(** lines 31-62: [true] is that no error is thrown *)
Definition check (t : option Trajectory) : bool :=
  match t with
  | None => false
  | Some t =>
      if closed t then false
      else if negb (ignorable t) then false
      else if Rlt_dec epsilon (Rabs (offset t)) then false
      else Nat.ltb 1 (List.length (vertices t))
  end.

(** geometry/vector3: [hypot] of three coordinates, [+] and [*] *)
Definition distance (a b : Vec) : R :=
  let d := vec_sub b a in sqrt (vec_x d * vec_x d + vec_y d * vec_y d + vec_z d * vec_z d).
Definition scaled (v : Vec) (k : R) : Vec := vec (vec_x v * k) (vec_y v * k) (vec_z v * k).

(** lines 84-125 *)
Definition interpolate (s : Status) (ratio : Number) (v0 v1 : Vertex) : Status :=
  let duration := minus (v_time v1) (v_time v0) in
  let linear := by_ (Some (distance (v_at v1) (v_at v0))) duration in
  let acc := by_ (minus (speed s) linear) duration in
  let jerk_ := by_ (minus (acceleration s) acc) duration in
  let angular := by_ (Some (yaw_of (rotation_between (v_facing v0) (v_facing v1)))) duration in
  let angular_acc := by_ (minus (rolling s) angular) duration in
  status
    (match ratio with
     | Some r => Some (vec_add (scaled (v_at v0) (1 - r)) (scaled (v_at v1) r))
     | None => None end)
    (match ratio with Some r => Some (slerp (v_facing v0) (v_facing v1) r) | None => None end)
    linear (Some 0) angular acc angular_acc jerk_.

(** [std::adjacent_find] *)
Fixpoint adjacent {A : Type} (p : A -> A -> bool) (l : list A) : option (A * A) :=
  match l with
  | a :: (b :: _) as r => if p a b then Some (a, b) else adjacent p r
  | _ => None
  end.
(** the last two of a list ([std::prev]; two at least are there, see [check]) *)
Fixpoint last_two {A : Type} (l : list A) : option (A * A) :=
  match l with
  | [a; b] => Some (a, b)
  | _ :: r => last_two r
  | [] => None
  end.

(** lines 127-158; [now] is [current_time + step_time] *)
Definition interpolated (t : Trajectory) (s : Status) (now : R) : option Status :=
  match vertices t with
  | [] => None
  | first :: _ =>
      if le (Some now) (plus (base t) (v_time first)) then None
      else
        match last_two (vertices t) with
        | None => None
        | Some (u, v) =>
            if le (plus (base t) (v_time v)) (Some now) then Some (interpolate s (Some 1) u v)
            else
              match adjacent (fun a b => andb (le (plus (base t) (v_time a)) (Some now))
                                              (le (Some now) (plus (base t) (v_time b)))) (vertices t) with
              | Some (a, b) =>
                  Some (interpolate s (by_ (minus (minus (Some now) (base t)) (v_time a))
                                           (minus (v_time b) (v_time a))) a b)
              | None => None
              end
        end
  end.

(** [setRequest]: of the requests the only one that is heeded, and none *)
Inductive Request := FollowPolyline | Other.
(** The plugin; [behavior] is what [getCurrentAction] answers. *)
Record Plugin : Set := plugin
  { request : Request; path : option Trajectory; behavior : string; own : Status }.

(** lines 207-218; the jerk is not reset *)
Definition stand (s : Status) : Status :=
  status (at_ s) (facing s) (Some 0) (Some 0) (Some 0) (Some 0) (Some 0) (jerk s).

(** lines 173-223 and, for the time of the last vertex, 64-70; [None] is that an error is thrown *)
Definition update (now : R) (p : Plugin) : option Plugin :=
  match request p with
  | FollowPolyline =>
      if check (path p) then
        match path p with
        | Some t =>
            let s := match interpolated t (own p) now with Some s => s | None => own p end in
            let over :=
              match last_two (vertices t) with
              | Some (_, v) => le (plus (base t) (v_time v)) (Some now)
              | None => false
              end in
            Some (if over then plugin Other (path p) "do_nothing" s
                  else plugin FollowPolyline (path p) "follow_polyline_trajectory" s)
        | None => None
        end
      else None
  | Other => Some (plugin Other (path p) "do_nothing" (stand (own p)))
  end.

(** vehicle_entity.cpp:237-239 and pedestrian_entity.cpp: the trajectory is handed to the plugin *)
Definition follow (t : Trajectory) (p : Plugin) : Plugin :=
  plugin FollowPolyline (Some t) (behavior p) (own p).

(** follow_trajectory_action.cpp:105-115 and simulator_core.hpp:496-505: the action of the scenario.
    [absolute] is that the times are those of the scenario's clock, [now] is that clock, [here] and
    [to] are the pose of the entity. *)
Definition requested (absolute : bool) (now : R) (position_mode closed_ : bool) (offset_ : R)
  (here : Vec) (to : Quat) (l : list Vertex) : Trajectory :=
  trajectory (if absolute then None else Some now) (vertex None here to :: l) closed_ position_mode offset_.
