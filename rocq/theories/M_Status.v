(** * Model of the status of an entity, of teleporting and of adding entities.

    "status" is /repo/simulation/traffic_simulator/src/data_type/entity_status.cpp, "base"
    src/entity/entity_base.cpp, "ego" src/entity/ego_entity.cpp and "ego.hpp" its header, "manager.hpp"
    include/traffic_simulator/entity/entity_manager.hpp, "pose" src/utils/pose.cpp there; "teleport",
    "add", "relative_world" and "relative_object" are the actions and positions of
    /repo/openscenario/openscenario_interpreter/src/syntax. Simplifications: numbers are real; an
    orientation is a rotation about the vertical, given by its cosine and sine; twist, acceleration and
    jerk are one number each; of a bounding box only an identity is kept. The map is a parameter: what
    a lanelet pose is in canonical form, where it is on the map, and which lanelet pose a pose matches. *)
From Coq Require Import String List Bool ZArith Reals.
Import ListNotations.
Local Open Scope R_scope.

Record turn := { t_cos : R; t_sin : R }.
Record pose := { p_x : R; p_y : R; p_z : R; p_turn : turn }.
Definition straight : turn := {| t_cos := 1; t_sin := 0 |}.
(** traffic_simulator_msgs/msg/LaneletPose.msg; [no_lane] is LaneletPose(). *)
Record lane_pose := { l_id : Z; l_s : R; l_offset : R; l_yaw : R }.
Definition no_lane : lane_pose := {| l_id := 0; l_s := 0; l_offset := 0; l_yaw := 0 |}.
Definition lane_pose_dec (a b : lane_pose) : {a = b} + {a <> b}.
Proof. decide equality; (apply Req_EM_T || apply Z.eq_dec). Defined.
(** ActionStatus.msg; [idle] is helper::constructActionStatus() with its defaults, helper.cpp:25-38. *)
Record action := { a_name : string; a_speed : R; a_acceleration : R; a_jerk : R }.
Definition idle : action := {| a_name := ""; a_speed := 0; a_acceleration := 0; a_jerk := 0 |}.
Inductive kind := Ego | Vehicle | Pedestrian | Misc.
Definition kind_dec (a b : kind) : {a = b} + {a <> b}.
Proof. decide equality. Defined.
(** EntityStatus.msg. *)
Record status := {
  s_kind : kind; s_subtype : Z; s_time : R; s_name : string; s_box : Z; s_action : action;
  s_pose : pose; s_lane : lane_pose; s_on_lane : bool }.
(** CanonicalizedEntityStatus: the members entity_status_ and canonicalized_lanelet_pose_. *)
Record entity := { e_status : status; e_lane : option lane_pose }.
(** A call ends, throws (and leaves the entity), or fails an assert. *)
Inductive outcome (A : Type) := Done (a : A) | Threw | Aborted.
Arguments Done {A}. Arguments Threw {A}. Arguments Aborted {A}.

Definition with_pose (p : pose) (s : status) : status :=
  {| s_kind := s_kind s; s_subtype := s_subtype s; s_time := s_time s; s_name := s_name s;
     s_box := s_box s; s_action := s_action s; s_pose := p; s_lane := s_lane s;
     s_on_lane := s_on_lane s |}.
Definition with_action (a : action) (s : status) : status :=
  {| s_kind := s_kind s; s_subtype := s_subtype s; s_time := s_time s; s_name := s_name s;
     s_box := s_box s; s_action := a; s_pose := s_pose s; s_lane := s_lane s;
     s_on_lane := s_on_lane s |}.
Definition with_lane (l : lane_pose) (b : bool) (s : status) : status :=
  {| s_kind := s_kind s; s_subtype := s_subtype s; s_time := s_time s; s_name := s_name s;
     s_box := s_box s; s_action := s_action s; s_pose := s_pose s; s_lane := l; s_on_lane := b |}.
Definition with_time (t : R) (s : status) : status :=
  {| s_kind := s_kind s; s_subtype := s_subtype s; s_time := t; s_name := s_name s;
     s_box := s_box s; s_action := s_action s; s_pose := s_pose s; s_lane := s_lane s;
     s_on_lane := s_on_lane s |}.

(** pose:169-179, transformRelativePoseToGlobal, in the plane. *)
Definition turned (a b : turn) : turn :=
  {| t_cos := t_cos a * t_cos b - t_sin a * t_sin b;
     t_sin := t_sin a * t_cos b + t_cos a * t_sin b |}.
Definition to_global (g r : pose) : pose :=
  {| p_x := p_x g + (t_cos (p_turn g) * p_x r - t_sin (p_turn g) * p_y r);
     p_y := p_y g + (t_sin (p_turn g) * p_x r + t_cos (p_turn g) * p_y r);
     p_z := p_z g + p_z r; p_turn := turned (p_turn g) (p_turn r) |}.

Section Map.
  (** CanonicalizedLaneletPose(lanelet_pose), data_type/lanelet_pose.cpp:29-36: the canonical lanelet
      pose, None when the constructor throws; and its map pose. *)
  Variable canonicalize : lane_pose -> option lane_pose.
  Variable on_map : lane_pose -> pose.
  (** lanelet_wrapper::pose::toLaneletPose, with preferred lanelets and without. *)
  Variable match_among : pose -> list Z -> R -> option lane_pose.
  Variable match_any : pose -> Z -> bool -> R -> option lane_pose.

  (** pose:104-116. *)
  Definition of_lane (l : lane_pose) : option lane_pose :=
    if lane_pose_dec l no_lane then None else canonicalize l.
  (** pose:133-145. *)
  Definition of_map (p : pose) (box : Z) (crosswalk : bool) (d : R) : option lane_pose :=
    match match_any p box crosswalk d with Some l => of_lane l | None => None end.
  (** pose:147-167. *)
  Definition of_map_among (p : pose) (box : Z) (ids : list Z) (crosswalk : bool) (d : R)
    : option lane_pose :=
    match (match ids with [] => None | _ :: _ => match_among p ids d end) with
    | Some l => of_lane l
    | None => match match_any p box crosswalk d with Some l => of_lane l | None => None end
    end.

  (** status:22-47, the constructor. *)
  Definition make (s : status) (c : option lane_pose) : entity :=
    match c with
    | Some l =>
        {| e_status := with_pose {| p_x := p_x (s_pose s); p_y := p_y (s_pose s);
                                    p_z := p_z (on_map l); p_turn := p_turn (on_map l) |}
                         (with_lane l true s);
           e_lane := Some l |}
    | None => {| e_status := with_lane no_lane false s; e_lane := None |}
    end.
  (** status:55-63, set, with its asserts. *)
  Definition replace (e n : entity) : outcome entity :=
    if kind_dec (s_kind (e_status e)) (s_kind (e_status n)) then
      if Z.eq_dec (s_subtype (e_status e)) (s_subtype (e_status n)) then
        if string_dec (s_name (e_status e)) (s_name (e_status n)) then
          if Z.eq_dec (s_box (e_status e)) (s_box (e_status n)) then Done n
          else Aborted
        else Aborted
      else Aborted
    else Aborted.
  Definition crosswalks (k : kind) : bool :=
    match k with Pedestrian | Misc => true | Ego | Vehicle => false end.
  (** status:65-82. *)
  Definition set_among (e : entity) (s : status) (ids : list Z) (d : R) : outcome entity :=
    replace e
      (make s (if s_on_lane s then of_lane (s_lane s)
               else of_map_among (s_pose s) (s_box (e_status e)) ids
                      (crosswalks (s_kind (e_status e))) d)).
  (** status:142-145, getLaneletIds. *)
  Definition lane_ids (e : entity) : list Z :=
    match e_lane e with Some l => [l_id l] | None => [] end.

  (** The distance within which an entity matches a lane:
      getDefaultMatchingDistanceForLaneletPoseCalculation. *)
  Variable reach : entity -> R.
  (** base:581-584 and 586-589 with status:84-88. *)
  Definition set_status_among (e : entity) (s : status) (ids : list Z) : outcome entity :=
    set_among e s ids (reach e).
  Definition set_status (e : entity) (s : status) : outcome entity :=
    set_among e s (lane_ids e) (reach e).
  (** base:591-599. *)
  Definition set_map_pose (e : entity) (p : pose) (a : action) : outcome entity :=
    set_status e (with_action a (with_pose p (e_status e))).
  (** base:601-606 and 608-619. *)
  Definition set_relative (e : entity) (reference relative : pose) (a : action) : outcome entity :=
    set_map_pose e (to_global reference relative) a.
  (** base:621-631; the argument is in canonical form. *)
  Definition set_lane (e : entity) (l : lane_pose) (a : action) : outcome entity :=
    replace e (make (with_lane l true (with_pose (on_map l) (with_action a (e_status e)))) (Some l)).
  (** base:633-646. *)
  Definition set_lanelet_pose (e : entity) (l : lane_pose) (a : action) : outcome entity :=
    match of_lane l with Some c => set_lane e c a | None => Threw end.
  (** base:681-685 and, for the ego, ego:460-469; [ids] are the lanelets of the ego's route. *)
  Definition report_map_pose (e : entity) (p : pose) (ids : list Z) : outcome entity :=
    match s_kind (e_status e) with
    | Ego => set_among e (with_lane (s_lane (e_status e)) false (with_pose p (e_status e))) ids (reach e)
    | _ => Threw
    end.
  (** status:90-93, 153-156, 163-166, 168-171, 173-176, 183-186, 193: parts of the action status and
      the time are written in place (setAction, setTwist, setLinearVelocity, setAccel,
      setLinearAcceleration, setLinearJerk, setTime). *)
  Definition write_action (e : entity) (a : action) : entity :=
    {| e_status := with_action a (e_status e); e_lane := e_lane e |}.
  Definition write_time (e : entity) (t : R) : entity :=
    {| e_status := with_time t (e_status e); e_lane := e_lane e |}.

  (** ego.hpp:151-161: EgoEntity::setStatus is a template of the same name. It is called through a
      reference to an EgoEntity only; the functions of EntityBase above are not overridden by it. *)
  Definition ego_set_map_pose (e : entity) (controlled : bool) (p : pose) (a : action)
    : outcome entity :=
    if Rlt_dec 0 (s_time (e_status e)) then
      if controlled then set_map_pose e p a else Threw
    else set_map_pose e p a.

  (** The positions of a scenario. The pose of the entity referred to is given. *)
  Inductive position :=
  | World (p : pose)
  | RelativeWorld (reference : pose) (dx dy dz : R) (o : turn)
  | RelativeObject (reference : pose) (dx dy dz : R) (o : turn)
  | Lane (l : lane_pose).
  (** teleport:63-88 with simulator_core.hpp:519-537: through a reference to an EntityBase. A lane
      position is made canonical by the constructor, which throws when it cannot. *)
  Definition teleport (e : entity) (q : position) : outcome entity :=
    match q with
    | World p => set_map_pose e p idle
    | RelativeWorld r dx dy dz o | RelativeObject r dx dy dz o =>
        set_relative e r {| p_x := dx; p_y := dy; p_z := dz; p_turn := o |} idle
    | Lane l => match canonicalize l with Some c => set_lane e c idle | None => Threw end
    end.

  (** manager.hpp:125-181, makeEntityStatus; [d] is the distance computed at 154-166. *)
  Definition waiting : action :=
    {| a_name := "waiting for initialize"; a_speed := 0; a_acceleration := 0; a_jerk := 0 |}.
  Definition fresh (k : kind) (subtype : Z) (t : R) (n : string) (box : Z) (p : pose) : status :=
    {| s_kind := k; s_subtype := subtype; s_time := t; s_name := n; s_box := box;
       s_action := waiting; s_pose := p; s_lane := no_lane; s_on_lane := false |}.
  Definition spawned (s : status) (d : R) : entity :=
    make s (of_map (s_pose s) (s_box s) (crosswalks (s_kind s)) d).
  Definition spawned_on_lane (s : status) (l : lane_pose) : entity :=
    make (with_pose (on_map l) s) (Some l).
  (** relative_object:50-75: the point as seen from the entity, the orientation of the world. *)
  Definition object_point (r : pose) (dx dy dz : R) : pose :=
    let p := to_global r {| p_x := dx; p_y := dy; p_z := dz; p_turn := straight |} in
    {| p_x := p_x p; p_y := p_y p; p_z := p_z p; p_turn := straight |}.
  (** add:52-171: spawn where the position says, then teleport there. The conversion of a
      RelativeWorldPosition throws (relative_world:49-52). *)
  Definition add (k : kind) (subtype : Z) (t : R) (n : string) (box : Z) (d : R) (q : position)
    : outcome entity :=
    match q with
    | World p => teleport (spawned (fresh k subtype t n box p) d) q
    | RelativeWorld _ _ _ _ _ => Threw
    | RelativeObject r dx dy dz _ =>
        teleport (spawned (fresh k subtype t n box (object_point r dx dy dz)) d) q
    | Lane l =>
        match canonicalize l with
        | Some c => teleport (spawned_on_lane (fresh k subtype t n box (on_map c)) c) q
        | None => Threw
        end
    end.

  (** What can happen to an entity, in any order. *)
  Inductive call :=
  | SetStatus (s : status) | SetStatusAmong (s : status) (ids : list Z)
  | SetMapPose (p : pose) (a : action) | SetRelative (r p : pose) (a : action)
  | SetLane (l : lane_pose) (a : action) | SetLaneletPose (l : lane_pose) (a : action)
  | ReportMapPose (p : pose) (ids : list Z)
  | WriteAction (a : action) | WriteTime (t : R) | Teleport (q : position).
  Definition perform (e : entity) (c : call) : outcome entity :=
    match c with
    | SetStatus s => set_status e s
    | SetStatusAmong s ids => set_status_among e s ids
    | SetMapPose p a => set_map_pose e p a
    | SetRelative r p a => set_relative e r p a
    | SetLane l a => set_lane e l a
    | SetLaneletPose l a => set_lanelet_pose e l a
    | ReportMapPose p ids => report_map_pose e p ids
    | WriteAction a => Done (write_action e a)
    | WriteTime t => Done (write_time e t)
    | Teleport q => teleport e q
    end.
  Fixpoint history (e : entity) (cs : list call) : outcome entity :=
    match cs with
    | [] => Done e
    | c :: cs' =>
        match perform e c with
        | Done n => history n cs'
        | Threw => history e cs'
        | Aborted => Aborted
        end
    end.
End Map.
