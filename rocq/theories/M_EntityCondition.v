(** * Model of the conditions on entities.

    Files (under openscenario/openscenario_interpreter): src/syntax/speed_condition.cpp,
    relative_speed_condition.cpp, acceleration_condition.cpp, stand_still_condition.cpp,
    distance_condition.cpp, relative_distance_condition.cpp, reach_position_condition.cpp,
    time_headway_condition.cpp, collision_condition.cpp, relative_clearance_condition.cpp,
    relative_lane_range.cpp; include/openscenario_interpreter/syntax/time_to_collision_condition.hpp
    and simulator_core.hpp (CoordinateSystemConversion 72-291, ConditionEvaluation 547-646,
    evaluateRelativeHeading 692-702); simulation/traffic_simulator/src/api/api.cpp (checkCollision).

    Simplifications: finite doubles are exact rationals, so there is no rounding and no negative
    zero; orientations are given by the axes of the entity; Euclidean length, distances between
    bounding boxes and lane coordinates are functions of the simulator (a [core]), NaN being None. *)
From Coq Require Import ZArith QArith Qabs List Bool Arith.
From Verif Require Import M_Condition M_Entities.
Import ListNotations.
Local Open Scope Q_scope.

Record vec := V { vx : Q; vy : Q; vz : Q }.
Definition dot (a b : vec) : Q := vx a * vx b + vy a * vy b + vz a * vz b.
Definition sub (a b : vec) : vec := V (vx a - vx b) (vy a - vy b) (vz a - vz b).
Definition scale (k : Q) (a : vec) : vec := V (k * vx a) (k * vy a) (k * vz a).

(** include/syntax/routing_algorithm.hpp, relative_distance_type.hpp, coordinate_system.hpp,
    directional_dimension.hpp. *)
Inductive routing := AssignedRoute | Fastest | LeastIntersections | Shortest | Undefined.
Inductive dtype := Longitudinal | Lateral | Euclidean.
Inductive coordinate := EntityFrame | Lane | Road | Trajectory.
Inductive dimension := DLongitudinal | DLateral | DVertical.

(** A lane coordinate difference: s and offset. *)
Record lanepose := L { l_s : Q; l_offset : Q }.

(** What the simulator answers about its entities. *)
Record core := {
  here : name -> bool;                            (** is it spawned *)
  place : name -> vec;                            (** getMapPose().position *)
  axis_x : name -> vec;                           (** the axes of getMapPose().orientation *)
  axis_y : name -> vec;
  axis_z : name -> vec;
  twist : name -> vec;                            (** getCurrentTwist().linear *)
  accel : name -> Q;                              (** getCurrentAccel().linear.x *)
  still : name -> Q;                              (** getStandStillDuration() *)
  length : vec -> Q;                              (** hypot, Eigen's norm *)
  boxes : name -> name -> option vec;             (** boundingBoxRelativePose *)
  lanes : bool -> routing -> name -> name -> option lanepose;
                                                  (** relative (bounding box) lane position *)
  lane_count : name -> name -> option Z;          (** countLaneChanges: left minus right *)
  lane_heading : name -> option Q;                (** rpy.z of the lane pose *)
  overlap : name -> name -> bool                  (** checkCollision2D *)
}.

Definition of_option (o : option Q) : num := match o with Some q => Fin q | None => NaN end.

(** Division of doubles; zero is positive. *)
Definition div_num (a b : num) : num :=
  match a, b with
  | NaN, _ | _, NaN => NaN
  | Fin x, Fin y =>
      if Qeq_bool y 0 then
        if Qeq_bool x 0 then NaN else if Qle_bool 0 x then PInf else NInf
      else Fin (x / y)
  | Fin _, PInf | Fin _, NInf => Fin 0
  | PInf, Fin y => if Qle_bool 0 y then PInf else NInf
  | NInf, Fin y => if Qle_bool 0 y then NInf else PInf
  | _, _ => NaN
  end.

(** std::max(a, 0.0), that is, (a < 0.0) ? 0.0 : a. *)
Definition max_zero (a : num) : num := if lt_num a (Fin 0) then Fin 0 else a.

Definition abs_num (a : num) : num :=
  match a with Fin x => Fin (Qabs x) | PInf | NInf => PInf | NaN => NaN end.

(** core->getEntity(n): an absent entity is an error (entity_manager.cpp:301-308). *)
Definition get {A} (c : core) (n : name) (a : A) : res A := if here c n then Ok a else Throw.

(** ** Speed, acceleration, standstill *)

(** src/syntax/speed_condition.cpp:49-57 with simulator_core.hpp:610-622. The triggering entity is
    one object here, and [added n] its is_added. *)
Definition speed_vector (added : name -> bool) (c : core) (n : name) : res (option vec) :=
  if added n then get c n (Some (twist c n)) else Ok None.

Definition component (d : dimension) (v : vec) : Q :=
  match d with DLongitudinal => vx v | DLateral => vy v | DVertical => vz v end.

(** src/syntax/speed_condition.cpp:59-83; [standard] is Compatibility::standard. *)
Definition speed_of (standard : bool) (added : name -> bool) (c : core) (d : option dimension)
  (n : name) : res num :=
  bind (speed_vector added c n) (fun v =>
    Ok match v with
       | None => NaN
       | Some v =>
           match d with
           | Some d => Fin (component d v)
           | None => Fin (if standard then length c v else vx v)
           end
       end).

(** src/syntax/acceleration_condition.cpp:45-54 with simulator_core.hpp:550-553. *)
Definition acceleration_of (c : core) (n : name) : res num := get c n (Fin (accel c n)).

(** src/syntax/stand_still_condition.cpp:45-54 with simulator_core.hpp:624-627. *)
Definition still_of (c : core) (n : name) : res num := get c n (Fin (still c n)).

(** ** Relative speed *)

(** simulator_core.hpp:582-587: velocity in the map frame. *)
Definition velocity (c : core) (n : name) : vec := scale (vx (twist c n)) (axis_x c n).

(** simulator_core.hpp:589-593: [rotation.transpose() * v]. *)
Definition rotate (c : core) (observer : name) (v : vec) : vec :=
  V (dot (axis_x c observer) v) (dot (axis_y c observer) v) (dot (axis_z c observer) v).

(** simulator_core.hpp:578-598 (evaluateRelativeSpeed). *)
Definition relative_velocity (c : core) (observer observed : name) : option vec :=
  if here c observer && here c observed
  then Some (sub (rotate c observer (velocity c observed)) (rotate c observer (velocity c observer)))
  else None.

(** src/syntax/relative_speed_condition.cpp:59-96. The reference was checked to be no selection
    (35-37). *)
Definition relative_speed_of (added : name -> bool) (c : core) (reference : name)
  (d : option dimension) (n : name) : res num :=
  Ok (if added n && added reference then
        match relative_velocity c reference n with
        | None => NaN
        | Some v => Fin (match d with Some d => component d v | None => length c v end)
        end
      else NaN).

(** ** Distances *)

(** simulator_core.hpp:109-121 (relativePose: position of one entity in the frame of another). *)
Definition world (c : core) (from to : name) : option vec :=
  if here c from && here c to then Some (rotate c from (sub (place c to) (place c from))) else None.

(** simulator_core.hpp:237-251. *)
Definition box (c : core) (from to : name) : option vec :=
  if here c from && here c to then boxes c from to else None.

(** simulator_core.hpp:149-161, 189-205. *)
Definition lane (c : core) (free : bool) (r : routing) (from to : name) : option lanepose :=
  if here c from && here c to then lanes c free r from to else None.

Definition abs_option (o : option Q) : option Q := option_map Qabs o.

(** src/syntax/relative_distance_condition.cpp:66-274, and the primary template
    (relative_distance_condition.hpp:99-105) for everything else. *)
Definition relative_distance (c : core) (k : coordinate) (d : dtype) (r : routing) (free : bool)
  (from to : name) : res num :=
  match k, r with
  | EntityFrame, Undefined =>
      let v := if free then box c from to else world c from to in
      Ok (of_option (match d with
                     | Longitudinal => abs_option (option_map vx v)
                     | Lateral => abs_option (option_map vy v)
                     | Euclidean => option_map (length c) v
                     end))
  | Lane, Undefined =>
      match d with
      | Longitudinal => Ok (of_option (option_map l_s (lane c free r from to)))
      | Lateral => Ok (of_option (option_map l_offset (lane c free r from to)))
      | Euclidean => Throw
      end
  | Lane, Shortest =>
      match d with
      | Longitudinal => Ok (of_option (abs_option (option_map l_s (lane c free r from to))))
      | Lateral => Ok (of_option (abs_option (option_map l_offset (lane c free r from to))))
      | Euclidean => Throw
      end
  | _, _ => Throw
  end.

(** src/syntax/relative_distance_condition.cpp:346-358. *)
Definition relative_distance_of (t : table) (added : name -> bool) (c : core) (k : coordinate)
  (d : dtype) (r : routing) (free : bool) (reference : object) (n : name) : res num :=
  if added n && is_added t added reference
  then bind (as_ref reference) (fun m => relative_distance c k d r free n m)
  else Ok NaN.

(** A position as the conditions use it: its place on the map, and what the simulator answers for
    bounding boxes and lanes (None is NaN; the conversion to a lane may also throw). *)
Record position := {
  p_place : vec;
  p_box : name -> option vec;
  p_lane : bool -> routing -> name -> res (option lanepose)
}.

(** simulator_core.hpp:123-134 and 253-265. *)
Definition world_pos (c : core) (from : name) (p : position) : option vec :=
  if here c from then Some (rotate c from (sub (p_place p) (place c from))) else None.
Definition box_pos (c : core) (from : name) (p : position) : option vec :=
  if here c from then p_box p from else None.

(** simulator_core.hpp:163-175 and 207-219; the position is converted before the entity is looked
    up. *)
Definition lane_pos (c : core) (free : bool) (r : routing) (from : name) (p : position)
  : res (option lanepose) :=
  bind (p_lane p free r from) (fun l => Ok (if here c from then l else None)).

(** src/syntax/distance_condition.cpp:144-610: unlike relative distances, the entity frame
    coordinates keep their sign. *)
Definition distance (c : core) (k : coordinate) (d : dtype) (r : routing) (free : bool)
  (from : name) (p : position) : res num :=
  match k, r with
  | EntityFrame, Undefined =>
      let v := if free then box_pos c from p else world_pos c from p in
      Ok (of_option (match d with
                     | Longitudinal => option_map vx v
                     | Lateral => option_map vy v
                     | Euclidean => option_map (length c) v
                     end))
  | Lane, Undefined =>
      match d with
      | Longitudinal => bind (lane_pos c free r from p) (fun l => Ok (of_option (option_map l_s l)))
      | Lateral => bind (lane_pos c free r from p) (fun l => Ok (of_option (option_map l_offset l)))
      | Euclidean => Throw
      end
  | Lane, Shortest =>
      match d with
      | Longitudinal =>
          bind (lane_pos c free r from p) (fun l => Ok (of_option (abs_option (option_map l_s l))))
      | Lateral =>
          bind (lane_pos c free r from p) (fun l => Ok (of_option (abs_option (option_map l_offset l))))
      | Euclidean => Throw
      end
  | _, _ => Throw
  end.

(** src/syntax/distance_condition.cpp:131-142. *)
Definition distance_of (added : name -> bool) (c : core) (k : coordinate) (d : dtype) (r : routing)
  (free : bool) (p : position) (n : name) : res num :=
  if added n then distance c k d r free n p else Ok NaN.

(** src/syntax/reach_position_condition.cpp:51-83: the comparison is lessThan, and is_added is not
    consulted. *)
Definition reach_of (c : core) (p : position) (n : name) : res num :=
  Ok (of_option (option_map (length c) (world_pos c n p))).

(** ** Times *)

Definition dimension_of (d : dtype) : option dimension :=
  match d with
  | Longitudinal => Some DLongitudinal
  | Lateral => Some DLateral
  | Euclidean => None
  end.

Inductive target := ToEntity (o : object) | ToPosition (p : position).

(** relative_speed_condition.cpp:79-96 as called by TimeToCollisionCondition, where the reference
    may be a selection: evaluateRelativeSpeed looks its name up among the simulator's entities. *)
Definition relative_speed_to (t : table) (added : name -> bool) (c : core) (reference : object)
  (d : option dimension) (n : name) : num :=
  if added n && is_added t added reference then
    match relative_velocity c (name_of reference) n with
    | None => NaN
    | Some v => Fin (match d with Some d => component d v | None => length c v end)
    end
  else NaN.

(** include/syntax/time_to_collision_condition.hpp:126-167. *)
Definition time_to_collision (t : table) (added : name -> bool) (c : core) (k : coordinate)
  (d : dtype) (r : routing) (free : bool) (tg : target) (n : name) : res num :=
  match tg with
  | ToEntity o =>
      bind (relative_distance_of t added c k d r free o n) (fun dist =>
        Ok (div_num dist (max_zero (relative_speed_to t added c o (dimension_of d) n))))
  | ToPosition p =>
      bind (distance_of added c k d r free p n) (fun dist =>
        bind (speed_of true added c (dimension_of d) n) (fun v =>
          Ok (div_num dist (max_zero v))))
  end.

(** simulator_core.hpp:629-645: [from] is the reference and [to] the triggering entity. *)
Definition time_headway (c : core) (from to : name) : num :=
  match world c from to with
  | Some v =>
      if Qle_bool (vx v) 0 then
        let h := div_num (Fin (vx v * -1)) (Fin (vx (twist c to))) in
        if is_nan h then PInf else h
      else NaN
  | None => NaN
  end.

(** src/syntax/time_headway_condition.cpp:49-58: freespace and alongRoute are read but not used. *)
Definition headway_of (c : core) (reference : object) (n : name) : res num :=
  bind (as_ref reference) (fun m => Ok (time_headway c m n)).

(** ** Conditions *)

(** speed_condition.cpp:85-95, relative_speed_condition.cpp:98-108, acceleration_condition.cpp:45-54,
    stand_still_condition.cpp:26,45-54, distance_condition.cpp:612-624,
    relative_distance_condition.cpp:360-372, reach_position_condition.cpp:32,51-83,
    time_to_collision_condition.hpp:169-181, time_headway_condition.cpp:49-58. *)
Inductive condition :=
| Speed (standard : bool) (r : rule) (value : num) (d : option dimension)
| RelativeSpeed (r : rule) (value : num) (reference : name) (d : option dimension)
| Acceleration (r : rule) (value : num)
| StandStill (duration : num)
| Distance (r : rule) (value : num) (k : coordinate) (d : dtype) (ra : routing) (free : bool)
    (p : position)
| RelativeDistance (r : rule) (value : num) (k : coordinate) (d : dtype) (ra : routing)
    (free : bool) (reference : object)
| ReachPosition (tolerance : num) (p : position)
| TimeToCollision (r : rule) (value : num) (k : coordinate) (d : dtype) (ra : routing)
    (free : bool) (tg : target)
| TimeHeadway (r : rule) (value : num) (reference : object).

Definition rule_of (x : condition) : rule :=
  match x with
  | Speed _ r _ _ | RelativeSpeed r _ _ _ | Acceleration r _ | Distance r _ _ _ _ _ _
  | RelativeDistance r _ _ _ _ _ _ | TimeToCollision r _ _ _ _ _ _ | TimeHeadway r _ _ => r
  | StandStill _ => GreaterThan
  | ReachPosition _ _ => LessThan
  end.

Definition threshold_of (x : condition) : num :=
  match x with
  | Speed _ _ v _ | RelativeSpeed _ v _ _ | Acceleration _ v | Distance _ v _ _ _ _ _
  | RelativeDistance _ v _ _ _ _ _ | TimeToCollision _ v _ _ _ _ _ | TimeHeadway _ v _ => v
  | StandStill d => d
  | ReachPosition x _ => x
  end.

Definition value_of (t : table) (added : name -> bool) (c : core) (x : condition) (n : name)
  : res num :=
  match x with
  | Speed standard _ _ d => speed_of standard added c d n
  | RelativeSpeed _ _ m d => relative_speed_of added c m d n
  | Acceleration _ _ => acceleration_of c n
  | StandStill _ => still_of c n
  | Distance _ _ k d ra free p => distance_of added c k d ra free p n
  | RelativeDistance _ _ k d ra free o => relative_distance_of t added c k d ra free o n
  | ReachPosition _ p => reach_of c p n
  | TimeToCollision _ _ k d ra free tg => time_to_collision t added c k d ra free tg n
  | TimeHeadway _ _ o => headway_of c o n
  end.

Definition evaluate (t : table) (added : name -> bool) (c : core) (te : te_rule)
  (entities : list object) (x : condition) : res bool :=
  value_condition t te (rule_of x) (threshold_of x) (value_of t added c x) entities.

(** ** Collision *)

(** src/api/api.cpp:345-359. *)
Definition check_collision (c : core) (a b : name) : bool :=
  negb (a =? b)%nat && here c a && here c b && overlap c a b.

(** src/syntax/collision_condition.cpp:57-82. *)
Inductive other := OtherEntity (o : object) | OtherType (ty : object_type).

Definition collision (t : table) (added : name -> bool) (c : core) (te : te_rule)
  (entities : list object) (x : other) : res bool :=
  match x with
  | OtherEntity o =>
      if is_added t added o
      then bool_condition t te
             (fun n => bind (as_ref o) (fun m => Ok (check_collision c n m))) entities
      else Ok false
  | OtherType ty =>
      bool_condition t te
        (fun n => Ok (existsb (check_collision c n) (of_types (fun ty' => type_eqb ty' ty) t)))
        entities
  end.

(** ** Relative clearance *)

(** boost::math::constants::half_pi<double>(). *)
Definition half_pi : Q := 884279719003555 # 562949953421312.

(** src/syntax/relative_lane_range.cpp:28-31. *)
Record range := { from : option Z; to : option Z }.
Definition in_range (r : range) (z : Z) : bool :=
  match from r with Some a => (a <=? z)%Z | None => true end &&
  match to r with Some b => (z <=? b)%Z | None => true end.

Record clearance := {
  backward : num;
  forward : num;
  free_space : bool;
  ranges : list range;
  targets : list object
}.

(** src/syntax/relative_clearance_condition.cpp:87-89 with simulator_core.hpp:692-702. *)
Definition is_back (c : core) (n : name) : bool :=
  if here c n then
    match lane_heading c n with Some h => negb (Qle_bool (Qabs h) half_pi) | None => false end
  else false.

(** 90-111 with simulator_core.hpp:267-290. *)
Definition in_lateral (c : core) (q : clearance) (n m : name) : bool :=
  match ranges q with
  | [] => true
  | rs =>
      if here c n && here c m then
        match lane_count c n m with
        | None => false
        | Some z => existsb (fun r => in_range r (if is_back c n then - z else z)%Z) rs
        end
      else false
  end.

Definition le_num (a b : num) : bool := lt_num a b || eq_num a b.

(** 113-136. *)
Definition in_longitudinal (c : core) (q : clearance) (n m : name) : bool :=
  let s := option_map l_s (lane c (free_space q) Shortest n m) in
  let s := of_option (if is_back c n then option_map Qopp s else s) in
  if lt_num s (Fin 0) then le_num (abs_num s) (backward q) else le_num s (forward q).

(** 138-140 (is_relative_clearance_exist). *)
Definition clear (c : core) (q : clearance) (n m : name) : bool :=
  negb (in_lateral c q n m && in_longitudinal c q n m).

(** 179-191: the callback returns true whatever it finds, so std::any_of and std::none_of stop at
    the first triggering entity. *)
Definition excluded (te : te_rule) (entities : list object) (n : name) : bool :=
  let hit o := (name_of o =? n)%nat in
  match te with
  | All => existsb hit entities
  | Any | NoneOf => match entities with o :: _ => hit o | [] => false end
  end.

(** 143-203. The assertion that a triggering entity is a scenario object (144) is the conversion
    that throws; with assertions disabled the first use of the name throws (87). [opposite_lanes]
    is read but not used. *)
Definition clear_of (t : table) (added : name -> bool) (c : core) (te : te_rule)
  (entities : list object) (q : clearance) (o : object) : res bool :=
  bind (as_ref o) (fun n =>
    match targets q with
    | [] =>
        Ok (forallb (fun '(m, o') =>
              match o' with
              | Sel _ _ _ => true
              | Obj _ _ =>
                  if added m then excluded te entities m || clear c q n m else true
              end) t)
    | os => all_res (fun o' => bind (as_ref o') (fun m => Ok (clear c q n m))) os
    end).

Definition relative_clearance (t : table) (added : name -> bool) (c : core) (te : te_rule)
  (entities : list object) (q : clearance) : res bool :=
  te_res te (clear_of t added c te entities q) entities.
