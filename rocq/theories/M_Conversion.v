(** * Model of the conversions between ROS messages and Protobuf messages.

    Paths are relative to /repo/simulation/simulation_interface; the fields of the messages are those
    of its proto/ directory and of /repo/simulation/traffic_simulator_msgs/msg. Numbers are integers:
    a double is copied as it is, and so is a float; the widths of the integer fields agree on both
    sides here (ids of traffic lights, where they do not, are in M_Publish). An exception is
    [None]. *)
From Coq Require Import String List Bool ZArith.
Import ListNotations.
Local Open Scope Z_scope.

(** Point: the ROS message and the Protobuf message. *)
Record point := { pt_x : Z; pt_y : Z; pt_z : Z }.
Record point_wire := { wpt_x : Z; wpt_y : Z; wpt_z : Z }.
(** src/conversions.cpp:22-27, 29-34. *)
Definition point_to_wire (m : point) : point_wire := {| wpt_x := pt_x m; wpt_y := pt_y m;
  wpt_z := pt_z m |}.
Definition point_from_wire (w : point_wire) : point := {| pt_x := wpt_x w; pt_y := wpt_y w;
  pt_z := wpt_z w |}.

(** Quaternion: the ROS message and the Protobuf message. *)
Record quaternion := { qt_x : Z; qt_y : Z; qt_z : Z; qt_w : Z }.
Record quaternion_wire := { wqt_x : Z; wqt_y : Z; wqt_z : Z; wqt_w : Z }.
(** src/conversions.cpp:36-42, 44-50. *)
Definition quaternion_to_wire (m : quaternion) : quaternion_wire := {| wqt_x := qt_x m;
  wqt_y := qt_y m; wqt_z := qt_z m; wqt_w := qt_w m |}.
Definition quaternion_from_wire (w : quaternion_wire) : quaternion := {| qt_x := wqt_x w;
  qt_y := wqt_y w; qt_z := wqt_z w; qt_w := wqt_w w |}.

(** Pose: the ROS message and the Protobuf message. *)
Record pose := { po_position : point; po_orientation : quaternion }.
Record pose_wire := { wpo_position : point_wire; wpo_orientation : quaternion_wire }.
(** src/conversions.cpp:52-56, 58-62. *)
Definition pose_to_wire (m : pose) : pose_wire := {|
  wpo_position := point_to_wire (po_position m);
  wpo_orientation := quaternion_to_wire (po_orientation m) |}.
Definition pose_from_wire (w : pose_wire) : pose := {|
  po_position := point_from_wire (wpo_position w);
  po_orientation := quaternion_from_wire (wpo_orientation w) |}.

(** Vector3: the ROS message and the Protobuf message. *)
Record vector := { ve_x : Z; ve_y : Z; ve_z : Z }.
Record vector_wire := { wve_x : Z; wve_y : Z; wve_z : Z }.
(** src/conversions.cpp:64-69, 71-76. *)
Definition vector_to_wire (m : vector) : vector_wire := {| wve_x := ve_x m; wve_y := ve_y m;
  wve_z := ve_z m |}.
Definition vector_from_wire (w : vector_wire) : vector := {| ve_x := wve_x w; ve_y := wve_y w;
  ve_z := wve_z w |}.

(** Twist: the ROS message and the Protobuf message. *)
Record twist := { tw_linear : vector; tw_angular : vector }.
Record twist_wire := { wtw_linear : vector_wire; wtw_angular : vector_wire }.
(** src/conversions.cpp:78-82, 84-88. *)
Definition twist_to_wire (m : twist) : twist_wire := {|
  wtw_linear := vector_to_wire (tw_linear m); wtw_angular := vector_to_wire (tw_angular m) |}.
Definition twist_from_wire (w : twist_wire) : twist := {|
  tw_linear := vector_from_wire (wtw_linear w); tw_angular := vector_from_wire (wtw_angular w) |}.

(** Accel: the ROS message and the Protobuf message. *)
Record accel := { ac_linear : vector; ac_angular : vector }.
Record accel_wire := { wac_linear : vector_wire; wac_angular : vector_wire }.
(** src/conversions.cpp:90-94, 96-100. *)
Definition accel_to_wire (m : accel) : accel_wire := {|
  wac_linear := vector_to_wire (ac_linear m); wac_angular := vector_to_wire (ac_angular m) |}.
Definition accel_from_wire (w : accel_wire) : accel := {|
  ac_linear := vector_from_wire (wac_linear w); ac_angular := vector_from_wire (wac_angular w) |}.

(** BoundingBox: the ROS message and the Protobuf message. *)
Record box := { bb_center : point; bb_dimensions : vector }.
Record box_wire := { wbb_center : point_wire; wbb_dimensions : vector_wire }.
(** src/conversions.cpp:102-107, 109-114. *)
Definition box_to_wire (m : box) : box_wire := {| wbb_center := point_to_wire (bb_center m);
  wbb_dimensions := vector_to_wire (bb_dimensions m) |}.
Definition box_from_wire (w : box_wire) : box := {| bb_center := point_from_wire (wbb_center w);
  bb_dimensions := vector_from_wire (wbb_dimensions w) |}.

(** Performance: the ROS message and the Protobuf message. *)
Record performance := { pf_max_acceleration : Z; pf_max_acceleration_rate : Z;
  pf_max_deceleration : Z; pf_max_deceleration_rate : Z; pf_max_speed : Z }.
Record performance_wire := { wpf_max_acceleration : Z; wpf_max_acceleration_rate : Z;
  wpf_max_deceleration : Z; wpf_max_deceleration_rate : Z; wpf_max_speed : Z }.
(** src/conversions.cpp:116-125, 127-136. *)
Definition performance_to_wire (m : performance) : performance_wire := {|
  wpf_max_acceleration := pf_max_acceleration m;
  wpf_max_acceleration_rate := pf_max_acceleration_rate m;
  wpf_max_deceleration := pf_max_deceleration m;
  wpf_max_deceleration_rate := pf_max_deceleration_rate m; wpf_max_speed := pf_max_speed m |}.
Definition performance_from_wire (w : performance_wire) : performance := {|
  pf_max_acceleration := wpf_max_acceleration w;
  pf_max_acceleration_rate := wpf_max_acceleration_rate w;
  pf_max_deceleration := wpf_max_deceleration w;
  pf_max_deceleration_rate := wpf_max_deceleration_rate w; pf_max_speed := wpf_max_speed w |}.

(** Axle: the ROS message and the Protobuf message. *)
Record axle := { ax_position_x : Z; ax_position_z : Z; ax_track_width : Z; ax_wheel_diameter : Z;
  ax_max_steering : Z }.
Record axle_wire := { wax_position_x : Z; wax_position_z : Z; wax_track_width : Z;
  wax_wheel_diameter : Z; wax_max_steering : Z }.
(** src/conversions.cpp:138-145, 147-154. *)
Definition axle_to_wire (m : axle) : axle_wire := {| wax_position_x := ax_position_x m;
  wax_position_z := ax_position_z m; wax_track_width := ax_track_width m;
  wax_wheel_diameter := ax_wheel_diameter m; wax_max_steering := ax_max_steering m |}.
Definition axle_from_wire (w : axle_wire) : axle := {| ax_position_x := wax_position_x w;
  ax_position_z := wax_position_z w; ax_track_width := wax_track_width w;
  ax_wheel_diameter := wax_wheel_diameter w; ax_max_steering := wax_max_steering w |}.

(** Axles: the ROS message and the Protobuf message. *)
Record axles := { as_front_axle : axle; as_rear_axle : axle }.
Record axles_wire := { was_front_axle : axle_wire; was_rear_axle : axle_wire }.
(** src/conversions.cpp:156-161, 163-167. *)
Definition axles_to_wire (m : axles) : axles_wire := {|
  was_front_axle := axle_to_wire (as_front_axle m); was_rear_axle := axle_to_wire (as_rear_axle m)
  |}.
Definition axles_from_wire (w : axles_wire) : axles := {|
  as_front_axle := axle_from_wire (was_front_axle w);
  as_rear_axle := axle_from_wire (was_rear_axle w) |}.

(** ActionStatus: the ROS message and the Protobuf message. *)
Record action_status := { at_current_action : string; at_twist : twist; at_accel : accel;
  at_linear_jerk : Z }.
Record action_status_wire := { wat_current_action : string; wat_twist : twist_wire;
  wat_accel : accel_wire; wat_linear_jerk : Z }.
(** src/conversions.cpp:221-228, 230-237. *)
Definition action_status_to_wire (m : action_status) : action_status_wire := {|
  wat_current_action := at_current_action m; wat_twist := twist_to_wire (at_twist m);
  wat_accel := accel_to_wire (at_accel m); wat_linear_jerk := at_linear_jerk m |}.
Definition action_status_from_wire (w : action_status_wire) : action_status := {|
  at_current_action := wat_current_action w; at_twist := twist_from_wire (wat_twist w);
  at_accel := accel_from_wire (wat_accel w); at_linear_jerk := wat_linear_jerk w |}.

(** LaneletPose: the ROS message and the Protobuf message. *)
Record lanelet_pose := { lp_lanelet_id : Z; lp_s : Z; lp_offset : Z; lp_rpy : vector }.
Record lanelet_pose_wire := { wlp_lanelet_id : Z; wlp_s : Z; wlp_offset : Z; wlp_rpy : vector_wire
  }.
(** src/conversions.cpp:239-247, 249-257. *)
Definition lanelet_pose_to_wire (m : lanelet_pose) : lanelet_pose_wire := {|
  wlp_lanelet_id := lp_lanelet_id m; wlp_s := lp_s m; wlp_offset := lp_offset m;
  wlp_rpy := vector_to_wire (lp_rpy m) |}.
Definition lanelet_pose_from_wire (w : lanelet_pose_wire) : lanelet_pose := {|
  lp_lanelet_id := wlp_lanelet_id w; lp_s := wlp_s w; lp_offset := wlp_offset w;
  lp_rpy := vector_from_wire (wlp_rpy w) |}.

(** Time: the ROS message and the Protobuf message. *)
Record stamp := { st_sec : Z; st_nanosec : Z }.
Record stamp_wire := { wst_sec : Z; wst_nanosec : Z }.
(** src/conversions.cpp:458-462, 464-468. *)
Definition stamp_to_wire (m : stamp) : stamp_wire := {| wst_sec := st_sec m;
  wst_nanosec := st_nanosec m |}.
Definition stamp_from_wire (w : stamp_wire) : stamp := {| st_sec := wst_sec w;
  st_nanosec := wst_nanosec w |}.

(** Vertex: the ROS message and the Protobuf message. *)
Record vertex := { vx_time : Z; vx_position : pose }.
Record vertex_wire := { wvx_time : Z; wvx_position : pose_wire }.
(** src/conversions.cpp:601-608, 610-617. *)
Definition vertex_to_wire (m : vertex) : vertex_wire := {| wvx_time := vx_time m;
  wvx_position := pose_to_wire (vx_position m) |}.
Definition vertex_from_wire (w : vertex_wire) : vertex := {| vx_time := wvx_time w;
  vx_position := pose_from_wire (wvx_position w) |}.

(** Polyline: the ROS message and the Protobuf message. *)
Record polyline := { pl_vertices : list vertex }.
Record polyline_wire := { wpl_vertices : list vertex_wire }.
(** src/conversions.cpp:619-627, 629-637. *)
Definition polyline_to_wire (m : polyline) : polyline_wire := {|
  wpl_vertices := map vertex_to_wire (pl_vertices m) |}.
Definition polyline_from_wire (w : polyline_wire) : polyline := {|
  pl_vertices := map vertex_from_wire (wpl_vertices w) |}.

(** PolylineTrajectory: the ROS message and the Protobuf message. *)
Record trajectory := { tr_initial_distance_offset : Z; tr_dynamic_constraints_ignorable : bool;
  tr_base_time : Z; tr_closed : bool; tr_shape : polyline }.
Record trajectory_wire := { wtr_initial_distance_offset : Z;
  wtr_dynamic_constraints_ignorable : bool; wtr_base_time : Z; wtr_closed : bool;
  wtr_shape : polyline_wire }.
(** src/conversions.cpp:639-649, 651-661. *)
Definition trajectory_to_wire (m : trajectory) : trajectory_wire := {|
  wtr_initial_distance_offset := tr_initial_distance_offset m;
  wtr_dynamic_constraints_ignorable := tr_dynamic_constraints_ignorable m;
  wtr_base_time := tr_base_time m; wtr_closed := tr_closed m;
  wtr_shape := polyline_to_wire (tr_shape m) |}.
Definition trajectory_from_wire (w : trajectory_wire) : trajectory := {|
  tr_initial_distance_offset := wtr_initial_distance_offset w;
  tr_dynamic_constraints_ignorable := wtr_dynamic_constraints_ignorable w;
  tr_base_time := wtr_base_time w; tr_closed := wtr_closed w;
  tr_shape := polyline_from_wire (wtr_shape w) |}.

(** EntityType: ROS constants and Protobuf enumeration carry the same numbers.
    src/conversions.cpp:259-283, 285-308: other numbers are errors. *)
Definition type_to_wire (t : Z) : option Z :=
  match t with 0 => Some 0 | 1 => Some 1 | 2 => Some 2 | 3 => Some 3 | _ => None end.
Definition type_from_wire (t : Z) : option Z :=
  match t with 0 => Some 0 | 1 => Some 1 | 2 => Some 2 | 3 => Some 3 | _ => None end.
(** EntitySubtype, src/conversions.cpp:310-347, 349-385. *)
Definition subtype_to_wire (t : Z) : option Z :=
  match t with
  | 0 => Some 0 | 1 => Some 1 | 2 => Some 2 | 3 => Some 3 | 4 => Some 4 | 5 => Some 5 | 6 => Some 6
  | 7 => Some 7 | _ => None
  end.
Definition subtype_from_wire (t : Z) : option Z :=
  match t with
  | 0 => Some 0 | 1 => Some 1 | 2 => Some 2 | 3 => Some 3 | 4 => Some 4 | 5 => Some 5 | 6 => Some 6
  | 7 => Some 7 | _ => None
  end.

(** EntityStatus of traffic_simulator_msgs. *)
Record entity_status := {
  es_type : Z; es_subtype : Z; es_time : Z; es_name : string; es_bounding_box : box;
  es_action_status : action_status; es_pose : pose; es_lanelet_pose : lanelet_pose;
  es_lanelet_pose_valid : bool }.
Record entity_status_wire := {
  wes_type : Z; wes_subtype : Z; wes_time : Z; wes_name : string; wes_bounding_box : box_wire;
  wes_action_status : action_status_wire; wes_pose : pose_wire;
  wes_lanelet_pose : lanelet_pose_wire; wes_lanelet_pose_valid : bool }.
(** src/conversions.cpp:387-401. *)
Definition entity_status_to_wire (s : entity_status) : option entity_status_wire :=
  match type_to_wire (es_type s), subtype_to_wire (es_subtype s) with
  | Some t, Some u =>
      Some {| wes_type := t; wes_subtype := u; wes_time := es_time s; wes_name := es_name s;
              wes_bounding_box := box_to_wire (es_bounding_box s);
              wes_action_status := action_status_to_wire (es_action_status s);
              wes_pose := pose_to_wire (es_pose s);
              wes_lanelet_pose := lanelet_pose_to_wire (es_lanelet_pose s);
              wes_lanelet_pose_valid := es_lanelet_pose_valid s |}
  | _, _ => None
  end.
(** src/conversions.cpp:403-416. *)
Definition entity_status_from_wire (w : entity_status_wire) : option entity_status :=
  match type_from_wire (wes_type w), subtype_from_wire (wes_subtype w) with
  | Some t, Some u =>
      Some {| es_type := t; es_subtype := u; es_time := wes_time w; es_name := wes_name w;
              es_bounding_box := box_from_wire (wes_bounding_box w);
              es_action_status := action_status_from_wire (wes_action_status w);
              es_pose := pose_from_wire (wes_pose w);
              es_lanelet_pose := lanelet_pose_from_wire (wes_lanelet_pose w);
              es_lanelet_pose_valid := wes_lanelet_pose_valid w |}
  | _, _ => None
  end.

(** EntityStatus of simulation_api_schema: what goes to the sensor simulator in every frame. *)
Record api_status_wire := {
  wap_type : Z; wap_subtype : Z; wap_time : Z; wap_name : string;
  wap_action_status : action_status_wire; wap_pose : pose_wire }.
(** src/conversions.cpp:418-428. *)
Definition api_status_to_wire (s : entity_status) : option api_status_wire :=
  match type_to_wire (es_type s), subtype_to_wire (es_subtype s) with
  | Some t, Some u =>
      Some {| wap_type := t; wap_subtype := u; wap_time := es_time s; wap_name := es_name s;
              wap_action_status := action_status_to_wire (es_action_status s);
              wap_pose := pose_to_wire (es_pose s) |}
  | _, _ => None
  end.
(** The default constructed messages. *)
Definition no_point : point := {| pt_x := 0; pt_y := 0; pt_z := 0 |}.
Definition no_vector : vector := {| ve_x := 0; ve_y := 0; ve_z := 0 |}.
Definition no_box : box := {| bb_center := no_point; bb_dimensions := no_vector |}.
Definition no_lanelet_pose : lanelet_pose :=
  {| lp_lanelet_id := 0; lp_s := 0; lp_offset := 0; lp_rpy := no_vector |}.
(** src/conversions.cpp:430-443. *)
Definition api_status_from_wire (w : api_status_wire) : option entity_status :=
  match type_from_wire (wap_type w), subtype_from_wire (wap_subtype w) with
  | Some t, Some u =>
      Some {| es_type := t; es_subtype := u; es_time := wap_time w; es_name := wap_name w;
              es_bounding_box := no_box;
              es_action_status := action_status_from_wire (wap_action_status w);
              es_pose := pose_from_wire (wap_pose w);
              es_lanelet_pose := no_lanelet_pose; es_lanelet_pose_valid := false |}
  | _, _ => None
  end.

(** traffic_simulator/src/api/api.cpp:94-112: the status of an entity after the answer to an update;
    the answer holds a name, an action status and a pose. For an ego (105-108) only pose, twist and
    acceleration are taken from it. *)
Record answer := {
  an_name : string; an_action_status : action_status_wire; an_pose : pose_wire }.
Definition answered (s : entity_status) (a : answer) : entity_status :=
  {| es_type := es_type s; es_subtype := es_subtype s; es_time := es_time s; es_name := es_name s;
     es_bounding_box := es_bounding_box s;
     es_action_status := action_status_from_wire (an_action_status a);
     es_pose := pose_from_wire (an_pose a);
     es_lanelet_pose := es_lanelet_pose s; es_lanelet_pose_valid := es_lanelet_pose_valid s |}.
(** simple_sensor_simulator/src/simple_sensor_simulator.cpp:165-176: the answer for an entity that is
    not the ego repeats what was sent. *)
Definition echo (w : api_status_wire) : answer :=
  {| an_name := wap_name w; an_action_status := wap_action_status w; an_pose := wap_pose w |}.

(** Parameters of vehicles; the Protobuf message has no subtype. *)
Record vehicle_parameters := {
  vp_name : string; vp_subtype : Z; vp_bounding_box : box; vp_performance : performance;
  vp_axles : axles }.
Record vehicle_parameters_wire := {
  wvp_name : string; wvp_bounding_box : box_wire; wvp_performance : performance_wire;
  wvp_axles : axles_wire }.
(** src/conversions.cpp:169-177, 179-187. [p] is what the message held before. *)
Definition vehicle_to_wire (p : vehicle_parameters) : vehicle_parameters_wire :=
  {| wvp_name := vp_name p; wvp_bounding_box := box_to_wire (vp_bounding_box p);
     wvp_performance := performance_to_wire (vp_performance p);
     wvp_axles := axles_to_wire (vp_axles p) |}.
Definition vehicle_from_wire (w : vehicle_parameters_wire) (p : vehicle_parameters)
  : vehicle_parameters :=
  {| vp_name := wvp_name w; vp_subtype := vp_subtype p;
     vp_bounding_box := box_from_wire (wvp_bounding_box w);
     vp_performance := performance_from_wire (wvp_performance w);
     vp_axles := axles_from_wire (wvp_axles w) |}.
(** Parameters of pedestrians and of other objects have the same shape: src/conversions.cpp:189-219. *)
Record object_parameters := { op_name : string; op_subtype : Z; op_bounding_box : box }.
Record object_parameters_wire := { wop_name : string; wop_bounding_box : box_wire }.
Definition object_to_wire (p : object_parameters) : object_parameters_wire :=
  {| wop_name := op_name p; wop_bounding_box := box_to_wire (op_bounding_box p) |}.
Definition object_from_wire (w : object_parameters_wire) (p : object_parameters) : object_parameters :=
  {| op_name := wop_name w; op_subtype := op_subtype p;
     op_bounding_box := box_from_wire (wop_bounding_box w) |}.

(** Gears: src/conversions.cpp:544-582; the constants of autoware_vehicle_msgs/msg/GearCommand (not in
    the repository) are taken to be those of proto/autoware_vehicle_msgs.proto. [old] is the command
    the Protobuf message held: a number without a case leaves it. *)
Record gear := { gr_stamp : stamp; gr_command : Z }.
Record gear_wire := { wgr_stamp : stamp_wire; wgr_command : Z }.
Definition command_to_wire (old command : Z) : Z :=
  match command with
  | 0 => 0 | 1 => 1 | 2 => 2 | 3 => 3 | 4 => 4 | 5 => 5 | 6 => 6 | 7 => 7 | 8 => 8 | 9 => 9
  | 10 => 10 | 11 => 11 | 12 => 12 | 13 => 13 | 14 => 14 | 15 => 15 | 16 => 16 | 17 => 17
  | 18 => 18 | 19 => 19 | 20 => 20 | 21 => 21 | 22 => 22 | 23 => 23 | 24 => 24
  | _ => old
  end.
Definition gear_to_wire (old : Z) (g : gear) : gear_wire :=
  {| wgr_stamp := stamp_to_wire (gr_stamp g); wgr_command := command_to_wire old (gr_command g) |}.
(** src/conversions.cpp:584-590. *)
Definition gear_from_wire (w : gear_wire) : gear :=
  {| gr_stamp := stamp_from_wire (wgr_stamp w); gr_command := wgr_command w |}.

(** Control commands: src/conversions.cpp:492-542. The fields [control_time] and [is_defined_...] exist on
    both sides and are not copied; of the ROS message, [old] says what they were before. *)
Record lateral := {
  la_stamp : stamp; la_control_time : stamp; la_angle : Z; la_rate : Z; la_rate_defined : bool }.
Record longitudinal := {
  lo_stamp : stamp; lo_control_time : stamp; lo_velocity : Z; lo_acceleration : Z; lo_jerk : Z;
  lo_acceleration_defined : bool; lo_jerk_defined : bool }.
Record control := {
  co_stamp : stamp; co_control_time : stamp; co_lateral : lateral; co_longitudinal : longitudinal }.
(** The Protobuf messages have the same fields; those not set have their defaults. *)
Definition no_stamp : stamp := {| st_sec := 0; st_nanosec := 0 |}.
Definition lateral_sent (m : lateral) : lateral :=
  {| la_stamp := la_stamp m; la_control_time := no_stamp; la_angle := la_angle m;
     la_rate := la_rate m; la_rate_defined := false |}.
Definition longitudinal_sent (m : longitudinal) : longitudinal :=
  {| lo_stamp := lo_stamp m; lo_control_time := no_stamp; lo_velocity := lo_velocity m;
     lo_acceleration := lo_acceleration m; lo_jerk := lo_jerk m;
     lo_acceleration_defined := false; lo_jerk_defined := false |}.
Definition control_sent (m : control) : control :=
  {| co_stamp := co_stamp m; co_control_time := no_stamp; co_lateral := lateral_sent (co_lateral m);
     co_longitudinal := longitudinal_sent (co_longitudinal m) |}.
