(** * What it means that a Protobuf message carries a ROS message: field by field, by name. *)
From Coq Require Import String List Bool ZArith.
From Verif Require Import M_Conversion.
Import ListNotations.
Local Open Scope Z_scope.

Definition point_carried (m : point) (w : point_wire) : Prop := pt_x m = wpt_x w /\
  pt_y m = wpt_y w /\ pt_z m = wpt_z w.
Definition quaternion_carried (m : quaternion) (w : quaternion_wire) : Prop := qt_x m = wqt_x w /\
  qt_y m = wqt_y w /\ qt_z m = wqt_z w /\ qt_w m = wqt_w w.
Definition pose_carried (m : pose) (w : pose_wire) : Prop :=
  point_carried (po_position m) (wpo_position w) /\
  quaternion_carried (po_orientation m) (wpo_orientation w).
Definition vector_carried (m : vector) (w : vector_wire) : Prop := ve_x m = wve_x w /\
  ve_y m = wve_y w /\ ve_z m = wve_z w.
Definition twist_carried (m : twist) (w : twist_wire) : Prop :=
  vector_carried (tw_linear m) (wtw_linear w) /\ vector_carried (tw_angular m) (wtw_angular w).
Definition accel_carried (m : accel) (w : accel_wire) : Prop :=
  vector_carried (ac_linear m) (wac_linear w) /\ vector_carried (ac_angular m) (wac_angular w).
Definition box_carried (m : box) (w : box_wire) : Prop :=
  point_carried (bb_center m) (wbb_center w) /\
  vector_carried (bb_dimensions m) (wbb_dimensions w).
Definition performance_carried (m : performance) (w : performance_wire) : Prop :=
  pf_max_acceleration m = wpf_max_acceleration w /\
  pf_max_acceleration_rate m = wpf_max_acceleration_rate w /\
  pf_max_deceleration m = wpf_max_deceleration w /\
  pf_max_deceleration_rate m = wpf_max_deceleration_rate w /\ pf_max_speed m = wpf_max_speed w.
Definition axle_carried (m : axle) (w : axle_wire) : Prop := ax_position_x m = wax_position_x w /\
  ax_position_z m = wax_position_z w /\ ax_track_width m = wax_track_width w /\
  ax_wheel_diameter m = wax_wheel_diameter w /\ ax_max_steering m = wax_max_steering w.
Definition axles_carried (m : axles) (w : axles_wire) : Prop :=
  axle_carried (as_front_axle m) (was_front_axle w) /\
  axle_carried (as_rear_axle m) (was_rear_axle w).
Definition action_status_carried (m : action_status) (w : action_status_wire) : Prop :=
  at_current_action m = wat_current_action w /\ twist_carried (at_twist m) (wat_twist w) /\
  accel_carried (at_accel m) (wat_accel w) /\ at_linear_jerk m = wat_linear_jerk w.
Definition lanelet_pose_carried (m : lanelet_pose) (w : lanelet_pose_wire) : Prop :=
  lp_lanelet_id m = wlp_lanelet_id w /\ lp_s m = wlp_s w /\ lp_offset m = wlp_offset w /\
  vector_carried (lp_rpy m) (wlp_rpy w).
Definition stamp_carried (m : stamp) (w : stamp_wire) : Prop := st_sec m = wst_sec w /\
  st_nanosec m = wst_nanosec w.
Definition vertex_carried (m : vertex) (w : vertex_wire) : Prop := vx_time m = wvx_time w /\
  pose_carried (vx_position m) (wvx_position w).
Definition polyline_carried (m : polyline) (w : polyline_wire) : Prop :=
  Forall2 vertex_carried (pl_vertices m) (wpl_vertices w).
Definition trajectory_carried (m : trajectory) (w : trajectory_wire) : Prop :=
  tr_initial_distance_offset m = wtr_initial_distance_offset w /\
  tr_dynamic_constraints_ignorable m = wtr_dynamic_constraints_ignorable w /\
  tr_base_time m = wtr_base_time w /\ tr_closed m = wtr_closed w /\
  polyline_carried (tr_shape m) (wtr_shape w).

(** The numbers of EntityType.msg and EntitySubtype.msg. *)
Definition known_type (t : Z) : Prop := 0 <= t <= 3.
Definition known_subtype (t : Z) : Prop := 0 <= t <= 7.
Definition known (s : entity_status) : Prop :=
  known_type (es_type s) /\ known_subtype (es_subtype s).

Definition entity_status_carried (m : entity_status) (w : entity_status_wire) : Prop :=
  es_type m = wes_type w /\ es_subtype m = wes_subtype w /\ es_time m = wes_time w /\
  es_name m = wes_name w /\ box_carried (es_bounding_box m) (wes_bounding_box w) /\
  action_status_carried (es_action_status m) (wes_action_status w) /\
  pose_carried (es_pose m) (wes_pose w) /\
  lanelet_pose_carried (es_lanelet_pose m) (wes_lanelet_pose w) /\
  es_lanelet_pose_valid m = wes_lanelet_pose_valid w.
(** What the message to the sensor simulator has room for. *)
Definition api_status_carried (m : entity_status) (w : api_status_wire) : Prop :=
  es_type m = wap_type w /\ es_subtype m = wap_subtype w /\ es_time m = wap_time w /\
  es_name m = wap_name w /\ action_status_carried (es_action_status m) (wap_action_status w) /\
  pose_carried (es_pose m) (wap_pose w).
(** Two statuses agree in what that message has room for. *)
Definition same_for_api (a b : entity_status) : Prop :=
  es_type a = es_type b /\ es_subtype a = es_subtype b /\ es_time a = es_time b /\
  es_name a = es_name b /\ es_action_status a = es_action_status b /\ es_pose a = es_pose b.

Definition vehicle_carried (m : vehicle_parameters) (w : vehicle_parameters_wire) : Prop :=
  vp_name m = wvp_name w /\ box_carried (vp_bounding_box m) (wvp_bounding_box w) /\
  performance_carried (vp_performance m) (wvp_performance w) /\
  axles_carried (vp_axles m) (wvp_axles w).
Definition object_carried (m : object_parameters) (w : object_parameters_wire) : Prop :=
  op_name m = wop_name w /\ box_carried (op_bounding_box m) (wop_bounding_box w).

(** The gears of proto/autoware_vehicle_msgs.proto: NONE 0, NEUTRAL 1, DRIVE 2 to DRIVE_18 19,
    REVERSE 20, REVERSE_2 21, PARK 22, LOW 23, LOW_2 24. *)
Definition known_gear (c : Z) : Prop := 0 <= c <= 24.
