(** * Theorems about the conversions between messages (C172-C174). *)
From Coq Require Import String List Bool ZArith Lia.
From Verif Require Import M_Conversion S_Conversion.
Import ListNotations.
Local Open Scope Z_scope.

Lemma point_sent : forall m, point_carried m (point_to_wire m).
Proof. intros []. repeat split. Qed.
Lemma point_read : forall m w, point_carried m w -> point_from_wire w = m.
Proof.
  intros [] [] C. unfold point_carried in C. cbn in C. decompose [and] C. subst. reflexivity.
Qed.
Lemma quaternion_sent : forall m, quaternion_carried m (quaternion_to_wire m).
Proof. intros []. repeat split. Qed.
Lemma quaternion_read : forall m w, quaternion_carried m w -> quaternion_from_wire w = m.
Proof.
  intros [] [] C. unfold quaternion_carried in C. cbn in C. decompose [and] C. subst. reflexivity.
Qed.
Lemma pose_sent : forall m, pose_carried m (pose_to_wire m).
Proof. intros m. unfold pose_carried. cbn. repeat split; (reflexivity || apply point_sent || apply quaternion_sent). Qed.
Lemma pose_read : forall m w, pose_carried m w -> pose_from_wire w = m.
Proof.
  intros [] [] C. unfold pose_carried in C. cbn in C. decompose [and] C. unfold pose_from_wire. cbn.
  f_equal; (symmetry; assumption) || (apply point_read; assumption) || (apply quaternion_read; assumption).
Qed.
Lemma vector_sent : forall m, vector_carried m (vector_to_wire m).
Proof. intros []. repeat split. Qed.
Lemma vector_read : forall m w, vector_carried m w -> vector_from_wire w = m.
Proof.
  intros [] [] C. unfold vector_carried in C. cbn in C. decompose [and] C. subst. reflexivity.
Qed.
Lemma twist_sent : forall m, twist_carried m (twist_to_wire m).
Proof. intros m. unfold twist_carried. cbn. repeat split; (reflexivity || apply vector_sent). Qed.
Lemma twist_read : forall m w, twist_carried m w -> twist_from_wire w = m.
Proof.
  intros [] [] C. unfold twist_carried in C. cbn in C. decompose [and] C. unfold twist_from_wire. cbn.
  f_equal; (symmetry; assumption) || (apply vector_read; assumption).
Qed.
Lemma accel_sent : forall m, accel_carried m (accel_to_wire m).
Proof. intros m. unfold accel_carried. cbn. repeat split; (reflexivity || apply vector_sent). Qed.
Lemma accel_read : forall m w, accel_carried m w -> accel_from_wire w = m.
Proof.
  intros [] [] C. unfold accel_carried in C. cbn in C. decompose [and] C. unfold accel_from_wire. cbn.
  f_equal; (symmetry; assumption) || (apply vector_read; assumption).
Qed.
Lemma box_sent : forall m, box_carried m (box_to_wire m).
Proof. intros m. unfold box_carried. cbn. repeat split; (reflexivity || apply point_sent || apply vector_sent). Qed.
Lemma box_read : forall m w, box_carried m w -> box_from_wire w = m.
Proof.
  intros [] [] C. unfold box_carried in C. cbn in C. decompose [and] C. unfold box_from_wire. cbn.
  f_equal; (symmetry; assumption) || (apply point_read; assumption) || (apply vector_read; assumption).
Qed.
Lemma performance_sent : forall m, performance_carried m (performance_to_wire m).
Proof. intros []. repeat split. Qed.
Lemma performance_read : forall m w, performance_carried m w -> performance_from_wire w = m.
Proof.
  intros [] [] C. unfold performance_carried in C. cbn in C. decompose [and] C. subst. reflexivity.
Qed.
Lemma axle_sent : forall m, axle_carried m (axle_to_wire m).
Proof. intros []. repeat split. Qed.
Lemma axle_read : forall m w, axle_carried m w -> axle_from_wire w = m.
Proof.
  intros [] [] C. unfold axle_carried in C. cbn in C. decompose [and] C. subst. reflexivity.
Qed.
Lemma axles_sent : forall m, axles_carried m (axles_to_wire m).
Proof. intros m. unfold axles_carried. cbn. repeat split; (reflexivity || apply axle_sent). Qed.
Lemma axles_read : forall m w, axles_carried m w -> axles_from_wire w = m.
Proof.
  intros [] [] C. unfold axles_carried in C. cbn in C. decompose [and] C. unfold axles_from_wire. cbn.
  f_equal; (symmetry; assumption) || (apply axle_read; assumption).
Qed.
Lemma action_status_sent : forall m, action_status_carried m (action_status_to_wire m).
Proof. intros m. unfold action_status_carried. cbn. repeat split; (reflexivity || apply twist_sent || apply accel_sent). Qed.
Lemma action_status_read : forall m w, action_status_carried m w -> action_status_from_wire w = m.
Proof.
  intros [] [] C. unfold action_status_carried in C. cbn in C. decompose [and] C. unfold action_status_from_wire. cbn.
  f_equal; (symmetry; assumption) || (apply twist_read; assumption) || (apply accel_read; assumption).
Qed.
Lemma lanelet_pose_sent : forall m, lanelet_pose_carried m (lanelet_pose_to_wire m).
Proof. intros m. unfold lanelet_pose_carried. cbn. repeat split; (reflexivity || apply vector_sent). Qed.
Lemma lanelet_pose_read : forall m w, lanelet_pose_carried m w -> lanelet_pose_from_wire w = m.
Proof.
  intros [] [] C. unfold lanelet_pose_carried in C. cbn in C. decompose [and] C. unfold lanelet_pose_from_wire. cbn.
  f_equal; (symmetry; assumption) || (apply vector_read; assumption).
Qed.
Lemma stamp_sent : forall m, stamp_carried m (stamp_to_wire m).
Proof. intros []. repeat split. Qed.
Lemma stamp_read : forall m w, stamp_carried m w -> stamp_from_wire w = m.
Proof.
  intros [] [] C. unfold stamp_carried in C. cbn in C. decompose [and] C. subst. reflexivity.
Qed.
Lemma vertex_sent : forall m, vertex_carried m (vertex_to_wire m).
Proof. intros m. unfold vertex_carried. cbn. repeat split; (reflexivity || apply pose_sent). Qed.
Lemma vertex_read : forall m w, vertex_carried m w -> vertex_from_wire w = m.
Proof.
  intros [] [] C. unfold vertex_carried in C. cbn in C. decompose [and] C. unfold vertex_from_wire. cbn.
  f_equal; (symmetry; assumption) || (apply pose_read; assumption).
Qed.
Lemma vertices_carried : forall l, Forall2 vertex_carried l (map vertex_to_wire l).
Proof. induction l; constructor; [apply vertex_sent|assumption]. Qed.
Lemma vertices_read : forall l w, Forall2 vertex_carried l w -> map vertex_from_wire w = l.
Proof. induction 1; cbn; [reflexivity|]. f_equal; [apply vertex_read|]; assumption. Qed.
Lemma polyline_sent : forall m, polyline_carried m (polyline_to_wire m).
Proof. intros m. apply vertices_carried. Qed.
Lemma polyline_read : forall m w, polyline_carried m w -> polyline_from_wire w = m.
Proof.
  intros [l] [w] C. unfold polyline_from_wire. cbn in *. f_equal. apply vertices_read. exact C.
Qed.
Lemma trajectory_sent : forall m, trajectory_carried m (trajectory_to_wire m).
Proof. intros m. unfold trajectory_carried. cbn. repeat split; (reflexivity || apply polyline_sent). Qed.
Lemma trajectory_read : forall m w, trajectory_carried m w -> trajectory_from_wire w = m.
Proof.
  intros [] [] C. unfold trajectory_carried in C. cbn in C. decompose [and] C. unfold trajectory_from_wire. cbn.
  f_equal; (symmetry; assumption) || (apply polyline_read; assumption).
Qed.

Lemma known_type_iff : forall t, known_type t <-> type_to_wire t = Some t.
Proof.
  intros t. unfold known_type. split.
  - intros K. assert (t = 0 \/ t = 1 \/ t = 2 \/ t = 3) as [->|[->|[->| ->]]] by lia; reflexivity.
  - unfold type_to_wire. destruct t as [|[[p|p|]|[p|p|]|]|p]; intros H; try discriminate; lia.
Qed.
Lemma unknown_type : forall t, ~ known_type t -> type_to_wire t = None.
Proof.
  intros t K. destruct (type_to_wire t) as [x|] eqn:E; [|reflexivity]. destruct K.
  unfold type_to_wire in E. unfold known_type.
  destruct t as [|[[p|p|]|[p|p|]|]|p]; try discriminate; lia.
Qed.
Lemma known_subtype_iff : forall t, known_subtype t <-> subtype_to_wire t = Some t.
Proof.
  intros t. unfold known_subtype. split.
  - intros K. assert (t = 0 \/ t = 1 \/ t = 2 \/ t = 3 \/ t = 4 \/ t = 5 \/ t = 6 \/ t = 7)
      as [->|[->|[->|[->|[->|[->|[->| ->]]]]]]] by lia; reflexivity.
  - unfold subtype_to_wire.
    destruct t as [|[[[p|p|]|[p|p|]|]|[[p|p|]|[p|p|]|]|]|p]; intros H; try discriminate; lia.
Qed.
Lemma unknown_subtype : forall t, ~ known_subtype t -> subtype_to_wire t = None.
Proof.
  intros t K. destruct (subtype_to_wire t) as [x|] eqn:E; [|reflexivity]. destruct K.
  unfold subtype_to_wire in E. unfold known_subtype.
  destruct t as [|[[[p|p|]|[p|p|]|]|[[p|p|]|[p|p|]|]|]|p]; try discriminate; lia.
Qed.
Lemma type_read : forall t, known_type t -> type_from_wire t = Some t.
Proof.
  intros t K. unfold known_type in K.
  assert (t = 0 \/ t = 1 \/ t = 2 \/ t = 3) as [->|[->|[->| ->]]] by lia; reflexivity.
Qed.
Lemma subtype_read : forall t, known_subtype t -> subtype_from_wire t = Some t.
Proof.
  intros t K. unfold known_subtype in K.
  assert (t = 0 \/ t = 1 \/ t = 2 \/ t = 3 \/ t = 4 \/ t = 5 \/ t = 6 \/ t = 7)
    as [->|[->|[->|[->|[->|[->|[->| ->]]]]]]] by lia; reflexivity.
Qed.
Lemma type_dec : forall t, known_type t \/ ~ known_type t.
Proof. intros. unfold known_type. lia. Qed.
Lemma subtype_dec : forall t, known_subtype t \/ ~ known_subtype t.
Proof. intros. unfold known_subtype. lia. Qed.

(** ** C172: the status of an entity survives the way to the other process and back. *)

(** What is sent carries the status, what is read is what was carried. *)
Theorem C172_status_sent : forall s, known s ->
  exists w, entity_status_to_wire s = Some w /\ entity_status_carried s w.
Proof.
  intros s [K1 K2]. apply known_type_iff in K1. apply known_subtype_iff in K2.
  unfold entity_status_to_wire. rewrite K1, K2. eexists. split; [reflexivity|].
  unfold entity_status_carried. cbn. repeat split;
    (reflexivity || apply action_status_sent || apply lanelet_pose_sent || apply vector_sent).
Qed.
Theorem C172_status_read : forall s w, known s -> entity_status_carried s w ->
  entity_status_from_wire w = Some s.
Proof.
  intros s w [K1 K2] (E1 & E2 & E3 & E4 & E5 & E6 & E7 & E8 & E9).
  unfold entity_status_from_wire. rewrite <- E1, <- E2, type_read, subtype_read by assumption.
  rewrite (box_read _ _ E5), (action_status_read _ _ E6), (pose_read _ _ E7),
    (lanelet_pose_read _ _ E8), <- E3, <- E4, <- E9.
  destruct s. reflexivity.
Qed.
Theorem C172_status_refused : forall s, ~ known s -> entity_status_to_wire s = None.
Proof.
  intros s N. unfold entity_status_to_wire. destruct (type_dec (es_type s)) as [K|K].
  - destruct (subtype_dec (es_subtype s)) as [L|L]; [destruct N; split; assumption|].
    rewrite (unknown_subtype _ L). destruct (type_to_wire (es_type s)); reflexivity.
  - rewrite (unknown_type _ K). reflexivity.
Qed.
Theorem C172_read_refused : forall w, ~ known_type (wes_type w) \/ ~ known_subtype (wes_subtype w) ->
  entity_status_from_wire w = None.
Proof.
  intros w N. unfold entity_status_from_wire.
  assert (forall t, ~ known_type t -> type_from_wire t = None) as A by exact unknown_type.
  assert (forall t, ~ known_subtype t -> subtype_from_wire t = None) as B by exact unknown_subtype.
  destruct N as [N | N].
  - now rewrite (A _ N).
  - rewrite (B _ N). destruct (type_from_wire (wes_type w)); reflexivity.
Qed.
Theorem C172_round_trip : forall s, known s ->
  match entity_status_to_wire s with
  | Some w => entity_status_from_wire w = Some s
  | None => False
  end.
Proof.
  intros s K. destruct (C172_status_sent s K) as (w & -> & C). apply C172_status_read; assumption.
Qed.

(** ** C173: the status sent to the sensor simulator in every frame. *)

Theorem C173_sent : forall s, known s ->
  exists w, api_status_to_wire s = Some w /\ api_status_carried s w.
Proof.
  intros s [K1 K2]. apply known_type_iff in K1. apply known_subtype_iff in K2.
  unfold api_status_to_wire. rewrite K1, K2. eexists. split; [reflexivity|].
  unfold api_status_carried. cbn. repeat split; (reflexivity || apply action_status_sent).
Qed.
(** What it reads agrees in all that was carried; of the rest nothing is left. *)
Theorem C173_read : forall s w, known s -> api_status_carried s w ->
  exists s', api_status_from_wire w = Some s' /\ same_for_api s' s /\
             es_bounding_box s' = no_box /\ es_lanelet_pose s' = no_lanelet_pose /\
             es_lanelet_pose_valid s' = false.
Proof.
  intros s w [K1 K2] (E1 & E2 & E3 & E4 & E6 & E7).
  unfold api_status_from_wire. rewrite <- E1, <- E2, type_read, subtype_read by assumption.
  rewrite (action_status_read _ _ E6), (pose_read _ _ E7). eexists. split; [reflexivity|].
  unfold same_for_api. cbn. repeat split; auto.
Qed.
Theorem C173_refused : forall s, ~ known s -> api_status_to_wire s = None.
Proof.
  intros s N. unfold api_status_to_wire. destruct (type_dec (es_type s)) as [K|K].
  - destruct (subtype_dec (es_subtype s)) as [L|L]; [destruct N; split; assumption|].
    rewrite (unknown_subtype _ L). destruct (type_to_wire (es_type s)); reflexivity.
  - rewrite (unknown_type _ K). reflexivity.
Qed.
(** An entity that is not the ego is left as it was by the exchange of a frame: the answer repeats
    what was sent. *)
Theorem C173_echo : forall s w, api_status_to_wire s = Some w ->
  an_name (echo w) = es_name s /\ answered s (echo w) = s.
Proof.
  intros s w E. unfold api_status_to_wire in E.
  destruct (type_to_wire (es_type s)); [|discriminate].
  destruct (subtype_to_wire (es_subtype s)); [|discriminate]. injection E as <-.
  split; [reflexivity|]. unfold answered, echo. cbn.
  rewrite (action_status_read _ _ (action_status_sent _)), (pose_read _ _ (pose_sent _)).
  destruct s. reflexivity.
Qed.
(** The answer decides pose and action status only. *)
Theorem C173_answered : forall s a p t, pose_carried p (an_pose a) ->
  action_status_carried t (an_action_status a) ->
  es_pose (answered s a) = p /\ es_action_status (answered s a) = t /\
  es_name (answered s a) = es_name s /\ es_type (answered s a) = es_type s /\
  es_subtype (answered s a) = es_subtype s /\ es_time (answered s a) = es_time s /\
  es_bounding_box (answered s a) = es_bounding_box s /\
  es_lanelet_pose (answered s a) = es_lanelet_pose s /\
  es_lanelet_pose_valid (answered s a) = es_lanelet_pose_valid s.
Proof.
  intros s a p t P T. cbn. rewrite (pose_read _ _ P), (action_status_read _ _ T). repeat split.
Qed.
(** A whole status does not survive this way. *)
Definition C173_whole_claim : Prop := forall s w, known s -> api_status_to_wire s = Some w ->
  api_status_from_wire w = Some s.
Definition some_vector (n : Z) : vector := {| ve_x := n; ve_y := n + 1; ve_z := n + 2 |}.
Definition some_point (n : Z) : point := {| pt_x := n; pt_y := n + 1; pt_z := n + 2 |}.
Definition some_pose (n : Z) : pose :=
  {| po_position := some_point n;
     po_orientation := {| qt_x := 0; qt_y := 0; qt_z := 0; qt_w := 1 |} |}.
Definition some_box : box := {| bb_center := some_point 1; bb_dimensions := some_vector 4 |}.
Definition some_status : entity_status :=
  {| es_type := 1; es_subtype := 2; es_time := 30; es_name := "npc"; es_bounding_box := some_box;
     es_action_status := {| at_current_action := "follow_lane";
                            at_twist := {| tw_linear := some_vector 10; tw_angular := some_vector 20 |};
                            at_accel := {| ac_linear := some_vector 30; ac_angular := some_vector 40 |};
                            at_linear_jerk := 5 |};
     es_pose := some_pose 50;
     es_lanelet_pose := {| lp_lanelet_id := 34513; lp_s := 6; lp_offset := 7; lp_rpy := some_vector 60 |};
     es_lanelet_pose_valid := true |}.
Theorem C173_whole_refuted : ~ C173_whole_claim.
Proof.
  intros C. assert (K : known some_status) by (unfold known, known_type, known_subtype; cbn; lia).
  destruct (C173_sent some_status K) as (w & E & _). specialize (C _ _ K E).
  vm_compute in E. injection E as <-. vm_compute in C. discriminate.
Qed.
Example C172_example : known some_status /\
  option_map wes_name (entity_status_to_wire some_status) = Some "npc"%string.
Proof. split; [unfold known, known_type, known_subtype; cbn; lia|reflexivity]. Qed.

(** ** C174: parameters, trajectories and commands. *)

Theorem C174_vehicle : forall p q, vehicle_carried p (vehicle_to_wire p) /\
  (vp_subtype q = vp_subtype p -> vehicle_from_wire (vehicle_to_wire p) q = p).
Proof.
  intros p q. split.
  - unfold vehicle_carried. cbn.
    split; [reflexivity|split; [apply box_sent|split; [apply performance_sent|apply axles_sent]]].
  - intros E. unfold vehicle_from_wire, vehicle_to_wire. cbn.
    rewrite (box_read _ _ (box_sent _)), (performance_read _ _ (performance_sent _)),
      (axles_read _ _ (axles_sent _)), E. destruct p. reflexivity.
Qed.
Theorem C174_object : forall p q, object_carried p (object_to_wire p) /\
  (op_subtype q = op_subtype p -> object_from_wire (object_to_wire p) q = p).
Proof.
  intros p q. split.
  - unfold object_carried. cbn. split; [reflexivity|apply box_sent].
  - intros E. unfold object_from_wire, object_to_wire. cbn.
    rewrite (box_read _ _ (box_sent _)), E. destruct p. reflexivity.
Qed.
(** The subtype of the parameters is lost: a fresh message has subtype 0 (UNKNOWN). *)
Definition C174_subtype_claim : Prop := forall p q, vp_subtype q = 0 ->
  vp_subtype (vehicle_from_wire (vehicle_to_wire p) q) = vp_subtype p.
Definition some_vehicle (subtype : Z) : vehicle_parameters :=
  {| vp_name := "car"; vp_subtype := subtype; vp_bounding_box := some_box;
     vp_performance := {| pf_max_acceleration := 10; pf_max_acceleration_rate := 3;
                          pf_max_deceleration := 11; pf_max_deceleration_rate := 4;
                          pf_max_speed := 30 |};
     vp_axles := {| as_front_axle := {| ax_position_x := 1; ax_position_z := 2; ax_track_width := 3;
                                        ax_wheel_diameter := 4; ax_max_steering := 5 |};
                    as_rear_axle := {| ax_position_x := 6; ax_position_z := 7; ax_track_width := 8;
                                       ax_wheel_diameter := 9; ax_max_steering := 10 |} |} |}.
Theorem C174_subtype_refuted : ~ C174_subtype_claim.
Proof. intros C. specialize (C (some_vehicle 2) (some_vehicle 0) eq_refl). discriminate. Qed.
(** Trajectories of any length. *)
Theorem C174_trajectory : forall t, trajectory_carried t (trajectory_to_wire t) /\
  trajectory_from_wire (trajectory_to_wire t) = t.
Proof. intros t. split; [|apply trajectory_read]; apply trajectory_sent. Qed.
Theorem C174_trajectory_read : forall t w, trajectory_carried t w -> trajectory_from_wire w = t.
Proof. exact trajectory_read. Qed.
Theorem C174_gear : forall old g, known_gear (gr_command g) ->
  wgr_command (gear_to_wire old g) = gr_command g /\
  stamp_carried (gr_stamp g) (wgr_stamp (gear_to_wire old g)) /\
  gear_from_wire (gear_to_wire old g) = g.
Proof.
  intros old [s c] K. cbn in *. assert (E : command_to_wire old c = c).
  { unfold known_gear in K.
    assert (c = 0 \/ c = 1 \/ c = 2 \/ c = 3 \/ c = 4 \/ c = 5 \/ c = 6 \/ c = 7 \/ c = 8 \/ c = 9 \/
            c = 10 \/ c = 11 \/ c = 12 \/ c = 13 \/ c = 14 \/ c = 15 \/ c = 16 \/ c = 17 \/ c = 18 \/
            c = 19 \/ c = 20 \/ c = 21 \/ c = 22 \/ c = 23 \/ c = 24) as H by lia.
    repeat destruct H as [->|H]; try subst c; reflexivity. }
  split; [exact E|]. split; [apply stamp_sent|]. unfold gear_from_wire, gear_to_wire. cbn.
  rewrite E, (stamp_read _ _ (stamp_sent _)). reflexivity.
Qed.
(** Another number is not refused: the message keeps the gear it had. *)
Definition C174_gear_claim : Prop := forall old g,
  wgr_command (gear_to_wire old g) = gr_command g.
Theorem C174_gear_refuted : ~ C174_gear_claim.
Proof.
  intros C. specialize (C 2 {| gr_stamp := no_stamp; gr_command := 30 |}). discriminate.
Qed.
(** Control commands keep stamps, angles, speeds, accelerations and jerks, but not what says which of
    them are meant. *)
Theorem C174_control : forall m,
  co_stamp (control_sent m) = co_stamp m /\
  la_stamp (co_lateral (control_sent m)) = la_stamp (co_lateral m) /\
  la_angle (co_lateral (control_sent m)) = la_angle (co_lateral m) /\
  la_rate (co_lateral (control_sent m)) = la_rate (co_lateral m) /\
  lo_stamp (co_longitudinal (control_sent m)) = lo_stamp (co_longitudinal m) /\
  lo_velocity (co_longitudinal (control_sent m)) = lo_velocity (co_longitudinal m) /\
  lo_acceleration (co_longitudinal (control_sent m)) = lo_acceleration (co_longitudinal m) /\
  lo_jerk (co_longitudinal (control_sent m)) = lo_jerk (co_longitudinal m).
Proof. intros []. repeat split. Qed.
Definition C174_control_claim : Prop := forall m, control_sent m = m.
Theorem C174_control_refuted : ~ C174_control_claim.
Proof.
  intros C.
  specialize (C {| co_stamp := no_stamp; co_control_time := no_stamp;
    co_lateral := {| la_stamp := no_stamp; la_control_time := no_stamp; la_angle := 1; la_rate := 2;
                     la_rate_defined := true |};
    co_longitudinal := {| lo_stamp := no_stamp; lo_control_time := no_stamp; lo_velocity := 1;
                          lo_acceleration := 2; lo_jerk := 3; lo_acceleration_defined := true;
                          lo_jerk_defined := true |} |}).
  discriminate.
Qed.
Example C174_example :
  known_gear 20 /\
  let t := {| tr_initial_distance_offset := 1; tr_dynamic_constraints_ignorable := true;
              tr_base_time := 2; tr_closed := false;
              tr_shape := {| pl_vertices := [ {| vx_time := 1; vx_position := some_pose 3 |};
                                              {| vx_time := 2; vx_position := some_pose 9 |} ] |} |} in
  map wvx_time (wpl_vertices (wtr_shape (trajectory_to_wire t))) = [1; 2].
Proof. split; [unfold known_gear; lia|reflexivity]. Qed.

Print Assumptions C172_status_sent.
Print Assumptions C172_status_read.
Print Assumptions C172_status_refused.
Print Assumptions C172_round_trip.
Print Assumptions C173_sent.
Print Assumptions C173_read.
Print Assumptions C173_refused.
Print Assumptions C173_echo.
Print Assumptions C173_answered.
Print Assumptions C173_whole_refuted.
Print Assumptions C174_vehicle.
Print Assumptions C174_object.
Print Assumptions C174_subtype_refuted.
Print Assumptions C174_trajectory.
Print Assumptions C174_trajectory_read.
Print Assumptions C174_gear.
Print Assumptions C174_gear_refuted.
Print Assumptions C174_control.
Print Assumptions C174_control_refuted.
