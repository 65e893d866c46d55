(** Specification of the status of an entity. *)
From Coq Require Import String List Bool ZArith Reals.
From Verif Require Import M_Status.
Import ListNotations.
Local Open Scope R_scope.

(** What the entity is: its name, kind, subtype and bounding box. *)
Definition same_entity (a b : entity) : Prop :=
  s_name (e_status a) = s_name (e_status b) /\ s_kind (e_status a) = s_kind (e_status b) /\
  s_subtype (e_status a) = s_subtype (e_status b) /\ s_box (e_status a) = s_box (e_status b).
(** The parts of a status agree: it says it is on a lane exactly if it is on one, says which, and its
    height and direction are those of the lane there. *)
Definition consistent (on_map : lane_pose -> pose) (e : entity) : Prop :=
  match e_lane e with
  | Some l => s_on_lane (e_status e) = true /\ s_lane (e_status e) = l /\
              p_z (s_pose (e_status e)) = p_z (on_map l) /\
              p_turn (s_pose (e_status e)) = p_turn (on_map l)
  | None => s_on_lane (e_status e) = false /\ s_lane (e_status e) = no_lane
  end.
Definition at_point (p : pose) (e : entity) : Prop :=
  p_x (s_pose (e_status e)) = p_x p /\ p_y (s_pose (e_status e)) = p_y p.
(** Standing: neither speed, acceleration nor jerk. *)
Definition standing (e : entity) : Prop :=
  a_speed (s_action (e_status e)) = 0 /\ a_acceleration (s_action (e_status e)) = 0 /\
  a_jerk (s_action (e_status e)) = 0.
(** The lane of an entity is one that its own pose matches. *)
Definition lane_matches (found : pose -> option lane_pose) (p : pose) (e : entity) : Prop :=
  e_lane e = found p.
(** A lanelet pose in canonical form is its own canonical form, and not LaneletPose(). *)
Definition canonical_form (canonicalize : lane_pose -> option lane_pose) (l : lane_pose) : Prop :=
  canonicalize l = Some l /\ l <> no_lane.
(** The place a position names, as OpenSCENARIO has it: offsets of a RelativeWorldPosition are along the
    axes of the world, those of a RelativeObjectPosition along those of the entity referred to, whose
    direction has cosine [t_cos] and sine [t_sin]. *)
Definition named_point (on_map : lane_pose -> pose) (q : position) (x y : R) : Prop :=
  match q with
  | World p => x = p_x p /\ y = p_y p
  | RelativeWorld r dx dy _ _ => x = p_x r + dx /\ y = p_y r + dy
  | RelativeObject r dx dy _ _ =>
      x = p_x r + dx * t_cos (p_turn r) - dy * t_sin (p_turn r) /\
      y = p_y r + dx * t_sin (p_turn r) + dy * t_cos (p_turn r)
  | Lane l => x = p_x (on_map l) /\ y = p_y (on_map l)
  end.

(** c is the direction a turned by b: their angles are added. *)
Definition turned_by (a b c : turn) : Prop :=
  forall u v, t_cos a = cos u -> t_sin a = sin u -> t_cos b = cos v -> t_sin b = sin v ->
    t_cos c = cos (u + v) /\ t_sin c = sin (u + v).
