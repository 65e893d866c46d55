(** * From passes over the list to frames of the tree *)

From Coq Require Import String List Bool QArith Qminmax Lqa Lia.
From Verif Require Import M_Behavior S_Behavior P_Behavior P_Behavior2 P_Behavior3 P_Behavior4.
Import ListNotations.
Open Scope Q_scope.

Section Did.
  Context {E : Type}.
  Variables (w : world E) (p : settings).
  Notation act := (vehicle_act E w p).

  Definition progress_of (q : position) : option leaf :=
    match q with Busy l => Some l | Free => None end.

  Lemma progress_position : forall t, in_progress t = progress_of (position_of t).
  Proof. intros t. unfold position_of. destruct (in_progress t); reflexivity. Qed.

  Lemma position_progress : forall t o, in_progress t = o ->
    position_of t = match o with Some l => Busy l | None => Free end.
  Proof. intros t o <-. unfold position_of. destruct (in_progress t); reflexivity. Qed.

  Lemma vehicle_did : forall t cur r s fuel a r' s' n q,
    reachable vehicle_tree t cur ->
    list_frame vehicle_order before_vehicle act fuel 0 (position_of t) r s = (Did a r' s' n, q) ->
    exists t', vehicle_frame E w p fuel t (Context r cur s) = Returned t' (Context r' a s') n
      /\ in_progress t' = progress_of q /\ vehicle_at q t' a.
  Proof.
    intros t cur r s fuel a r' s' n q R L.
    pose proof (vehicle_frame_list _ act fuel t cur r s R) as F. rewrite L in F.
    unfold vehicle_frame.
    destruct (update leaf_name act fuel 0 t (Context r cur s)) as [t' c' n'| |]; cbn in F;
      try contradiction.
    destruct F as (-> & <- & A). exists t'. split; [reflexivity|].
    rewrite progress_position, (vehicle_position _ _ _ A). split; [reflexivity | exact A].
  Qed.

  Lemma vehicle_threw : forall t cur r s fuel q,
    reachable vehicle_tree t cur ->
    list_frame vehicle_order before_vehicle act fuel 0 (position_of t) r s = (Failed, q) ->
    vehicle_frame E w p fuel t (Context r cur s) = Threw.
  Proof.
    intros t cur r s fuel q R L.
    pose proof (vehicle_frame_list _ act fuel t cur r s R) as F. rewrite L in F.
    unfold vehicle_frame.
    destruct (update leaf_name act fuel 0 t (Context r cur s)); cbn in F; try contradiction.
    reflexivity.
  Qed.

  Lemma pedestrian_did : forall t cur r s fuel a r' s' n q,
    reachable pedestrian_tree t cur ->
    list_frame pedestrian_order before_pedestrian (pedestrian_act E w p) fuel 0 (position_of t) r s
    = (Did a r' s' n, q) ->
    exists t', pedestrian_frame E w p fuel t (Context r cur s) = Returned t' (Context r' a s') n
      /\ in_progress t' = progress_of q.
  Proof.
    intros t cur r s fuel a r' s' n q R L.
    pose proof (pedestrian_frame_list _ (pedestrian_act E w p) fuel t cur r s R) as F.
    rewrite L in F. unfold pedestrian_frame.
    destruct (update leaf_name (pedestrian_act E w p) fuel 0 t (Context r cur s)) as [t' c' n'| |];
      cbn in F; try contradiction.
    destruct F as (-> & <- & A). exists t'. split; [reflexivity|].
    rewrite progress_position, (pedestrian_position _ _ _ A). reflexivity.
  Qed.

  Lemma reached_again : forall (S : Type) act0 fuel t cur r (s : S) t' c' n,
    reachable vehicle_tree t cur ->
    update leaf_name act0 fuel 0 t (Context r cur s) = Returned t' c' n ->
    reachable vehicle_tree t' (ctx_action c').
  Proof.
    intros S act0 fuel t cur r s t' c' n R U.
    exact (R_frame vehicle_tree S t cur act0 fuel (Context r cur s) t' c' n R eq_refl U).
  Qed.

  Lemma legal : forall t cur, reachable vehicle_tree t cur ->
    position_of t = Free \/ exists l, position_of t = Busy l /\ In l vehicle_order.
  Proof.
    intros t cur R. pose proof (vehicle_reached t cur R) as A.
    destruct (position_of t) as [|l]; [left; reflexivity|]. right. exists l.
    destruct A as (I & _). split; [reflexivity | exact I].
  Qed.

  (** Free to choose among the lane's actions. *)
  Definition choosing (t : node leaf) : Prop :=
    in_progress t = None \/ in_progress t = Some FollowLane.

  Lemma choosing_turn : forall t r s, choosing t -> lane_following r = true ->
    exists s0, turn act (consulted vehicle_order (position_of t)) r s = turn act lane_order r s0
      /\ entity E s0 = entity E s /\ moves E s0 = moves E s
      /\ (position_of t = Free \/ position_of t = Busy FollowLane).
  Proof.
    intros t r s [C|C] F; rewrite (position_progress _ _ C).
    - exists (State E (entity E s) None (moves E s)). split; [|repeat split; left; reflexivity].
      change (consulted vehicle_order Free) with (LaneChange :: FollowTrajectory :: lane_order).
      remember lane_order as lo. cbn [turn].
      rewrite lane_change_other by (destruct r; easy).
      replace (dropped LaneChange r) with r by (destruct r; easy).
      rewrite trajectory_other by (destruct r; easy).
      replace (dropped FollowTrajectory r) with r by (destruct r; easy). reflexivity.
    - exists s. split; [reflexivity|]. repeat split. right. reflexivity.
  Qed.

  (** A pass that ends a frame. *)
  Lemma acts_frame : forall q r s fuel l st r' s',
    turn act (consulted vehicle_order q) r s = Some (Acts l st r' s') ->
    (st = Running \/ st = Success /\ is_busy q l = false /\ l <> LaneChange) ->
    In l vehicle_order ->
    list_frame vehicle_order before_vehicle act (S fuel) 0 q r s
    = match st with
      | Running => (Did (leaf_name l) r' s' 1, Busy l)
      | _ => (Did (before_vehicle l) r' s' 1, Free)
      end.
  Proof.
    intros q r s fuel l st r' s' T [-> | (-> & B & N)] I; cbn [list_frame]; rewrite T;
      [reflexivity|]. rewrite B.
    replace (String.eqb (before_vehicle l) "root") with false; [reflexivity|].
    destruct l; try congruence; try reflexivity. cbn in I.
    repeat (destruct I as [I|I]; [discriminate I|]). contradiction.
  Qed.
End Did.
