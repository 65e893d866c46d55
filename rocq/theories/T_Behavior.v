(** * C107 to C111: the order of the actions, the end of a frame, what a vehicle decides *)

From Coq Require Import String List Bool QArith Qminmax Lqa Lia.
From Verif Require Import M_Behavior S_Behavior P_Behavior P_Behavior2 P_Behavior3 P_Behavior4.
Import ListNotations.
Open Scope Q_scope.

(** ** C107: the tree is an ordered list of actions with a memory of the one in progress *)

(** Whatever the actions answer, and whatever requests and states come in between, the tree shows
    the same history of actions, requests, states and numbers of passes as the list. *)
Theorem C107_vehicle : forall (S : Type) (fuel : nat) (cs : list (circumstances S)),
  tree_history fuel vehicle_tree "" cs = list_history vehicle_order before_vehicle fuel Free cs.
Proof.
  intros. apply (history_refines _ _ _ vehicle_rule). exists Idle. split; [discriminate | reflexivity].
Qed.

Theorem C107_pedestrian : forall (S : Type) (fuel : nat) (cs : list (circumstances S)),
  tree_history fuel pedestrian_tree "" cs
  = list_history pedestrian_order before_pedestrian fuel Free cs.
Proof.
  intros. apply (history_refines _ _ _ pedestrian_rule). exists Idle. split; [discriminate | reflexivity].
Qed.

Lemma busy_position : forall t l, in_progress t = Some l <-> position_of t = Busy l.
Proof.
  intros t l. unfold position_of. destruct (in_progress t); split; intros H; try discriminate;
    injection H as ->; reflexivity.
Qed.

Lemma free_position : forall t, in_progress t = None <-> position_of t = Free.
Proof. intros t. unfold position_of. destruct (in_progress t); split; intros H; easy. Qed.

(** The current action is the one in progress, which is one of the vehicle's (pedestrian's). *)
Theorem C107_current : forall t cur l,
  (reachable vehicle_tree t cur -> in_progress t = Some l ->
     cur = leaf_name l /\ In l vehicle_order)
  /\ (reachable pedestrian_tree t cur -> in_progress t = Some l ->
     cur = leaf_name l /\ In l pedestrian_order).
Proof.
  intros t cur l. split; intros R P; apply busy_position in P.
  - pose proof (vehicle_reached t cur R) as A. rewrite P in A. destruct A as (I & _ & C). tauto.
  - pose proof (pedestrian_reached t cur R) as A. rewrite P in A. destruct A as (I & _ & C). tauto.
Qed.

(** An action in progress that goes on is the only one that is asked: whatever the others would
    do, the tree stays as it is. *)
Theorem C107_keeps : forall (S : Type) (act : leaf -> request -> S -> option (bt_status * S))
  t cur l r s s' k,
  reachable vehicle_tree t cur \/ reachable pedestrian_tree t cur ->
  in_progress t = Some l -> act l r s = Some (Running, s') ->
  update leaf_name act (1 + k) 0 t (Context r cur s) = Returned t (Context r (leaf_name l) s') 1.
Proof.
  intros S act t cur l r s s' k R P A. apply busy_position in P. cbn [Nat.add update].
  destruct R as [R|R].
  - pose proof (vehicle_reached t cur R) as AT. rewrite P in AT.
    pose proof (vehicle_tick act (Busy l) t cur r s AT) as T. destruct AT as (I & -> & ->).
    assert (C : exists rest, consulted vehicle_order (Busy l) = l :: rest).
    { cbn in I. destruct I as [<- | [<- | [<- | [<- | [<- | [<- | [<- | [<- | [<- | []]]]]]]]]];
        eexists; reflexivity. }
    destruct C as (rest & C). rewrite C in T. cbn [turn] in T. rewrite A in T. cbn [leaves] in T.
    destruct T as (t' & -> & (_ & -> & _)). cbn [ctx_action]. rewrite leaf_name_not_root. reflexivity.
  - pose proof (pedestrian_reached t cur R) as AT. rewrite P in AT.
    pose proof (pedestrian_tick act (Busy l) t cur r s AT) as T. destruct AT as (I & -> & ->).
    assert (C : exists rest, consulted pedestrian_order (Busy l) = l :: rest).
    { cbn in I. destruct I as [<- | [<- | [<- | []]]]; eexists; reflexivity. }
    destruct C as (rest & C). rewrite C in T. cbn [turn] in T. rewrite A in T. cbn [leaves] in T.
    destruct T as (t' & -> & (_ & -> & _)). cbn [ctx_action]. rewrite leaf_name_not_root. reflexivity.
Qed.

(** A history with all kinds of answers: somebody acts, goes on, ends; nobody acts; an action that
    ends at once. *)
Definition answers (l0 : leaf) (st : bt_status) (l : leaf) (_ : request) (s : nat)
  : option (bt_status * nat) :=
  if leaf_eqb l l0 then Some (st, Datatypes.S s) else Some (Failure, s).

Example C107_example :
  list_history vehicle_order before_vehicle 3 Free
    [ Circumstances (answers StopAtStopLine Running) NoRequest 0%nat;
      Circumstances (answers StopAtStopLine Success) FollowLaneR 1%nat;
      Circumstances (answers LaneChange Running) LaneChangeR 2%nat;
      Circumstances (answers LaneChange Success) LaneChangeR 3%nat;
      Circumstances (answers Yield Success) LaneChangeR 4%nat;
      Circumstances (answers WalkStraight Success) FollowLaneR 5%nat ]
  = [ Did "stop_at_stop_line" NoRequest 1%nat 1%nat;
      Did "stop_at_stop_line" FollowLaneR 2%nat 1%nat;
      Did "lane_change" LaneChangeR 3%nat 1%nat;
      Did "lane_change" NoRequest 4%nat 1%nat;
      Did "stop_at_crossing_entity" NoRequest 5%nat 1%nat;
      Endless ].
Proof. reflexivity. Qed.

(** ** C108: a frame comes to an end *)

Section Frames.
  Context {E : Type}.

  Definition frame_ends (o : updated leaf (state E)) (passes : nat) : Prop :=
    match o with Returned _ _ n => (n <= passes)%nat | Threw => True | Looping => False end.

  Lemma vehicle_legal : forall t cur, reachable vehicle_tree t cur ->
    position_of t = Free \/ exists l, position_of t = Busy l /\ In l vehicle_order.
  Proof.
    intros t cur R. pose proof (vehicle_reached t cur R) as A.
    destruct (position_of t) as [|l]; [left; reflexivity|]. right. exists l.
    destruct A as (I & _). split; [reflexivity | exact I].
  Qed.

  (** At most three passes, for all requests a vehicle can get, as long as there is no lane change
      to the lane the vehicle has just landed on. *)
  Theorem C108_vehicle : forall (w : world E) p t cur r s k,
    reachable vehicle_tree t cur -> r <> WalkStraightR ->
    (forall x e, plan_curve_from E w (land E w x e) = None) ->
    frame_ends (vehicle_frame E w p (3 + k) t (Context r cur s)) 3.
  Proof.
    intros w p t cur r s k R NW P.
    pose proof (vehicle_frame_list _ (vehicle_act E w p) (3 + k) t cur r s R) as F.
    pose proof (vehicle_passes w p k (position_of t) r s NW P (vehicle_legal t cur R)) as W.
    unfold vehicle_frame, frame_ends.
    destruct (list_frame _ _ _ (3 + k) 0 (position_of t) r s) as [[a r' s' n| |] q'];
      destruct (update _ _ (3 + k) 0 t (Context r cur s)) as [t' c' n'| |];
      cbn [same_frame within_passes] in F, W; try contradiction; try exact I.
    destruct F as (_ & <- & _). exact W.
  Qed.

  (** Refuted for a vehicle that is told to walk straight (the API refuses this request): no number
      of passes is enough. *)
  Theorem C108_walk_refuted : forall (w : world E) p t cur s fuel,
    reachable vehicle_tree t cur ->
    vehicle_frame E w p fuel t (Context WalkStraightR cur s) = Looping.
  Proof.
    intros w p t cur s fuel R.
    pose proof (vehicle_frame_list _ (vehicle_act E w p) fuel t cur WalkStraightR s R) as F.
    pose proof (vehicle_walk w p fuel (position_of t) 0 s (vehicle_legal t cur R)) as W.
    unfold vehicle_frame.
    destruct (list_frame _ _ _ fuel 0 (position_of t) WalkStraightR s) as [[a r' s' n| |] q'];
      cbn [fst] in W; try discriminate W.
    destruct (update _ _ fuel 0 t (Context WalkStraightR cur s)); cbn in F; try contradiction.
    reflexivity.
  Qed.

  (** Refuted for lane changes that end in their first frame when the next one can be planned from
      where the vehicle lands. *)
  Theorem C108_instant_refuted : forall (w : world E) p t cur s fuel cu q,
    reachable vehicle_tree t cur -> in_progress t = None -> plan E s = None ->
    lane_change p = Some q -> lc_policy q = Force -> lc_constraint q = NoConstraint ->
    target_speed p = None -> 0 <= step p ->
    (forall e, in_lane E w e = true) -> (forall e, plan_curve_from E w e = Some cu) ->
    (forall e v a, speed E w (with_speed E w v a e) = v) -> (forall e, 0 <= speed E w e) ->
    curve_length cu <= 0 ->
    vehicle_frame E w p fuel t (Context LaneChangeR cur s) = Looping.
  Proof.
    intros w p t cur s fuel cu q R FR NP LC PO CO TS ST IL PC WS SP LE.
    apply free_position in FR.
    pose proof (vehicle_frame_list _ (vehicle_act E w p) fuel t cur LaneChangeR s R) as F.
    rewrite FR in F.
    assert (W : forall fuel done s, plan E s = None ->
              fst (list_frame vehicle_order before_vehicle (vehicle_act E w p) fuel done Free
                     LaneChangeR s) = Endless).
    { clear - LC PO CO TS ST IL PC WS SP LE. induction fuel as [|fuel IH]; intros done s NP; [reflexivity|].
      cbn [list_frame].
      change (consulted vehicle_order Free) with (LaneChange :: FollowTrajectory :: lane_order).
      cbn [turn vehicle_act]. unfold change_lane. rewrite LC, NP, IL, PC. cbn [negb].
      unfold lane_velocity. rewrite TS, CO. unfold lane_step, lane_speed. rewrite PO.
      cbn [plan_curve plan_s plan_velocity].
      match goal with |- context [if lt ?a ?b then _ else _] =>
        replace (lt a b) with false by (symmetry; apply lt_false; rewrite WS;
          pose proof (SP (entity E s)); nra) end.
      match goal with |- context [if lt ?a ?b then _ else _] =>
        replace (lt a b) with false by (symmetry; apply lt_false; apply SP) end.
      cbn [is_busy before_vehicle String.eqb Ascii.eqb Bool.eqb]. apply IH. reflexivity. }
    specialize (W fuel 0%nat s NP). unfold vehicle_frame.
    destruct (list_frame _ _ _ fuel 0 Free LaneChangeR s) as [[a r' s' n| |] q'];
      cbn [fst] in W; try discriminate W.
    destruct (update _ _ fuel 0 t (Context LaneChangeR cur s)); cbn in F; try contradiction.
    reflexivity.
  Qed.

  Lemma pedestrian_legal : forall t cur, reachable pedestrian_tree t cur ->
    position_of t = Free \/ exists l, position_of t = Busy l /\ In l pedestrian_order.
  Proof.
    intros t cur R. pose proof (pedestrian_reached t cur R) as A.
    destruct (position_of t) as [|l]; [left; reflexivity|]. right. exists l.
    destruct A as (I & _). split; [reflexivity | exact I].
  Qed.

  Lemma running_cases : forall (o : option (state E)),
    (exists s, running E o = Some (Running, s)) \/ running E o = None.
  Proof. intros [s|]; [left; exists s; reflexivity | right; reflexivity]. Qed.

  (** Two passes are enough for a pedestrian, for all requests it can get. *)
  Theorem C108_pedestrian : forall (w : world E) p t cur r s k,
    reachable pedestrian_tree t cur -> r <> LaneChangeR ->
    frame_ends (pedestrian_frame E w p (2 + k) t (Context r cur s)) 2.
  Proof.
    intros w p t cur r s k R NW.
    pose proof (pedestrian_frame_list _ (pedestrian_act E w p) (2 + k) t cur r s R) as F.
    assert (LF : forall r s, lane_following r = true ->
              (exists s', walk_lane E w p r s = Some (Running, s')) \/ walk_lane E w p r s = None).
    { clear. intros r s H. unfold walk_lane. rewrite H. cbn [negb].
      destruct (negb (in_lane E w (entity E s))); [left; eexists; reflexivity|]. apply running_cases. }
    assert (LN : forall r s, lane_following r = false -> walk_lane E w p r s = Some (Failure, s))
      by (intros r0 s0 H; unfold walk_lane; rewrite H; reflexivity).
    assert (TN : forall r s, r <> FollowPolylineR -> follow_trajectory E w r s = Some (Failure, s))
      by (intros r0 s0 H; destruct r0; try congruence; reflexivity).
    assert (WN : forall r s, r <> WalkStraightR -> walk_straight E w p r s = Some (Failure, s))
      by (intros r0 s0 H; destruct r0; try congruence; reflexivity).
    assert (W1 : forall f done r s, lane_following r = true -> (S done <= 2)%nat ->
              within_passes 2 (list_frame pedestrian_order before_pedestrian (pedestrian_act E w p)
                                 (S f) done Free r s)).
    { intros f done r0 s0 H D. cbn [list_frame consulted pedestrian_order].
      unfold pedestrian_order at 1. cbn [turn pedestrian_act].
      destruct (LF r0 s0 H) as [(s' & ->) | ->]; [cbn; exact D | exact I]. }
    assert (W : within_passes 2 (list_frame pedestrian_order before_pedestrian
                                   (pedestrian_act E w p) (2 + k) 0 (position_of t) r s)).
    { destruct (pedestrian_legal t cur R) as [-> | (l & -> & L)];
        [|cbn in L; destruct L as [<- | [<- | [<- | []]]]];
        cbn [Nat.add]; remember (S k) as f eqn:FE; cbn [list_frame consulted];
        unfold pedestrian_order at 1; cbn [from_on leaf_eqb turn pedestrian_act];
        destruct r; try congruence;
        repeat first
          [ rewrite LN by reflexivity
          | rewrite TN by discriminate
          | rewrite WN by discriminate
          | progress cbn [dropped request_of request_eqb] ];
        try (destruct (LF NoRequest s eq_refl) as [(s' & ->) | ->]; [cbn; lia | exact I]);
        try (destruct (LF FollowLaneR s eq_refl) as [(s' & ->) | ->]; [cbn; lia | exact I]);
        try (cbn [walk_straight]; cbn; lia);
        try (subst f; apply W1; [reflexivity | lia]);
        try (unfold follow_trajectory; destruct (negb (trajectory E w (entity E s)));
             [cbn [fail]; subst f; apply W1; [reflexivity | lia]
             | destruct (follow E w (entity E s)); [cbn; lia | cbn; lia | exact I]]).
      subst f. cbn [list_frame consulted]. unfold pedestrian_order at 1.
      cbn [turn pedestrian_act]. rewrite (LN WalkStraightR) by reflexivity.
      cbn [dropped request_of request_eqb walk_straight]. cbn. lia. }
    unfold pedestrian_frame, frame_ends.
    destruct (list_frame _ _ _ (2 + k) 0 (position_of t) r s) as [[a r' s' n| |] q'];
      destruct (update _ _ (2 + k) 0 t (Context r cur s)) as [t' c' n'| |];
      cbn [same_frame within_passes] in F, W; try contradiction; try exact I.
    destruct F as (_ & <- & _). exact W.
  Qed.

  (** Refuted for a pedestrian that is told to change lanes (which the API refuses). *)
  Theorem C108_lane_change_refuted : forall (w : world E) p t cur s fuel,
    reachable pedestrian_tree t cur ->
    pedestrian_frame E w p fuel t (Context LaneChangeR cur s) = Looping.
  Proof.
    intros w p t cur s fuel R.
    pose proof (pedestrian_frame_list _ (pedestrian_act E w p) fuel t cur LaneChangeR s R) as F.
    assert (W0 : forall fuel done s,
              fst (list_frame pedestrian_order before_pedestrian (pedestrian_act E w p) fuel done Free
                     LaneChangeR s) = Endless).
    { clear. induction fuel as [|fuel IH]; intros done s; [reflexivity|]. apply IH. }
    assert (W : fst (list_frame pedestrian_order before_pedestrian (pedestrian_act E w p) fuel 0
                       (position_of t) LaneChangeR s) = Endless).
    { destruct (pedestrian_legal t cur R) as [-> | (l & -> & L)]; [apply W0|].
      destruct fuel as [|fuel]; [reflexivity|].
      cbn in L. destruct L as [<- | [<- | [<- | []]]]; apply W0. }
    unfold pedestrian_frame.
    destruct (list_frame _ _ _ fuel 0 (position_of t) LaneChangeR s) as [[a r' s' n| |] q'];
      cbn [fst] in W; try discriminate W.
    destruct (update _ _ fuel 0 t (Context LaneChangeR cur s)); cbn in F; try contradiction.
    reflexivity.
  Qed.
End Frames.
