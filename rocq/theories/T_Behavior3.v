(** * C112 to C114: what the memory of the tree does, moves per frame, the life of a request *)

From Coq Require Import String List Bool QArith Qminmax Lqa Lia.
From Verif Require Import M_Behavior S_Behavior P_Behavior P_Behavior2 P_Behavior3 P_Behavior4
  P_Behavior5 T_Behavior2.
Import ListNotations.
Open Scope Q_scope.

Section Memory.
  Context {E : Type}.
  Variables (w : world E) (p : settings).

  (** ** C112, continued *)

  (** Refuted: when the two ways to look ahead disagree, neither the stop line nor the entity
      before it is respected.  The entity is seen along the lane (so the stop line is left to the
      following action) but not along the path (so there is nobody to follow). *)
  Theorem C112_detectors_refuted : forall t cur r s d f g a,
    reachable vehicle_tree t cur -> in_progress t = None \/ in_progress t = Some FollowLane ->
    cruising w p r s -> see_around p = true -> right_of_way E w = false ->
    by_path p = true -> path_front E w (entity E s) = None ->
    lane_front E w (entity E s) = Some f -> gap_threshold f = Some g -> g <= d ->
    light_line E w (entity E s) = None -> conflict E w (entity E s) = None ->
    stop_line E w (entity E s) = Some d ->
    d <= stop_distance E w (entity E s) + length_ p / 2 + 5 ->
    aim w p (entity E s) a ->
    exists x, x == a /\ drove w p t cur r s Yield x "stop_at_crossing_entity" None.
  Proof using.
    intros t cur r s d f g a R P CR A N BP PF LF GT GD LL CO SL NEAR AM.
    assert (D : decision w p (entity E s) Yield a).
    { apply D_through; try assumption.
      - split; [exact A|]. right. right. right. left. rewrite SL. exact NEAR.
      - intros g' v (G & _). inversion G; congruence.
      - intros u (U & _). congruence.
      - intros u (U & V & _). rewrite SL in U. injection U as <-. apply V. exists g.
        split; [exact (S_lane w _ f g LF GT) | exact GD].
      - intros u (U & _). congruence. }
    destruct (decided w p t cur r s _ _ R P CR D) as (x & Y & [[Z _] | (_ & _ & DR)]).
    - specialize (Z eq_refl). congruence.
    - exists x. split; [exact Y | exact DR].
  Qed.

  (** A vehicle that stands before a stop line goes on aiming at zero unless it is close to it. *)
  Lemma standing_line : forall e d x, speed E w e == 0 -> length_ p + 5 < d ->
    (forall v, target_speed p = Some v -> 0 <= v) -> at_line w p e d x -> x == 0.
  Proof using.
    intros e d x V FAR T [(_ & H & _) | (_ & b & B & X)]; [lra|].
    assert (B0 : b == 0) by (destruct B as [[_ B] | [_ B]]; lra).
    destruct X as [[_ X] | (v & TV & X)]; [lra|]. specialize (T v TV).
    assert (BV : b <= v) by lra. pose proof (Q.min_r v b BV) as MR. lra.
  Qed.

  Lemma stuck_again : forall e d,
    in_lane E w e = true -> speed E w e == 0 -> orderly w p e ->
    see_around p = true -> right_of_way E w = false ->
    stop_line_first w e d -> length_ p + 5 < d ->
    (forall v, target_speed p = Some v -> 0 <= v) ->
    (forall x, x == 0 -> advance E w x e = e) ->
    forall n t cur r s, reachable vehicle_tree t cur -> in_progress t = Some StopAtStopLine ->
      (r = NoRequest \/ r = FollowLaneR) -> entity E s = e ->
      exists t' r' s',
        frames w p n t (Context r cur s) = Some (t', Context r' "stop_at_stop_line" s')
        /\ entity E s' = e /\ in_progress t' = Some StopAtStopLine.
  Proof using.
    intros e d L V O A N FI FAR T ST.
    induction n as [|n IH]; intros t cur r s R P RQ EN.
    - exists t, r, s. cbn [frames]. pose proof (vehicle_reached t cur R) as AT.
      rewrite (position_progress _ _ P) in AT. destruct AT as (_ & _ & ->).
      split; [reflexivity|]. split; assumption.
    - assert (CR : cruising w p r s).
      { split; [exact RQ|]. rewrite EN. split; [exact L|]. split; [lra | exact O]. }
      rewrite <- EN in FI.
      destruct (C112_stop_line w p t cur r s d R (or_intror P) CR A N FI) as (x & AL & DR).
      rewrite EN in AL. pose proof (standing_line e d x V FAR T AL) as X.
      destruct (DR 2%nat) as (t1 & r1 & s1 & U & E1 & _ & P1 & R1). cbn [frames Nat.add] in U |- *.
      rewrite U. apply IH.
      + apply (reached_again _ _ _ _ _ _ _ _ _ _ R U).
      + exact P1.
      + destruct R1 as [-> | ->]; [exact RQ | left; reflexivity].
      + rewrite E1, EN. apply ST. exact X.
  Qed.

  (** Refuted: a vehicle that came to stand for another reason (a red light, an entity ahead) and
      is then left with a stop line further away than its length and 5 m never starts again. *)
  Theorem C112_stuck_refuted : forall t cur r s d l n,
    reachable vehicle_tree t cur -> in_progress t = Some l ->
    l = FollowFrontEntity \/ l = StopAtTrafficLight \/ l = StopAtStopLine ->
    cruising w p r s -> see_around p = true -> right_of_way E w = false ->
    speed E w (entity E s) == 0 ->
    (forall g v, ~ front_first w p (entity E s) g v) ->
    (forall d', ~ red_light w (entity E s) d') ->
    stop_line_first w (entity E s) d -> length_ p + 5 < d ->
    (forall x, x == 0 -> advance E w x (entity E s) = entity E s) ->
    exists t' r' s',
      frames w p (1 + n) t (Context r cur s) = Some (t', Context r' "stop_at_stop_line" s')
      /\ entity E s' = entity E s /\ in_progress t' = Some StopAtStopLine.
  Proof using.
    intros t cur r s d l n R P LL CR A N V NF NL FI FAR ST.
    pose proof (cruising_following w p r s CR) as F. pose proof CR as (RQ & L & V0 & O).
    assert (T : forall v, target_speed p = Some v -> 0 <= v).
    { intros v TV. destruct O as (O & _). apply O. left. exact TV. }
    assert (W : 0 <= wanted E w p (entity E s))
      by (destruct O as (O & _); apply O; apply aim_wanted; reflexivity).
    destruct (front_decides w p r s F L V0 A N W) as [(? & ? & ? & X & _) | [_ DF]];
      [exfalso; exact (NF _ _ X)|].
    destruct (light_decides w p r s F L V0 A N) as [(? & ? & X & _) | [_ DL]];
      [exfalso; exact (NL _ X)|].
    destruct (line_decides w p r s F L V0 A N) as [(d' & x & X & AL & DS) | [NF' _]];
      [|exfalso; exact (NF' _ FI)].
    assert (d' = d) as ->.
    { destruct FI as [Y _], X as [Z _]. rewrite Y in Z. injection Z as ->. reflexivity. }
    pose proof (standing_line (entity E s) d x V FAR T AL) as X0.
    assert (TU : turn (vehicle_act E w p) (consulted vehicle_order (position_of t)) r s
                 = Some (Acts StopAtStopLine Running r
                           (moved E StopAtStopLine (Drive x) (advance E w x (entity E s)) s))).
    { rewrite (position_progress _ _ P).
      change (follow_front_entity E w p r s) with (vehicle_act E w p FollowFrontEntity r s) in DF.
      change (stop_at_traffic_light E w p r s) with (vehicle_act E w p StopAtTrafficLight r s) in DL.
      change (stop_at_stop_line E w p r s) with (vehicle_act E w p StopAtStopLine r s) in DS.
      destruct LL as [-> | [-> | ->]]; cbn [consulted]; unfold vehicle_order;
        cbn [from_on leaf_eqb turn]; rewrite ?DF; cbn [dropped request_of]; rewrite ?DL;
        cbn [dropped request_of]; rewrite DS; reflexivity. }
    pose proof (acts_frame w p _ _ _ 2 StopAtStopLine Running _ _ TU (or_introl eq_refl)
                  ltac:(cbn; tauto)) as LF.
    destruct (vehicle_did w p t cur r s 3 _ _ _ _ _ R LF) as (t1 & U & PR & _).
    cbn [Nat.add frames]. rewrite U. cbn [progress_of] in PR.
    apply (stuck_again (entity E s) d); try assumption.
    - apply (reached_again _ _ _ _ _ _ _ _ _ _ R U).
    - cbn [moved entity]. apply ST. exact X0.
  Qed.

  (** ** C113: how often a vehicle is moved in a frame *)

  (** Forwards on a lane it is moved once. *)
  Theorem C113_once : forall t cur r s,
    reachable vehicle_tree t cur -> in_progress t = None \/ in_progress t = Some FollowLane ->
    cruising w p r s ->
    forall k, exists t' r' a s' l x,
      vehicle_frame E w p (1 + k) t (Context r cur s) = Returned t' (Context r' a s') 1
      /\ moves E s' = (l, Drive x) :: moves E s /\ entity E s' = advance E w x (entity E s).
  Proof using.
    intros t cur r s R P CR k. destruct (C109_decision w p t cur r s R P CR) as (l & x & _ & D).
    destruct D as [[_ D] | (_ & _ & D)]; destruct (D k) as (t' & r' & s' & U & E1 & M & _);
      exists t', r'; eexists; exists s', l, x; (split; [exact U|]; split; assumption).
  Qed.

  Lemma reversing_declines : forall r s, lane_following r = true ->
    in_lane E w (entity E s) = true -> speed E w (entity E s) < 0 ->
    follow_lane E w p r s = fail E s /\ follow_front_entity E w p r s = fail E s
    /\ stop_at_traffic_light E w p r s = fail E s /\ stop_at_stop_line E w p r s = fail E s
    /\ stop_at_crossing_entity E w p r s = fail E s.
  Proof using.
    intros r s F L V. apply lt_true in V.
    unfold follow_lane, follow_front_entity, stop_at_traffic_light, stop_at_stop_line,
      stop_at_crossing_entity. rewrite F, L, V. cbn [negb].
    repeat split; destruct (right_of_way E w), (see_around p); reflexivity.
  Qed.

  (** Refuted for a vehicle that begins to move backwards and sees around: YieldAction moves it
      before it declines, and MoveBackwardAction moves it again in the same frame. *)
  Theorem C113_twice_refuted : forall t cur r s,
    reachable vehicle_tree t cur -> in_progress t = None \/ in_progress t = Some FollowLane ->
    (r = NoRequest \/ r = FollowLaneR) -> in_lane E w (entity E s) = true ->
    speed E w (entity E s) < 0 -> see_around p = true ->
    (forall x, in_lane E w (advance E w x (entity E s)) = true
               /\ speed E w (advance E w x (entity E s)) < 0) ->
    forall k, exists t' r' s' x y,
      vehicle_frame E w p (1 + k) t (Context r cur s) = Returned t' (Context r' "move_backward" s') 1
      /\ entity E s' = advance E w y (advance E w x (entity E s))
      /\ moves E s' = (MoveBackward, Drive y) :: (Yield, Drive x) :: moves E s
      /\ in_progress t' = Some MoveBackward.
  Proof using.
    intros t cur r s R P RQ L V A ADV k.
    assert (F : lane_following r = true) by (destruct RQ as [-> | ->]; reflexivity).
    destruct (choosing_turn w p t r s P F) as (s0 & T & E0 & M0 & Q). rewrite <- E0 in L, V, ADV.
    assert (DR : dropped FollowLane r = NoRequest) by (destruct RQ as [-> | ->]; reflexivity).
    destruct (reversing_declines r s0 F L V) as (D1 & _).
    destruct (reversing_declines NoRequest s0 eq_refl L V) as (_ & D2 & D3 & D4 & D5).
    assert (Y : exists x, yield E w p NoRequest s0
                = fail E (moved E Yield (Drive x) (advance E w x (entity E s0)) s0)).
    { unfold yield, drive. rewrite A, L. cbn [negb lane_following].
      destruct (right_of_way E w); cbn [negb yielded moved entity]; eexists;
        rewrite (proj1 (ADV _)); cbn [negb];
        rewrite (proj2 (lt_true _ _) (proj2 (ADV _))); reflexivity. }
    destruct Y as (x & Y).
    assert (B : exists y, move_backward E w p NoRequest
                  (moved E Yield (Drive x) (advance E w x (entity E s0)) s0)
                = Some (Running, moved E MoveBackward (Drive y)
                    (advance E w y (advance E w x (entity E s0)))
                    (moved E Yield (Drive x) (advance E w x (entity E s0)) s0))).
    { unfold move_backward, drive. cbn [moved entity lane_following negb].
      rewrite (proj1 (ADV x)). rewrite (proj2 (lt_true _ _) (proj2 (ADV x))). cbn [negb running].
      eexists. reflexivity. }
    destruct B as (y & B).
    assert (TU : turn (vehicle_act E w p) lane_order r s0
                 = Some (Acts MoveBackward Running NoRequest
                     (moved E MoveBackward (Drive y) (advance E w y (advance E w x (entity E s0)))
                        (moved E Yield (Drive x) (advance E w x (entity E s0)) s0)))).
    { unfold lane_order, selector_order. cbn [turn vehicle_act]. rewrite D1. unfold fail at 1.
      rewrite DR, D2. unfold fail at 1. cbn [dropped request_of]. rewrite D3. unfold fail at 1.
      cbn [dropped request_of]. rewrite D4. unfold fail at 1. cbn [dropped request_of]. rewrite D5.
      unfold fail at 1. cbn [dropped request_of]. rewrite Y. unfold fail at 1.
      cbn [dropped request_of]. rewrite B. reflexivity. }
    rewrite TU in T.
    pose proof (acts_frame w p _ _ _ k MoveBackward Running _ _ T (or_introl eq_refl)
                  ltac:(cbn; tauto)) as LF.
    destruct (vehicle_did w p t cur r s (S k) _ _ _ _ _ R LF) as (t1 & U & PR & _).
    exists t1. eexists. eexists. exists x, y. split; [exact U|]. cbn [moved entity moves].
    rewrite <- E0, <- M0. repeat split. exact PR.
  Qed.

  (** From then on once. *)
  Theorem C113_backwards : forall t cur r s,
    reachable vehicle_tree t cur -> in_progress t = Some MoveBackward ->
    (r = NoRequest \/ r = FollowLaneR) -> in_lane E w (entity E s) = true ->
    speed E w (entity E s) < 0 ->
    exists x, (target_speed p = Some x \/ target_speed p = None /\ x = back_limit E w (entity E s))
      /\ drove w p t cur r s MoveBackward x "move_backward" (Some MoveBackward).
  Proof using.
    intros t cur r s R P RQ L V.
    assert (F : lane_following r = true) by (destruct RQ as [-> | ->]; reflexivity).
    exists (match target_speed p with Some v => v | None => back_limit E w (entity E s) end).
    split; [destruct (target_speed p); [left; reflexivity | right; split; reflexivity]|].
    apply goes_on; [exact R | exact P|]. cbn [vehicle_act]. unfold move_backward, drive.
    rewrite F, L. rewrite (proj2 (lt_true _ _) V). reflexivity.
  Qed.

  (** ** C114: the life of a request *)

  (** A request for something else than the lane, while an action of the lane is in progress: that
      action and those after it decline, and the whole list is asked in a second pass. *)
  Lemma second_pass : forall q r s fuel, lane_following r = false ->
    (exists l, q = Busy l /\ In l lane_order) ->
    list_frame vehicle_order before_vehicle (vehicle_act E w p) (S fuel) 0 q r s
    = list_frame vehicle_order before_vehicle (vehicle_act E w p) fuel 1 Free r s.
  Proof using.
    intros q r s fuel F (l & -> & L). remember fuel as f. cbn [list_frame consulted].
    rewrite others_decline; [reflexivity | exact F|].
    intros k K. destruct (vehicle_busy_lane l L) as (_ & N1 & N2).
    change vehicle_order with (LaneChange :: FollowTrajectory :: lane_order) in K.
    cbn [from_on] in K. rewrite N1, N2 in K. apply (from_on_in _ _ _ K).
  Qed.

  Lemma positions : forall t cur, reachable vehicle_tree t cur ->
    position_of t = Free \/ position_of t = Busy LaneChange \/ position_of t = Busy FollowTrajectory
    \/ exists l, position_of t = Busy l /\ In l lane_order.
  Proof using.
    intros t cur R. destruct (legal t cur R) as [H | (l & H & [<- | [<- | L]])]; auto.
    right. right. right. exists l. split; assumption.
  Qed.

  (** A request to follow a trajectory takes effect in the frame that sees it, whatever was in
      progress, and stays until the trajectory ends. *)
  Theorem C114_trajectory_taken : forall t cur s e' k,
    reachable vehicle_tree t cur -> trajectory E w (entity E s) = true ->
    follow E w (entity E s) = Moved e' ->
    exists t' s' n,
      vehicle_frame E w p (2 + k) t (Context FollowPolylineR cur s)
      = Returned t' (Context FollowPolylineR "follow_polyline_trajectory" s') n
      /\ entity E s' = e' /\ moves E s' = (FollowTrajectory, Track) :: moves E s
      /\ in_progress t' = Some FollowTrajectory.
  Proof using.
    intros t cur s e' k R TR FO.
    assert (W : forall pl, follow_trajectory E w FollowPolylineR (State E (entity E s) pl (moves E s))
                = Some (Running, State E e' pl ((FollowTrajectory, Track) :: moves E s))).
    { intros pl. unfold follow_trajectory. cbn [entity]. rewrite TR, FO. reflexivity. }
    assert (ES : s = State E (entity E s) (plan E s) (moves E s)) by (destruct s; reflexivity).
    assert (FR : forall f done,
              list_frame vehicle_order before_vehicle (vehicle_act E w p) (S f) done Free
                FollowPolylineR s
              = (Did "follow_polyline_trajectory" FollowPolylineR
                   (State E e' None ((FollowTrajectory, Track) :: moves E s)) (S done),
                 Busy FollowTrajectory)).
    { intros f done. cbn [list_frame consulted vehicle_order]. unfold vehicle_order at 1.
      cbn [turn]. rewrite lane_change_other by discriminate. cbn [dropped request_of request_eqb].
      cbn [vehicle_act]. rewrite W. reflexivity. }
    assert (X : exists s' n q, list_frame vehicle_order before_vehicle (vehicle_act E w p) (2 + k) 0
                  (position_of t) FollowPolylineR s
                = (Did "follow_polyline_trajectory" FollowPolylineR s' n, q)
                /\ entity E s' = e' /\ moves E s' = (FollowTrajectory, Track) :: moves E s
                /\ q = Busy FollowTrajectory).
    { destruct (positions t cur R) as [-> | [-> | [-> | (l & LP & L)]]].
      - cbn [Nat.add]. rewrite FR. repeat eexists.
      - cbn [Nat.add list_frame consulted]. unfold vehicle_order at 1. cbn [from_on leaf_eqb turn].
        rewrite lane_change_other by discriminate. cbn [dropped request_of request_eqb vehicle_act].
        rewrite W. repeat eexists.
      - cbn [Nat.add list_frame consulted]. unfold vehicle_order at 1. cbn [from_on leaf_eqb turn vehicle_act].
        rewrite ES. rewrite W. repeat eexists.
      - cbn [Nat.add]. rewrite second_pass; [|reflexivity | exists l; split; assumption].
        rewrite FR. repeat eexists. }
    destruct X as (s' & n & q & X & E1 & M1 & ->).
    destruct (vehicle_did w p t cur _ s (2 + k) _ _ _ _ _ R X) as (t' & U & PR & _).
    exists t', s', n. repeat split; assumption.
  Qed.

  (** When the trajectory ends the request is dropped; the vehicle is not moved in that frame. *)
  Theorem C114_trajectory_ends : forall t cur s k,
    reachable vehicle_tree t cur -> in_progress t = Some FollowTrajectory ->
    trajectory E w (entity E s) = true -> follow E w (entity E s) = Finished ->
    exists t', vehicle_frame E w p (1 + k) t (Context FollowPolylineR cur s)
      = Returned t' (Context NoRequest "follow_polyline_trajectory" s) 1
      /\ in_progress t' = None.
  Proof using.
    intros t cur s k R P TR FO.
    assert (X : list_frame vehicle_order before_vehicle (vehicle_act E w p) (1 + k) 0
                  (position_of t) FollowPolylineR s
                = (Did "follow_polyline_trajectory" NoRequest s 1, Free)).
    { rewrite (position_progress _ _ P). cbn [Nat.add list_frame consulted].
      unfold vehicle_order at 1. cbn [from_on leaf_eqb turn vehicle_act]. unfold follow_trajectory.
      rewrite TR, FO. reflexivity. }
    destruct (vehicle_did w p t cur _ s (1 + k) _ _ _ _ _ R X) as (t' & U & PR & _).
    exists t'. split; assumption.
  Qed.

  (** Refuted for a trajectory that has ended in the very frame that sees the request: the request
      stays, and for as long as nothing else happens the vehicle is not moved at all. *)
  Theorem C114_frozen_refuted : forall t cur s n,
    reachable vehicle_tree t cur -> in_progress t = None ->
    trajectory E w (entity E s) = true -> follow E w (entity E s) = Finished ->
    exists t' s', frames w p (1 + n) t (Context FollowPolylineR cur s)
      = Some (t', Context FollowPolylineR "follow_trajectory_sequence" s')
      /\ entity E s' = entity E s /\ moves E s' = moves E s /\ in_progress t' = None.
  Proof using.
    intros t cur s n R P TR FO. revert t cur s R P TR FO.
    induction n as [|n IH]; intros t cur s R P TR FO.
    all: assert (X : list_frame vehicle_order before_vehicle (vehicle_act E w p) 3 0
                  (position_of t) FollowPolylineR s
                = (Did "follow_trajectory_sequence" FollowPolylineR
                     (State E (entity E s) None (moves E s)) 1, Free))
      by (rewrite (position_progress _ _ P); cbn [list_frame consulted];
          unfold vehicle_order at 1; cbn [turn];
          rewrite lane_change_other by discriminate; cbn [dropped request_of request_eqb vehicle_act];
          unfold follow_trajectory; cbn [entity]; rewrite TR, FO; reflexivity).
    all: destruct (vehicle_did w p t cur _ s 3 _ _ _ _ _ R X) as (t1 & U & PR & _).
    - cbn [Nat.add frames]. rewrite U. eexists. eexists. split; [reflexivity|]. repeat split. exact PR.
    - assert (FE : forall m, frames w p (S m) t (Context FollowPolylineR cur s)
                   = frames w p m t1 (Context FollowPolylineR "follow_trajectory_sequence"
                                       (State E (entity E s) None (moves E s))))
        by (intros m; cbn [frames]; rewrite U; reflexivity).
      change (1 + S n)%nat with (S (1 + n)). rewrite FE.
      apply (IH t1 "follow_trajectory_sequence"%string (State E (entity E s) None (moves E s)));
        [|exact PR | exact TR | exact FO].
      apply (reached_again _ _ _ _ _ _ _ _ _ _ R U).
  Qed.

  (** A request that cannot be met: no trajectory, no lane change parameters, or no curve to the
      target lane. *)
  Definition unmeetable (r : request) (s : state E) : Prop :=
    r = FollowPolylineR /\ trajectory E w (entity E s) = false
    \/ r = LaneChangeR /\ (lane_change p = None
                           \/ plan E s = None /\ plan_curve_from E w (entity E s) = None).

  (** It is dropped, and the vehicle follows its lane in the same frame. *)
  Theorem C114_unmeetable : forall t cur r s k,
    reachable vehicle_tree t cur -> unmeetable r s ->
    in_lane E w (entity E s) = true -> 0 <= speed E w (entity E s) -> orderly w p (entity E s) ->
    exists t' a s' n l x,
      vehicle_frame E w p (2 + k) t (Context r cur s) = Returned t' (Context NoRequest a s') n
      /\ decision w p (entity E s) l x
      /\ entity E s' = advance E w x (entity E s) /\ moves E s' = (l, Drive x) :: moves E s.
  Proof using.
    intros t cur r s k R U L V O.
    (* a pass that comes to the lane sequence with no request left *)
    assert (PASS : forall q f done s0,
              entity E s0 = entity E s -> moves E s0 = moves E s ->
              turn (vehicle_act E w p) (consulted vehicle_order q) r s
              = turn (vehicle_act E w p) lane_order NoRequest s0 ->
              (q = Free \/ q = Busy LaneChange \/ q = Busy FollowTrajectory) ->
              exists a s' m q' l x,
                list_frame vehicle_order before_vehicle (vehicle_act E w p) (S f) done q r s
                = (Did a NoRequest s' m, q')
                /\ decision w p (entity E s) l x
                /\ entity E s' = advance E w x (entity E s)
                /\ moves E s' = (l, Drive x) :: moves E s).
    { intros q f done s0 E0 M0 T Q. rewrite <- E0 in L, V, O.
      destruct (decides w p NoRequest s0 eq_refl L V O) as (l & x & st & D & ST & TL).
      rewrite TL in T. rewrite E0 in D. cbn [list_frame]. rewrite T.
      assert (NR : (match l with FollowLane => NoRequest | _ => NoRequest end) = NoRequest)
        by (destruct l; reflexivity).
      rewrite NR.
      destruct ST as [(-> & _) | (-> & _ & ->)].
      - exists (leaf_name l). eexists. exists (S done), (Busy l), l, x. split; [reflexivity|].
        split; [exact D|]. cbn [moved entity moves]. rewrite E0, M0. split; reflexivity.
      - assert (B : is_busy q Yield = false) by (destruct Q as [-> | [-> | ->]]; reflexivity).
        rewrite B. change (String.eqb (before_vehicle Yield) "root") with false. cbn iota.
        eexists. eexists. exists (S done), Free, Yield, x. split; [reflexivity|].
        split; [exact D|]. cbn [moved entity moves]. rewrite E0, M0. split; reflexivity. }
    (* lane change declines *)
    assert (LC : exists s0, vehicle_act E w p LaneChange r s = Some (Failure, s0)
                 /\ entity E s0 = entity E s /\ moves E s0 = moves E s
                 /\ turn (vehicle_act E w p) (FollowTrajectory :: lane_order) (dropped LaneChange r) s0
                    = turn (vehicle_act E w p) lane_order NoRequest s0).
    { destruct U as [(-> & TR) | (-> & [NL | (NP & NC)])].
      - exists (State E (entity E s) None (moves E s)). split; [reflexivity|].
        split; [reflexivity|]. split; [reflexivity|]. cbn [turn dropped request_of request_eqb vehicle_act].
        unfold follow_trajectory. cbn [entity]. rewrite TR. reflexivity.
      - exists (State E (entity E s) None (moves E s)). cbn [vehicle_act]. unfold change_lane.
        rewrite NL. repeat split.
      - exists s. cbn [vehicle_act]. unfold change_lane.
        destruct (lane_change p) as [q|].
        + rewrite NP, NC. destruct (negb (in_lane E w (entity E s))); repeat split.
        + repeat split. destruct s as [e0 pl0 m0]. cbn in NP. subst pl0. reflexivity. }
    destruct LC as (s0 & LC & E0 & M0 & T0).
    assert (WHOLE : forall f done, exists a s' m q' l x,
              list_frame vehicle_order before_vehicle (vehicle_act E w p) (S f) done Free r s
              = (Did a NoRequest s' m, q')
              /\ decision w p (entity E s) l x
              /\ entity E s' = advance E w x (entity E s)
              /\ moves E s' = (l, Drive x) :: moves E s).
    { intros f done. apply (PASS Free f done s0 E0 M0); [|left; reflexivity].
      change (consulted vehicle_order Free) with (LaneChange :: FollowTrajectory :: lane_order).
      remember (FollowTrajectory :: lane_order) as rest. cbn [turn]. rewrite LC. exact T0. }
    assert (X : exists a s' m q' l x,
              list_frame vehicle_order before_vehicle (vehicle_act E w p) (2 + k) 0 (position_of t) r s
              = (Did a NoRequest s' m, q')
              /\ decision w p (entity E s) l x
              /\ entity E s' = advance E w x (entity E s)
              /\ moves E s' = (l, Drive x) :: moves E s).
    { cbn [Nat.add]. destruct (positions t cur R) as [-> | [-> | [-> | (l & -> & LO)]]].
      - apply WHOLE.
      - apply (PASS (Busy LaneChange) _ _ s0 E0 M0); [|right; left; reflexivity].
        change (consulted vehicle_order (Busy LaneChange))
          with (LaneChange :: FollowTrajectory :: lane_order).
        remember (FollowTrajectory :: lane_order) as rest. cbn [turn]. rewrite LC. exact T0.
      - destruct U as [(-> & TR) | (-> & _)].
        + apply (PASS (Busy FollowTrajectory) _ _ s eq_refl eq_refl); [|right; right; reflexivity].
          change (consulted vehicle_order (Busy FollowTrajectory))
            with (FollowTrajectory :: lane_order).
          remember lane_order as rest. cbn [turn vehicle_act]. unfold follow_trajectory.
          rewrite TR. reflexivity.
        + remember (S k) as f. cbn [list_frame].
          change (consulted vehicle_order (Busy FollowTrajectory))
            with (FollowTrajectory :: lane_order).
          remember lane_order as rest eqn:RE. cbn [turn]. rewrite trajectory_other by discriminate.
          subst rest. change (dropped FollowTrajectory LaneChangeR) with LaneChangeR.
          rewrite others_decline; [subst f; apply WHOLE | reflexivity | intros l H; exact H].
      - assert (RF : lane_following r = false)
          by (destruct U as [(-> & _) | (-> & _)]; reflexivity).
        rewrite second_pass; [|exact RF | exists l; split; [reflexivity | exact LO]]. apply WHOLE. }
    destruct X as (a & s' & m & q' & l & x & X & D & E1 & M1).
    destruct (vehicle_did w p t cur _ s (2 + k) _ _ _ _ _ R X) as (t' & UU & _).
    exists t', a, s', m, l, x. split; [exact UU|]. split; [exact D|]. split; assumption.
  Qed.
End Memory.
