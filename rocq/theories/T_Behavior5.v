(** * C117: pedestrians; concrete cases and assumptions for C107 to C117 *)

From Coq Require Import String List Bool QArith Qminmax Lqa Lia.
From Verif Require Import M_Behavior S_Behavior P_Behavior P_Behavior2 P_Behavior3 P_Behavior4
  P_Behavior5 T_Behavior T_Behavior2 T_Behavior3 T_Behavior4.
Import ListNotations.
Open Scope Q_scope.

(** ** C117: pedestrians *)

Section Walkers.
  Context {E : Type}.
  Variables (w : world E) (p : settings).

  (** The frame ended with [l] having moved the pedestrian from [s] to [e'], once. *)
  Definition walked (t : node leaf) (cur : string) (r : request) (s : state E) (l : leaf)
    (m : motion) (e' : E) : Prop :=
    forall k, exists t' s' n,
      pedestrian_frame E w p (2 + k) t (Context r cur s) = Returned t' (Context r (leaf_name l) s') n
      /\ entity E s' = e' /\ moves E s' = (l, m) :: moves E s /\ in_progress t' = Some l.

  (** Two passes at most, from any tree: the action [l] is the one that takes part in [r]. *)
  Lemma pedestrian_pass : forall t cur r s l s',
    reachable pedestrian_tree t cur -> In l pedestrian_order ->
    (forall l' s0, In l' pedestrian_order -> l' <> l ->
       pedestrian_act E w p l' r s0 = Some (Failure, s0) /\ dropped l' r = r) ->
    pedestrian_act E w p l r s = Some (Running, s') ->
    forall k, exists t' n,
      pedestrian_frame E w p (2 + k) t (Context r cur s) = Returned t' (Context r (leaf_name l) s') n
      /\ in_progress t' = Some l.
  Proof using.
    intros t cur r s l s' R L O A k.
    assert (D : forall l', In l' pedestrian_order -> l' <> l ->
                pedestrian_act E w p l' r s = Some (Failure, s))
      by (intros l' I N; apply (O l' s I N)).
    assert (DR : forall l', In l' pedestrian_order -> l' <> l -> dropped l' r = r)
      by (intros l' I N; apply (O l' s I N)).
    clear O.
    assert (X : exists n, list_frame pedestrian_order before_pedestrian (pedestrian_act E w p) (2 + k) 0
                  (position_of t) r s = (Did (leaf_name l) r s' n, Busy l)).
    { assert (W : forall f done, list_frame pedestrian_order before_pedestrian (pedestrian_act E w p)
                (S f) done Free r s = (Did (leaf_name l) r s' (S done), Busy l)).
      { intros f done. cbn [list_frame consulted]. unfold pedestrian_order in *.
        cbn [In] in L. destruct L as [<- | [<- | [<- | []]]]; cbn [turn].
        - rewrite A. reflexivity.
        - rewrite (D FollowLane), (DR FollowLane), A by (cbn; (tauto || discriminate)). reflexivity.
        - rewrite (D FollowLane), (DR FollowLane), (D WalkStraight), (DR WalkStraight), A
            by (cbn; (tauto || discriminate)). reflexivity. }
      cbn [Nat.add].
      destruct (pedestrian_legal t cur R) as [-> | (l' & -> & L')]; [eexists; apply W|].
      remember (S k) as f. cbn [list_frame consulted]. unfold pedestrian_order at 1.
      assert (LL := L). assert (LL' := L'). unfold pedestrian_order in LL, LL'. cbn [In] in LL, LL'.
      destruct LL' as [<- | [<- | [<- | []]]]; destruct LL as [<- | [<- | [<- | []]]];
        cbn [from_on leaf_eqb turn];
        repeat first
          [ rewrite A; eexists; reflexivity
          | rewrite (D FollowLane) by (cbn; (tauto || discriminate));
            rewrite (DR FollowLane) by (cbn; (tauto || discriminate))
          | rewrite (D WalkStraight) by (cbn; (tauto || discriminate));
            rewrite (DR WalkStraight) by (cbn; (tauto || discriminate))
          | rewrite (D FollowTrajectory) by (cbn; (tauto || discriminate));
            rewrite (DR FollowTrajectory) by (cbn; (tauto || discriminate)) ];
        subst f; eexists; apply W. }
    destruct X as (n & X).
    destruct (pedestrian_did w p t cur r s (2 + k) _ _ _ _ _ R X) as (t' & U & PR).
    exists t', n. split; assumption.
  Qed.

  (** Along its lane: at its target speed, or the speed limit; it stops for obstacles. *)
  Theorem C117_lane : forall t cur r s,
    reachable pedestrian_tree t cur -> r = NoRequest \/ r = FollowLaneR ->
    in_lane E w (entity E s) = true ->
    exists x, (obstacle E w (entity E s) = true /\ x = 0
               \/ obstacle E w (entity E s) = false /\ aim w p (entity E s) x)
      /\ walked t cur r s FollowLane (Drive x) (advance E w x (entity E s)).
  Proof using.
    intros t cur r s R RQ L.
    exists (if obstacle E w (entity E s) then 0 else wanted E w p (entity E s)). split.
    - destruct (obstacle E w (entity E s)); [left; split; reflexivity | right; split; [reflexivity|]].
      apply aim_wanted. reflexivity.
    - intros k.
      destruct (pedestrian_pass t cur r s FollowLane
                  (moved E FollowLane
                     (Drive (if obstacle E w (entity E s) then 0 else wanted E w p (entity E s)))
                     (advance E w (if obstacle E w (entity E s) then 0 else wanted E w p (entity E s))
                        (entity E s)) s) R) with (k := k) as (t' & n & U & P).
      + cbn; tauto.
      + intros l' s0 I N. cbn in I.
        destruct I as [<- | [<- | [<- | []]]]; [congruence| |];
          destruct RQ as [-> | ->]; split; reflexivity.
      + cbn [pedestrian_act]. unfold walk_lane, drive. rewrite L.
        destruct RQ as [-> | ->]; reflexivity.
      + exists t'. eexists. exists n. split; [exact U|]. repeat split. exact P.
  Qed.

  (** Off the lanes it stands, with the same requests. *)
  Theorem C117_off_lane : forall t cur r s,
    reachable pedestrian_tree t cur -> r = NoRequest \/ r = FollowLaneR ->
    in_lane E w (entity E s) = false ->
    walked t cur r s FollowLane Stand (stand E w (entity E s)).
  Proof using.
    intros t cur r s R RQ L k.
    destruct (pedestrian_pass t cur r s FollowLane
                (moved E FollowLane Stand (stand E w (entity E s)) s) R) with (k := k)
      as (t' & n & U & P).
    - cbn; tauto.
    - intros l' s0 I N. cbn in I.
      destruct I as [<- | [<- | [<- | []]]]; [congruence| |];
        destruct RQ as [-> | ->]; split; reflexivity.
    - cbn [pedestrian_act]. unfold walk_lane. rewrite L. destruct RQ as [-> | ->]; reflexivity.
    - exists t'. eexists. exists n. split; [exact U|]. repeat split. exact P.
  Qed.

  (** Told to walk straight it does so on and off the lanes, at 1.111 m/s unless a target speed is
      set, and stops for what is in front. *)
  Theorem C117_straight : forall t cur s v,
    reachable pedestrian_tree t cur ->
    (if obstacle_ahead E w (entity E s) then v = 0
     else target_speed p = Some v \/ target_speed p = None /\ v = 1111 # 1000) ->
    walked t cur WalkStraightR s WalkStraight (Walk v) (world_advance E w v (entity E s)).
  Proof using.
    intros t cur s v R V k.
    destruct (pedestrian_pass t cur WalkStraightR s WalkStraight
                (moved E WalkStraight (Walk v) (world_advance E w v (entity E s)) s) R) with (k := k)
      as (t' & n & U & P).
    - cbn; tauto.
    - intros l' s0 I N. cbn in I.
      destruct I as [<- | [<- | [<- | []]]]; [|congruence|]; split; reflexivity.
    - cbn [pedestrian_act]. unfold walk_straight. cbv zeta.
      destruct (obstacle_ahead E w (entity E s)); [subst v; reflexivity|].
      destruct V as [-> | [-> ->]]; reflexivity.
    - exists t'. eexists. exists n. split; [exact U|]. repeat split. exact P.
  Qed.

  (** Told to follow a trajectory it does. *)
  Theorem C117_trajectory : forall t cur s e',
    reachable pedestrian_tree t cur -> trajectory E w (entity E s) = true ->
    follow E w (entity E s) = Moved e' ->
    walked t cur FollowPolylineR s FollowTrajectory Track e'.
  Proof using.
    intros t cur s e' R TR FO k.
    destruct (pedestrian_pass t cur FollowPolylineR s FollowTrajectory
                (moved E FollowTrajectory Track e' s) R) with (k := k) as (t' & n & U & P).
    - cbn; tauto.
    - intros l' s0 I N. cbn in I.
      destruct I as [<- | [<- | [<- | []]]]; [| |congruence]; split; reflexivity.
    - cbn [pedestrian_act]. unfold follow_trajectory. rewrite TR, FO. reflexivity.
    - exists t'. eexists. exists n. split; [exact U|]. repeat split. exact P.
  Qed.

  (** Refuted: a pedestrian that has walked straight goes on standing or walking by its lane as soon
      as the request is gone, but the request itself is never dropped: no action ends it. *)
  Theorem C117_straight_for_ever_refuted : forall t cur s k t' c' n,
    reachable pedestrian_tree t cur ->
    pedestrian_frame E w p (2 + k) t (Context WalkStraightR cur s) = Returned t' c' n ->
    ctx_request c' = WalkStraightR.
  Proof using.
    intros t cur s k t' c' n R H.
    assert (V : exists v, if obstacle_ahead E w (entity E s) then v = 0
              else target_speed p = Some v \/ target_speed p = None /\ v = 1111 # 1000).
    { destruct (obstacle_ahead E w (entity E s)); [eexists; reflexivity|].
      destruct (target_speed p); eexists; [left | right]; eauto. }
    destruct V as (v & V). destruct (C117_straight t cur s v R V k) as (t1 & s1 & n1 & U & _).
    rewrite U in H. injection H as _ <- _. reflexivity.
  Qed.
End Walkers.

(** ** Concrete cases *)

(** A vehicle on a straight road that changes its speed by at most 1 m/s in a frame. *)
Record car := Car { place : Q; pace : Q; inside : bool }.

Definition steer (t : Q) (c : car) : car :=
  if Qeq_bool t 0 && Qeq_bool (pace c) 0 then c
  else Car (place c + pace c)
         (if Qlt_le_dec t (pace c) then (if Qlt_le_dec t (pace c - 1) then pace c - 1 else t)
          else (if Qlt_le_dec (pace c + 1) t then pace c + 1 else t)) (inside c).

Definition road (yielding : bool) (fr : option front) (path : option (Q * Q))
  (line light cross : option Q) : world car :=
  World car pace inside steer steer (fun c => Car (place c) 0 (inside c))
    (fun c => pace c * pace c / 4) yielding (fun _ => fr) (fun _ => path) (fun _ => line)
    (fun _ => light) (fun _ => cross) (fun _ => None) (fun _ => 10) (fun _ => - 2)
    (fun _ => true) (fun _ => false) (fun _ => true)
    (fun c => if Qle_bool 100 (place c) then Finished else Moved (Car (place c + 1) 1 true))
    (fun _ => Some (Curve 30 3 50)) (fun v _ c => Car (place c) v (inside c))
    (fun x c => Car x (pace c) (inside c)) (fun x c => Car x (pace c) (inside c)).

Definition eyes (path : bool) (target : option Q) (lc : option lane_request) : settings :=
  Settings true path 4 target lc (1 # 10) 3 3 50.

Definition start (c : car) : state car := State car c None [].

Lemma steer_orderly : forall y fr pa li lg cr b t l c, (forall v, t = Some v -> 0 <= v) ->
  inside c = true -> orderly (road y fr pa li lg cr) (eyes b t l) c.
Proof.
  intros y fr pa li lg cr b t l c T I. split; [|split].
  - intros v [H | [_ ->]]; [apply T; exact H | cbn; lra].
  - cbn. lra.
  - intros x. cbn [road advance in_lane speed]. unfold steer.
    destruct (Qeq_bool x 0 && Qeq_bool (pace c) 0) eqn:Z; cbn [inside pace].
    + split; [exact I | intros _ H; exact H].
    + split; [exact I|]. intros X P.
      destruct (Qlt_le_dec x (pace c)); [destruct (Qlt_le_dec x (pace c - 1)) |
        destruct (Qlt_le_dec (pace c + 1) x)]; lra.
Qed.

Lemma steer_cruising : forall y fr pa li lg cr b t l c, (forall v, t = Some v -> 0 <= v) ->
  inside c = true -> 0 <= pace c ->
  cruising (road y fr pa li lg cr) (eyes b t l) NoRequest (start c).
Proof.
  intros. split; [left; reflexivity|]. split; [assumption|]. split; [assumption|].
  apply steer_orderly; assumption.
Qed.

Lemma no_target : forall v : Q, None = Some v -> 0 <= v.
Proof. discriminate. Qed.

(** Every action can be in progress. *)
Lemma underway : forall l, In l vehicle_order ->
  exists t, reachable vehicle_tree t (leaf_name l) /\ in_progress t = Some l.
Proof.
  assert (G : forall l t' c' n,
            update leaf_name (answers l Running) 2 0 vehicle_tree
              (Context (match l with LaneChange => LaneChangeR | FollowTrajectory => FollowPolylineR
                        | _ => NoRequest end) "" 0%nat) = Returned t' c' n ->
            ctx_action c' = leaf_name l -> in_progress t' = Some l ->
            exists t, reachable vehicle_tree t (leaf_name l) /\ in_progress t = Some l).
  { intros l t' c' n U A P. exists t'. split; [|exact P]. rewrite <- A.
    eapply (R_frame vehicle_tree nat vehicle_tree "" (answers l Running) 2);
      [apply R_start | | exact U]. reflexivity. }
  intros l L. cbn in L.
  repeat (destruct L as [<- | L]; [eapply G; [vm_compute; reflexivity | reflexivity | reflexivity]|]).
  contradiction.
Qed.

(** C108, C109: a frame from the start. *)
Example C108_example :
  frame_ends (vehicle_frame car (road false None None None None None) (eyes false None None) 3
                vehicle_tree (Context NoRequest "" (start (Car 0 5 true)))) 3
  /\ exists l x, decision (road false None None None None None) (eyes false None None) (Car 0 5 true) l x
                 /\ l = FollowLane.
Proof.
  split; [vm_compute; lia|]. exists FollowLane, 10. split; [|reflexivity]. apply D_clear.
  - intros (_ & [H | [(d & H & _) | H]]); [discriminate H | inversion H; discriminate |].
    cbn in H. tauto.
  - right. split; reflexivity.
Qed.

(** C109, C110: a red light 15 m ahead. *)
Example C110_example : exists x,
  stopping_limited (road false None None None (Some 15) None) (eyes false None None) (Car 0 8 true) 15 x
  /\ drove (road false None None None (Some 15) None) (eyes false None None) vehicle_tree ""
       NoRequest (start (Car 0 8 true)) StopAtTrafficLight x "stop_at_traffic_light"
       (Some StopAtTrafficLight).
Proof.
  apply (C110_stops (road false None None None (Some 15) None) (eyes false None None) vehicle_tree ""
           NoRequest (start (Car 0 8 true)) 15).
  - apply R_start.
  - left. reflexivity.
  - apply steer_cruising; [apply no_target | reflexivity | cbn; lra].
  - reflexivity.
  - reflexivity.
  - intros g v H. inversion H; discriminate.
  - split; [reflexivity|]. vm_compute. discriminate.
Qed.

(** C110: a red light 10 m ahead and an entity to follow: both refutations apply. *)
Example C110_hidden_example :
  (exists x, x == 10 /\ drove (road false (Some (Front 20 (Some 20) 12)) None None (Some 10) None)
     (eyes false None None) vehicle_tree "" NoRequest (start (Car 0 8 true)) FollowFrontEntity x
     "follow_front_entity" (Some FollowFrontEntity))
  /\ exists t x, x == 2 /\ drove (road false (Some (Front 1 (Some 1) 0)) None None (Some 10) None)
     (eyes false None None) t "stop_at_traffic_light" NoRequest (start (Car 0 2 true))
     StopAtTrafficLight x "stop_at_traffic_light" (Some StopAtTrafficLight).
Proof.
  split.
  - apply (C110_front_beyond_light_refuted _ _ vehicle_tree "" NoRequest (start (Car 0 8 true)) 20 12 10 10);
      try reflexivity.
    + apply R_start.
    + left. reflexivity.
    + apply steer_cruising; [apply no_target | reflexivity | cbn; lra].
    + apply (F_lane _ _ _ (Front 20 (Some 20) 12)); reflexivity.
    + right. split; reflexivity.
    + lra.
    + split; [reflexivity | vm_compute; discriminate].
  - destruct (underway StopAtTrafficLight) as (t & R & P); [cbn; tauto|]. exists t.
    apply (C110_light_hides_front_refuted (road false (Some (Front 1 (Some 1) 0)) None None (Some 10) None)
             (eyes false None None) t "stop_at_traffic_light" NoRequest (start (Car 0 2 true)) 10) with (g := 1) (v := 0);
      try reflexivity; try assumption.
    + apply steer_cruising; [apply no_target | reflexivity | cbn; lra].
    + split; [reflexivity | vm_compute; discriminate].
    + vm_compute. discriminate.
    + apply (F_lane _ _ _ (Front 1 (Some 1) 0)); reflexivity.
Qed.

(** C111: behind a slower entity. *)
Example C111_example : exists x,
  following (road false (Some (Front 12 (Some 12) 3)) None None None None) (eyes false None None)
    (Car 0 5 true) 12 3 x
  /\ drove (road false (Some (Front 12 (Some 12) 3)) None None None None) (eyes false None None)
       vehicle_tree "" NoRequest (start (Car 0 5 true)) FollowFrontEntity x
       "follow_front_entity" (Some FollowFrontEntity).
Proof.
  apply (C111_follows (road false (Some (Front 12 (Some 12) 3)) None None None None)
           (eyes false None None) vehicle_tree "" NoRequest (start (Car 0 5 true)) 12 3);
    try reflexivity.
  - apply R_start.
  - left. split; [left; reflexivity|]. split; [reflexivity|]. right. left. exists 12. split.
    + apply (G_lane _ _ _ (Front 12 (Some 12) 3)); reflexivity.
    + vm_compute. discriminate.
  - apply steer_cruising; [apply no_target | reflexivity | cbn; lra].
  - split; [apply (F_lane _ _ _ (Front 12 (Some 12) 3)); reflexivity | cbn; tauto].
Qed.

(** C112: a vehicle that stands, with a stop line 12 m ahead and a light that has turned green,
    does so for ever. *)
Example C112_example : forall n, exists t t' r' s',
  frames (road false None None (Some 12) None None) (eyes false None None) (1 + n) t
    (Context NoRequest "stop_at_traffic_light" (start (Car 0 0 true)))
  = Some (t', Context r' "stop_at_stop_line" s') /\ entity car s' = Car 0 0 true.
Proof.
  intros n. destruct (underway StopAtTrafficLight) as (t & R & P); [cbn; tauto|].
  destruct (C112_stuck_refuted (road false None None (Some 12) None None) (eyes false None None)
              t "stop_at_traffic_light" NoRequest (start (Car 0 0 true)) 12 StopAtTrafficLight n R P)
    as (t' & r' & s' & F & EN & _).
  - auto.
  - apply steer_cruising; [apply no_target | reflexivity | cbn; lra].
  - reflexivity.
  - reflexivity.
  - reflexivity.
  - intros g v (H & _). inversion H; discriminate.
  - intros d (H & _). discriminate H.
  - split; [reflexivity|]. split; [|cbn; tauto]. intros (g & H & _). inversion H. discriminate.
  - cbn. lra.
  - intros x X. cbn. unfold steer. cbn [pace].
    rewrite (proj2 (Qeq_bool_iff x 0) X). reflexivity.
  - exists t, t', r', s'. split; assumption.
Qed.

Example C112_detectors_example : exists x, x == 10
  /\ drove (road false (Some (Front 6 (Some 6) 0)) None (Some 7) None None) (eyes true None None)
       vehicle_tree "" NoRequest (start (Car 0 8 true)) Yield x "stop_at_crossing_entity" None.
Proof.
  apply (C112_detectors_refuted _ _ vehicle_tree "" NoRequest (start (Car 0 8 true)) 7
           (Front 6 (Some 6) 0) 6 10); try reflexivity.
  - apply R_start.
  - left. reflexivity.
  - apply steer_cruising; [apply no_target | reflexivity | cbn; lra].
  - lra.
  - vm_compute. discriminate.
  - right. split; reflexivity.
Qed.

(** C113: moving backwards at 5 m/s. *)
Example C113_example : forall k, exists t' r' s' x y,
  vehicle_frame car (road false None None None None None) (eyes false None None) (1 + k) vehicle_tree
    (Context NoRequest "" (start (Car 0 (-5) true)))
  = Returned t' (Context r' "move_backward" s') 1
  /\ moves car s' = (MoveBackward, Drive y) :: (Yield, Drive x) :: [].
Proof.
  intros k.
  destruct (C113_twice_refuted (road false None None None None None) (eyes false None None)
              vehicle_tree "" NoRequest (start (Car 0 (-5) true)) (R_start _) (or_introl eq_refl)
              (or_introl eq_refl) eq_refl) with (k := k) as (t' & r' & s' & x & y & U & _ & M & _).
  - cbn. lra.
  - reflexivity.
  - intros x. cbn. unfold steer. cbn [pace]. change (Qeq_bool (-5) 0) with false.
    rewrite andb_false_r. split; [reflexivity|]. cbn [pace].
    destruct (Qlt_le_dec x (-5)); [destruct (Qlt_le_dec x (-5 - 1)) |
      destruct (Qlt_le_dec (-5 + 1) x)]; lra.
  - exists t', r', s', x, y. split; [exact U | exact M].
Qed.

(** C114: a trajectory that is already at its end. *)
Example C114_example : forall n, exists t' s',
  frames (road false None None None None None) (eyes false None None) (1 + n) vehicle_tree
    (Context FollowPolylineR "" (start (Car 200 3 true)))
  = Some (t', Context FollowPolylineR "follow_trajectory_sequence" s')
  /\ entity car s' = Car 200 3 true.
Proof.
  intros n.
  destruct (C114_frozen_refuted (road false None None None None None) (eyes false None None)
              vehicle_tree "" (start (Car 200 3 true)) n (R_start _) eq_refl eq_refl eq_refl)
    as (t' & s' & F & EN & _).
  exists t', s'. split; assumption.
Qed.

Example C114_taken_example : exists t t' s' n,
  vehicle_frame car (road false None None (Some 12) None None) (eyes false None None) 2 t
    (Context FollowPolylineR "stop_at_stop_line" (start (Car 3 0 true)))
  = Returned t' (Context FollowPolylineR "follow_polyline_trajectory" s') n
  /\ entity car s' = Car (3 + 1) 1 true.
Proof.
  destruct (underway StopAtStopLine) as (t & R & _); [cbn; tauto|]. exists t.
  destruct (C114_trajectory_taken (road false None None (Some 12) None None) (eyes false None None)
              t "stop_at_stop_line" (start (Car 3 0 true)) (Car (3 + 1) 1 true) 0 R eq_refl eq_refl)
    as (t' & s' & n & U & EN & _).
  exists t', s', n. split; assumption.
Qed.

(** C115: three seconds on a curve of 30 m: 29 frames of 0.1 s later it is in progress, with the
    30th it is over. *)
Example C115_example :
  let lr := LaneRequest (Duration 3) Force in
  forced (road false None None None None None) (eyes false None (Some lr)) vehicle_tree
    (start (Car 0 5 true)) lr (Curve 30 3 50) (30 / 3)
  /\ takes (road false None None None None None) (eyes false None (Some lr)) lr (Curve 30 3 50)
       (Car 0 5 true) 3
  /\ (exists t' s', frames (road false None None None None None) (eyes false None (Some lr)) 29
        vehicle_tree (Context LaneChangeR "" (start (Car 0 5 true)))
      = Some (t', Context LaneChangeR "lane_change" s') /\ in_progress t' = Some LaneChange)
  /\ exists t' s', frames (road false None None None None None) (eyes false None (Some lr)) 30
        vehicle_tree (Context LaneChangeR "" (start (Car 0 5 true)))
      = Some (t', Context NoRequest "lane_change" s') /\ in_progress t' = None.
Proof.
  cbv zeta. set (lr := LaneRequest (Duration 3) Force).
  assert (F : forced (road false None None None None None) (eyes false None (Some lr)) vehicle_tree
    (start (Car 0 5 true)) lr (Curve 30 3 50) (30 / 3)).
  { split; [discriminate|]. repeat split; reflexivity. }
  split; [exact F|]. split; [reflexivity|].
  destruct (C115_time _ _ vehicle_tree "" _ _ _ _ 3 (R_start _) F) as (D & L).
  - cbn. reflexivity.
  - cbn. reflexivity.
  - reflexivity.
  - cbn. reflexivity.
  - split.
    + destruct (D 28%nat) as (t' & s' & y & FR & P & _); [reflexivity|].
      exists t', s'. split; assumption.
    + destruct (L 29%nat) as (t' & s' & x & e & FR & P & _); [reflexivity | vm_compute; discriminate|].
      exists t', s'. split; assumption.
Qed.

Example C115_best_effort_example : exists t s pl,
  reachable vehicle_tree t "lane_change" /\ in_progress t = Some LaneChange
  /\ plan car s = Some pl /\ plan_velocity pl == 10 /\ speed_kept (road false None None None None None)
  /\ speed car (road false None None None None None) (entity car s) == 0.
Proof.
  destruct (underway LaneChange) as (t & R & P); [cbn; tauto|].
  exists t, (State car (Car 0 0 true) (Some (Plan (Curve 30 3 50) 0 10)) []), (Plan (Curve 30 3 50) 0 10).
  repeat split; assumption.
Qed.

(** C116: the same vehicle off the lanes, with and without a stop in progress. *)
Example C116_example :
  (exists t' r' s' n, vehicle_frame car (road false None None None None None) (eyes false None None) 2
     vehicle_tree (Context NoRequest "" (start (Car 0 5 false)))
     = Returned t' (Context r' "follow_lane" s') n /\ entity car s' = Car 0 0 false)
  /\ exists t, vehicle_frame car (road false None None None None None) (eyes false None None) 2
     t (Context NoRequest "stop_at_stop_line" (start (Car 0 5 false))) = Threw.
Proof.
  split.
  - destruct (C116_stands (road false None None None None None) (eyes false None None) vehicle_tree ""
                NoRequest (start (Car 0 5 false)) 0 (R_start _)) as (t' & r' & s' & n & U & EN & _);
      try discriminate; try reflexivity; [left; reflexivity|].
    exists t', r', s', n. split; assumption.
  - destruct (underway StopAtStopLine) as (t & R & P); [cbn; tauto|]. exists t.
    apply (C116_throws_refuted _ _ t _ NoRequest (start (Car 0 5 false)) 1 StopAtStopLine);
      try assumption; try reflexivity; try tauto. cbn. lra.
Qed.

(** C117: a pedestrian before an obstacle. *)
Example C117_example :
  (exists x, (true = true /\ x = 0 \/ true = false /\ aim (road false None None None None None)
     (eyes false None None) (Car 0 1 true) x)
   /\ walked (road false None None None None None) (eyes false None None) pedestrian_tree "" NoRequest
        (start (Car 0 1 true)) FollowLane (Drive x) (steer x (Car 0 1 true)))
  /\ walked (road false None None None None None) (eyes false None None) pedestrian_tree "" WalkStraightR
        (start (Car 0 1 false)) WalkStraight (Walk (1111 # 1000)) (steer (1111 # 1000) (Car 0 1 false)).
Proof.
  split.
  - apply (C117_lane (road false None None None None None) (eyes false None None) pedestrian_tree ""
             NoRequest (start (Car 0 1 true)) (R_start _) (or_introl eq_refl) eq_refl).
  - apply (C117_straight (road false None None None None None) (eyes false None None) pedestrian_tree ""
             (start (Car 0 1 false)) (1111 # 1000) (R_start _)). cbn. right. split; reflexivity.
Qed.

Print Assumptions C107_vehicle.
Print Assumptions C107_pedestrian.
Print Assumptions C107_current.
Print Assumptions C107_keeps.
Print Assumptions C108_vehicle.
Print Assumptions C108_walk_refuted.
Print Assumptions C108_instant_refuted.
Print Assumptions C108_pedestrian.
Print Assumptions C108_lane_change_refuted.
Print Assumptions C109_decision.
Print Assumptions C109_unique.
Print Assumptions C110_stops.
Print Assumptions C110_keeps.
Print Assumptions C110_speed.
Print Assumptions C110_light_hides_front_refuted.
Print Assumptions C110_front_hides_light_refuted.
Print Assumptions C110_front_beyond_light_refuted.
Print Assumptions C110_yield_hides_light_refuted.
Print Assumptions C111_follows.
Print Assumptions C111_slower.
Print Assumptions C111_faster_refuted.
Print Assumptions C112_stop_line.
Print Assumptions C112_crossing.
Print Assumptions C112_tie_refuted.
Print Assumptions C112_detectors_refuted.
Print Assumptions C112_stuck_refuted.
Print Assumptions C113_once.
Print Assumptions C113_twice_refuted.
Print Assumptions C113_backwards.
Print Assumptions C114_trajectory_taken.
Print Assumptions C114_trajectory_ends.
Print Assumptions C114_frozen_refuted.
Print Assumptions C114_unmeetable.
Print Assumptions C115_time.
Print Assumptions C115_constraint.
Print Assumptions C115_standing_refuted.
Print Assumptions C115_best_effort_refuted.
Print Assumptions C115_second_refuted.
Print Assumptions C116_stands.
Print Assumptions C116_throws_refuted.
Print Assumptions C117_lane.
Print Assumptions C117_off_lane.
Print Assumptions C117_straight.
Print Assumptions C117_trajectory.
Print Assumptions C117_straight_for_ever_refuted.
