(** * The actions of the trees *)

From Coq Require Import String List Bool QArith Qminmax Lqa Lia.
From Verif Require Import M_Behavior S_Behavior P_Behavior P_Behavior2.
Import ListNotations.
Open Scope Q_scope.

Lemma le_true : forall a b, le a b = true <-> a <= b.
Proof. intros. apply Qle_bool_iff. Qed.

Lemma le_false : forall a b, le a b = false <-> b < a.
Proof.
  intros. split; intros H.
  - apply Qnot_le_lt. intros X. apply le_true in X. congruence.
  - destruct (le a b) eqn:X; [|reflexivity]. apply le_true in X. lra.
Qed.

Lemma lt_true : forall a b, lt a b = true <-> a < b.
Proof.
  intros. unfold lt. rewrite negb_true_iff. apply le_false.
Qed.

Lemma lt_false : forall a b, lt a b = false <-> b <= a.
Proof. intros. unfold lt. rewrite negb_false_iff. apply le_true. Qed.

Ltac reflect_q :=
  repeat match goal with
  | H : le _ _ = true |- _ => apply le_true in H
  | H : le _ _ = false |- _ => apply le_false in H
  | H : lt _ _ = true |- _ => apply lt_true in H
  | H : lt _ _ = false |- _ => apply lt_false in H
  | H : negb _ = true |- _ => apply negb_true_iff in H
  | H : negb _ = false |- _ => apply negb_false_iff in H
  end.

Section Actions.
  Context {E : Type}.
  Variables (w : world E) (p : settings).

  Notation act := (vehicle_act E w p).

  Lemma others_decline : forall r ls s, lane_following r = false ->
    (forall l, In l ls -> In l lane_order) -> turn act ls r s = Some (NobodyActs r s).
  Proof.
    intros r ls s F. induction ls as [|l ls IH]; intros I; [reflexivity|].
    cbn [turn].
    assert (A : act l r s = Some (Failure, s)).
    { assert (J : In l lane_order) by (apply I; left; reflexivity). cbn in J.
      destruct J as [<- | [<- | [<- | [<- | [<- | [<- | [<- | []]]]]]]]; cbn [vehicle_act];
        unfold follow_lane, follow_front_entity, stop_at_traffic_light, stop_at_stop_line,
          stop_at_crossing_entity, yield, move_backward; rewrite F; reflexivity. }
    rewrite A. assert (D : dropped l r = r).
    { assert (J : In l lane_order) by (apply I; left; reflexivity). cbn in J.
      destruct J as [<- | [<- | [<- | [<- | [<- | [<- | [<- | []]]]]]]];
        destruct r; try discriminate; reflexivity. }
    rewrite D. apply IH. intros k K. apply I. right. exact K.
  Qed.

  (** The stopping and following actions decline without changing anything. *)
  Ltac declines :=
    repeat match goal with
           | |- context [if ?b then _ else _] => destruct b
           | |- context [match ?b with Some _ => _ | None => _ end] => destruct b as [[]|] || destruct b
           | |- context [match ?b with (_, _) => _ end] => destruct b
           end; cbn; intros X; try discriminate; injection X as <-; reflexivity.

  Lemma running_not_failure : forall o s', running E o <> Some (Failure, s').
  Proof. intros [s|] s'; discriminate. Qed.

  Lemma failure_keeps : forall l r s s',
    In l [FollowLane; FollowFrontEntity; StopAtTrafficLight; StopAtStopLine; StopAtCrossingEntity] ->
    act l r s = Some (Failure, s') -> s' = s.
  Proof.
    intros l r s s' I. cbn in I. unfold vehicle_act.
    destruct I as [<- | [<- | [<- | [<- | [<- | []]]]]];
      unfold follow_lane, follow_front_entity, stop_at_traffic_light, stop_at_stop_line,
        stop_at_crossing_entity, fail;
      repeat match goal with
             | |- (if ?b then _ else _) = _ -> _ => destruct b
             | |- running _ _ = _ -> _ => intros X; exfalso; exact (running_not_failure _ _ X)
             | |- match ?b with Some _ => _ | None => _ end = _ -> _ => destruct b
             | |- match ?b with (_, _) => _ end = _ -> _ => destruct b
             | |- Some _ = Some _ -> _ => intros X; first [discriminate X | injection X as <-; reflexivity]
             | |- None = _ -> _ => discriminate
             end.
  Qed.

  Lemma lane_acts : forall r s r' s', lane_following r = true ->
    turn act lane_order r s <> Some (NobodyActs r' s').
  Proof.
    intros r s r' s' F. unfold lane_order, selector_order.
    destruct (in_lane E w (entity E s)) eqn:L.
    2:{ cbn [turn vehicle_act]. unfold follow_lane. rewrite F, L. discriminate. }
    assert (RD : lane_following (dropped FollowLane r) = true) by (destruct r; easy).
    assert (MB : forall s2, in_lane E w (entity E s2) = true -> speed E w (entity E s2) < 0 ->
              turn act [MoveBackward] (dropped FollowLane r) s2 <> Some (NobodyActs r' s')).
    { intros s2 L2 V. cbn [turn vehicle_act]. unfold move_backward. rewrite RD, L2.
      replace (lt (speed E w (entity E s2)) 0) with true by (symmetry; apply lt_true; exact V).
      unfold drive. cbn [negb]. rewrite L2. discriminate. }
    assert (Y : see_around p = true \/ speed E w (entity E s) < 0 ->
              turn act [Yield; MoveBackward] (dropped FollowLane r) s <> Some (NobodyActs r' s')).
    { intros C. change (turn act [Yield; MoveBackward] (dropped FollowLane r) s)
        with (match act Yield (dropped FollowLane r) s with
              | None | Some (Idle, _) => None
              | Some (Failure, s') => turn act [MoveBackward] (dropped FollowLane r) s'
              | Some (st, s') => Some (Acts Yield st (dropped FollowLane r) s')
              end).
      cbn [vehicle_act]. unfold yield. rewrite RD, L. cbn [negb].
      destruct (see_around p) eqn:SA; cbn [negb].
      - unfold drive. rewrite L.
        destruct (right_of_way E w); cbn [negb]; unfold yielded;
          match goal with |- context [in_lane E w (entity E ?x)] =>
            destruct (in_lane E w (entity E x)) eqn:L2; cbn [negb]; [|discriminate];
            destruct (lt (speed E w (entity E x)) 0) eqn:V2; [|discriminate] end;
          unfold fail; apply MB; [exact L2 | reflect_q; exact V2 | exact L2 | reflect_q; exact V2].
      - unfold fail. apply MB; [exact L | destruct C as [C|C]; [discriminate | exact C]]. }
    assert (C : forall s2, act FollowLane r s = Some (Failure, s2) ->
                s2 = s /\ (see_around p = true \/ speed E w (entity E s) < 0)).
    { intros s2 A. split; [apply (failure_keeps FollowLane r); [cbn; tauto | exact A]|].
      revert A. cbn [vehicle_act]. unfold follow_lane. rewrite F, L. cbn [negb].
      destruct (lt (speed E w (entity E s)) 0) eqn:V; [intros _; right; reflect_q; exact V|].
      destruct (see_around p); [intros _; left; reflexivity|]. cbn [andb].
      intros X. exfalso. exact (running_not_failure _ _ X). }
    assert (G : forall ls, (forall l, In l ls -> In l
                  [FollowFrontEntity; StopAtTrafficLight; StopAtStopLine; StopAtCrossingEntity]) ->
              (see_around p = true \/ speed E w (entity E s) < 0) ->
              turn act (ls ++ [Yield; MoveBackward])%list (dropped FollowLane r) s
              <> Some (NobodyActs r' s')).
    { induction ls as [|l ls IH]; intros I CC; [apply Y; exact CC|].
      cbn [app turn]. destruct (act l (dropped FollowLane r) s) as [[[] s2]|] eqn:A; try discriminate.
      assert (J := I l (or_introl eq_refl)).
      rewrite (failure_keeps l _ s s2 (or_intror J) A).
      assert (D : dropped l (dropped FollowLane r) = dropped FollowLane r).
      { cbn in J. destruct J as [<- | [<- | [<- | [<- | []]]]]; reflexivity. }
      rewrite D. apply IH; [intros k K; apply I; right; exact K | exact CC]. }
    change (turn act [FollowLane; FollowFrontEntity; StopAtTrafficLight; StopAtStopLine;
                      StopAtCrossingEntity; Yield; MoveBackward] r s)
      with (match act FollowLane r s with
            | None | Some (Idle, _) => None
            | Some (Failure, s') =>
                turn act ([FollowFrontEntity; StopAtTrafficLight; StopAtStopLine;
                           StopAtCrossingEntity] ++ [Yield; MoveBackward])%list
                  (dropped FollowLane r) s'
            | Some (st, s') => Some (Acts FollowLane st r s')
            end).
    destruct (act FollowLane r s) as [[[] s2]|] eqn:A; try discriminate.
    destruct (C s2 eq_refl) as [-> CC]. apply G; [cbn; tauto | exact CC].
  Qed.

  (** ** How many passes a frame takes *)

  Definition within_passes {S : Type} (n : nat) (o : seen S * position) : Prop :=
    match o with (Did _ _ _ m, _) => (m <= n)%nat | (Failed, _) => True | (Endless, _) => False end.

  Notation frame := (list_frame vehicle_order before_vehicle act).

  Lemma lane_change_other : forall r s, r <> LaneChangeR ->
    act LaneChange r s = Some (Failure, State E (entity E s) None (moves E s)).
  Proof. intros r s N. destruct r; try congruence; reflexivity. Qed.

  Lemma trajectory_other : forall r s, r <> FollowPolylineR ->
    act FollowTrajectory r s = Some (Failure, s).
  Proof. intros r s N. destruct r; try congruence; reflexivity. Qed.

  (** The part of a pass from the lane sequence on. *)
  Lemma lane_pass : forall r s, lane_following r = true ->
    turn act lane_order r s = None
    \/ exists l st r' s', turn act lane_order r s = Some (Acts l st r' s')
                          /\ In l lane_order /\ (st = Running \/ st = Success).
  Proof.
    intros r s F. destruct (turn act lane_order r s) as [[l st r' s' | r' s']|] eqn:T.
    - right. exists l, st, r', s'. split; [reflexivity|]. apply (turn_in _ _ _ _ _ _ _ _ T).
    - exfalso. exact (lane_acts r s r' s' F T).
    - left. reflexivity.
  Qed.

  Lemma lane_not_root : forall l, In l lane_order -> String.eqb (before_vehicle l) "root" = false.
  Proof.
    intros l I. cbn in I.
    destruct I as [<- | [<- | [<- | [<- | [<- | [<- | [<- | []]]]]]]]; reflexivity.
  Qed.

  (** When the ordered list comes to the lane sequence, the frame is over with this pass. *)
  Lemma pass_over : forall fuel done q r s r1 s1 n, lane_following r1 = true ->
    turn act (consulted vehicle_order q) r s = turn act lane_order r1 s1 ->
    (Datatypes.S done <= n)%nat ->
    within_passes n (frame (Datatypes.S fuel) done q r s).
  Proof.
    intros fuel done q r s r1 s1 n F T N. cbn [list_frame]. rewrite T.
    destruct (lane_pass r1 s1 F) as [-> | (l & st & r' & s' & -> & I & [-> | ->])]; [exact Logic.I| |].
    - cbn. exact N.
    - destruct (is_busy q l); [cbn; exact N|]. rewrite (lane_not_root l I). cbn. exact N.
  Qed.

  Lemma free_following : forall fuel done r s n, lane_following r = true ->
    (Datatypes.S done <= n)%nat -> within_passes n (frame (Datatypes.S fuel) done Free r s).
  Proof.
    intros fuel done r s n F N.
    apply (pass_over _ _ _ _ _ r (State E (entity E s) None (moves E s))); [exact F| |exact N].
    change (consulted vehicle_order Free) with (LaneChange :: FollowTrajectory :: lane_order).
    remember lane_order as lo. cbn [turn].
    rewrite lane_change_other by (destruct r; easy).
    replace (dropped LaneChange r) with r by (destruct r; easy).
    rewrite trajectory_other by (destruct r; easy).
    replace (dropped FollowTrajectory r) with r by (destruct r; easy). reflexivity.
  Qed.

  Lemma free_polyline : forall fuel done s n,
    (Datatypes.S done <= n)%nat ->
    within_passes n (frame (Datatypes.S fuel) done Free FollowPolylineR s).
  Proof.
    intros fuel done s n N.
    set (s1 := State E (entity E s) None (moves E s)).
    destruct (act FollowTrajectory FollowPolylineR s1) as [[[] s2]|] eqn:A.
    4: { apply (pass_over _ _ _ _ _ NoRequest s2); [reflexivity| |exact N].
         change (consulted vehicle_order Free) with (LaneChange :: FollowTrajectory :: lane_order).
         remember lane_order as lo. cbn [turn].
         rewrite lane_change_other by discriminate.
         change (dropped LaneChange FollowPolylineR) with FollowPolylineR. fold s1. rewrite A.
         reflexivity. }
    all: cbn [list_frame];
      change (consulted vehicle_order Free) with (LaneChange :: FollowTrajectory :: lane_order);
      remember lane_order as lo; cbn [turn]; rewrite lane_change_other by discriminate;
      change (dropped LaneChange FollowPolylineR) with FollowPolylineR; fold s1; rewrite A;
      try exact I; cbn; exact N.
  Qed.

  (** A lane change that ends leaves no plan and the vehicle where it landed. *)
  Lemma lane_change_ends : forall r s s', act LaneChange r s = Some (Success, s') ->
    plan E s' = None /\ exists x e, entity E s' = land E w x e.
  Proof.
    intros r s s' H. cbn [vehicle_act] in H. unfold change_lane in H.
    destruct r; try discriminate H. destruct (lane_change p) as [q|]; [|discriminate H].
    assert (G : forall pl, lane_step E w p q pl s = Some (Success, s') ->
              plan E s' = None /\ exists x e, entity E s' = land E w x e).
    { intros pl G. unfold lane_step in G.
      match type of G with (if ?b then _ else _) = _ => destruct b end.
      - match type of G with (if ?b then _ else _) = _ => destruct b end; discriminate G.
      - match type of G with (if ?b then _ else _) = _ => destruct b end; [discriminate G|].
        injection G as <-. split; [reflexivity|]. eexists. eexists. reflexivity. }
    destruct (plan E s) as [pl|]; [exact (G _ H)|].
    destruct (negb (in_lane E w (entity E s))); [discriminate H|].
    destruct (plan_curve_from E w (entity E s)) as [cu|]; [|discriminate H].
    destruct (lane_velocity E w p q cu (entity E s)) as [v|]; [|discriminate H].
    exact (G _ H).
  Qed.

  Lemma free_lane_change_fails : forall fuel done s s1 n,
    act LaneChange LaneChangeR s = Some (Failure, s1) -> (Datatypes.S done <= n)%nat ->
    within_passes n (frame (Datatypes.S fuel) done Free LaneChangeR s).
  Proof.
    intros fuel done s s1 n A N. apply (pass_over _ _ _ _ _ NoRequest s1); [reflexivity| |exact N].
    change (consulted vehicle_order Free) with (LaneChange :: FollowTrajectory :: lane_order).
    remember lane_order as lo. cbn [turn]. rewrite A.
    change (dropped LaneChange LaneChangeR) with NoRequest.
    rewrite trajectory_other by discriminate. reflexivity.
  Qed.

  Lemma free_lane_change : forall fuel done s n,
    (forall x e, plan_curve_from E w (land E w x e) = None) ->
    (Datatypes.S (Datatypes.S done) <= n)%nat ->
    within_passes n (frame (Datatypes.S (Datatypes.S fuel)) done Free LaneChangeR s).
  Proof.
    intros fuel done s n P N.
    destruct (act LaneChange LaneChangeR s) as [[[] s1]|] eqn:A.
    4: { apply (free_lane_change_fails _ _ _ s1); [exact A | lia]. }
    1,2,4: cbn [list_frame];
      change (consulted vehicle_order Free) with (LaneChange :: FollowTrajectory :: lane_order);
      cbn [turn]; rewrite A; cbn; solve [exact I | lia].
    remember (Datatypes.S fuel) as f. cbn [list_frame].
    change (consulted vehicle_order Free) with (LaneChange :: FollowTrajectory :: lane_order).
    cbn [turn]. rewrite A. cbn [is_busy before_vehicle String.eqb Ascii.eqb Bool.eqb]. subst f.
    destruct (lane_change_ends _ _ _ A) as (NP & x & e & EN).
    apply (free_lane_change_fails _ _ _ s1); [|exact N].
    cbn [vehicle_act] in A |- *. unfold change_lane in A |- *.
    destruct (lane_change p) as [q|].
    - clear A. rewrite NP. rewrite EN, P. destruct (negb _); reflexivity.
    - discriminate A.
  Qed.

  Lemma free_passes : forall fuel done r s n,
    r <> WalkStraightR ->
    (forall x e, plan_curve_from E w (land E w x e) = None) ->
    (Datatypes.S (Datatypes.S done) <= n)%nat ->
    within_passes n (frame (Datatypes.S (Datatypes.S fuel)) done Free r s).
  Proof.
    intros fuel done r s n NW P N. destruct r; try congruence.
    - apply free_following; [reflexivity | lia].
    - apply free_lane_change; assumption.
    - apply free_following; [reflexivity | lia].
    - apply free_polyline; lia.
  Qed.

  Lemma dropped_walk : forall l r, r <> WalkStraightR -> dropped l r <> WalkStraightR.
  Proof. intros l r H. destruct l, r; easy. Qed.

  Lemma turn_walk : forall ls r s, r <> WalkStraightR ->
    match turn act ls r s with
    | Some (NobodyActs r' _) => r' <> WalkStraightR
    | _ => True
    end.
  Proof.
    induction ls as [|l ls IH]; intros r s H; [exact H|]. cbn [turn].
    destruct (act l r s) as [[[] s1]|]; try exact I. apply IH. apply dropped_walk. exact H.
  Qed.

  Lemma only_first_root : forall l, String.eqb (before_vehicle l) "root" = true -> In l vehicle_order ->
    l = LaneChange.
  Proof.
    intros l B I. cbn in I.
    destruct I as [<- | [<- | [<- | [<- | [<- | [<- | [<- | [<- | [<- | []]]]]]]]]]; easy.
  Qed.

  Lemma from_on_in : forall l k ls, In l (from_on k ls) -> In l ls.
  Proof.
    intros l k ls. induction ls as [|x ls IH]; intros H; [exact H|]. cbn in H.
    destruct (leaf_eqb x k); [exact H | right; exact (IH H)].
  Qed.

  Lemma from_on_first : forall l k, In k vehicle_order -> In l (from_on k vehicle_order) ->
    l = LaneChange -> k = LaneChange.
  Proof.
    intros l k K H ->. cbn in K.
    destruct K as [<- | [<- | [<- | [<- | [<- | [<- | [<- | [<- | [<- | []]]]]]]]]];
      [reflexivity|..]; cbn in H; exfalso;
      repeat (destruct H as [H|H]; [discriminate H|]); exact H.
  Qed.

  Lemma vehicle_passes : forall fuel q r s,
    r <> WalkStraightR ->
    (forall x e, plan_curve_from E w (land E w x e) = None) ->
    (q = Free \/ exists l, q = Busy l /\ In l vehicle_order) ->
    within_passes 3 (frame (3 + fuel) 0 q r s).
  Proof.
    intros fuel q r s NW P [-> | (k & -> & K)]; [apply free_passes; auto|].
    cbn [Nat.add]. remember (Datatypes.S (Datatypes.S fuel)) as f. cbn [list_frame].
    pose proof (turn_walk (consulted vehicle_order (Busy k)) r s NW) as W.
    destruct (turn act (consulted vehicle_order (Busy k)) r s) as [[l st r1 s1 | r1 s1]|] eqn:T.
    - destruct (turn_in _ _ _ _ _ _ _ _ T) as [I [-> | ->]]; [cbn; lia|].
      destruct (is_busy (Busy k) l) eqn:B; [cbn; lia|].
      destruct (String.eqb (before_vehicle l) "root") eqn:R; [|cbn; lia].
      exfalso. cbn [consulted] in I. cbn [is_busy] in B.
      pose proof (only_first_root l R (from_on_in _ _ _ I)) as X.
      pose proof (from_on_first l k K I X) as Y. subst. discriminate B.
    - subst f. apply free_passes; auto.
    - exact I.
  Qed.

  (** ** The request a vehicle cannot have *)

  Lemma vehicle_walk_free : forall fuel done s,
    fst (frame fuel done Free WalkStraightR s) = Endless.
  Proof.
    induction fuel as [|fuel IH]; intros done s; [reflexivity|]. cbn [list_frame].
    change (consulted vehicle_order Free) with (LaneChange :: FollowTrajectory :: lane_order).
    remember lane_order as lo eqn:LO. cbn [turn]. rewrite lane_change_other by discriminate.
    rewrite trajectory_other by discriminate.
    change (dropped FollowTrajectory (dropped LaneChange WalkStraightR)) with WalkStraightR.
    subst lo. rewrite others_decline; [apply IH | reflexivity | intros l L; exact L].
  Qed.

  Lemma vehicle_walk : forall fuel q done s,
    (q = Free \/ exists l, q = Busy l /\ In l vehicle_order) ->
    fst (frame fuel done q WalkStraightR s) = Endless.
  Proof.
    intros [|fuel] q done s Q; [reflexivity|]. destruct Q as [-> | (l & -> & L)].
    { apply vehicle_walk_free. }
    cbn [list_frame].
    assert (T : exists s', turn act (consulted vehicle_order (Busy l)) WalkStraightR s
                           = Some (NobodyActs WalkStraightR s')).
    { cbn [consulted]. destruct L as [<- | [<- | L]].
      - change (from_on LaneChange vehicle_order) with (LaneChange :: FollowTrajectory :: lane_order).
        remember lane_order as lo eqn:LO. cbn [turn]. rewrite lane_change_other by discriminate.
        rewrite trajectory_other by discriminate.
        change (dropped FollowTrajectory (dropped LaneChange WalkStraightR)) with WalkStraightR.
        subst lo. eexists. apply others_decline; [reflexivity | intros l L; exact L].
      - change (from_on FollowTrajectory vehicle_order) with (FollowTrajectory :: lane_order).
        remember lane_order as lo eqn:LO. cbn [turn].
        rewrite trajectory_other by discriminate.
        change (dropped FollowTrajectory WalkStraightR) with WalkStraightR.
        subst lo. eexists. apply others_decline; [reflexivity | intros l L; exact L].
      - exists s. apply others_decline; [reflexivity|]. intros k H.
        destruct (vehicle_busy_lane l L) as (_ & N1 & N2).
        change vehicle_order with (LaneChange :: FollowTrajectory :: lane_order) in H.
        cbn [from_on] in H. rewrite N1, N2 in H. apply (from_on_in _ _ _ H). }
    destruct T as (s' & ->). apply vehicle_walk_free.
  Qed.
End Actions.
