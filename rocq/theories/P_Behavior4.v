(** * The decisions of a vehicle that follows its lane *)

From Coq Require Import String List Bool QArith Qminmax Lqa Lia.
From Verif Require Import M_Behavior S_Behavior P_Behavior P_Behavior2 P_Behavior3.
Import ListNotations.
Open Scope Q_scope.

Lemma half : forall x, x * (1 # 2) == x / 2.
Proof. intros. field. Qed.

Section Decide.
  Context {E : Type}.
  Variables (w : world E) (p : settings).
  Notation act := (vehicle_act E w p).

  Lemma exceeds_true : forall o f, exceeds o f = true <-> within o (fun d => f d = true).
  Proof. intros [d|] f; cbn; [reflexivity | split; [discriminate | tauto]]. Qed.

  Lemma exceeds_false : forall o f, exceeds o f = false <-> ~ within o (fun d => f d = true).
  Proof.
    intros [d|] f; cbn; [|tauto]. destruct (f d); split; congruence.
  Qed.

  Lemma within_iff : forall o (P R : Q -> Prop), (forall d, P d <-> R d) -> within o P <-> within o R.
  Proof. intros [d|] P R H; cbn; [apply H | tauto]. Qed.

  Lemma horizon_sight : forall e, horizon E w e == sight w e.
  Proof.
    intros e. unfold horizon, sight.
    destruct (lt (speed E w e * 5) 20) eqn:A; reflect_q.
    - rewrite Q.max_l by lra. rewrite Q.min_r by lra. reflexivity.
    - destruct (lt 50 (speed E w e * 5)) eqn:B; reflect_q.
      + rewrite Q.max_r by lra. rewrite Q.min_l by lra. reflexivity.
      + rewrite Q.max_r by lra. rewrite Q.min_r by lra. ring.
  Qed.

  Lemma aim_wanted : forall e v, aim w p e v <-> v = wanted E w p e.
  Proof.
    intros e v. unfold aim, wanted. destruct (target_speed p) as [t|]; split.
    - intros [H | [H _]]; congruence.
    - intros ->. left. reflexivity.
    - intros [H | [_ H]]; congruence.
    - intros ->. right. split; reflexivity.
  Qed.

  Lemma gap_lane : forall e d, front_of_lane E w p e = Some d <-> gap_for_lane w p e d.
  Proof.
    intros e d. unfold front_of_lane, front_distance. split.
    - destruct (by_path p) eqn:B.
      + destruct (path_front E w e) as [[x v]|] eqn:F; [|discriminate].
        intros X; injection X as <-. exact (G_path w p e x v B F).
      + destruct (lane_front E w e) as [f|] eqn:F; [|discriminate]. intros G. exact (G_lane w p e f d B F G).
    - intros [x v B F | f x B F G]; rewrite B, F; [reflexivity | exact G].
  Qed.

  Lemma gap_follow : forall e d v, front_to_follow E w p e = Some (d, v) <-> gap_to_follow w p e d v.
  Proof.
    intros e d v. unfold front_to_follow. split.
    - destruct (by_path p) eqn:B.
      + intros F. exact (F_path w p e d v B F).
      + destruct (lane_front E w e) as [f|] eqn:F; [|discriminate]. intros G. injection G as <- <-.
        exact (F_lane w p e f B F).
    - intros [x u B F | f B F]; rewrite B, F; reflexivity.
  Qed.

  Lemma gap_stop : forall e d, front_distance E w e = Some d <-> gap_for_stop w e d.
  Proof.
    intros e d. unfold front_distance. split.
    - destruct (lane_front E w e) as [f|] eqn:F; [|discriminate]. intros G. exact (S_lane w e f d F G).
    - intros [f x F G]. rewrite F. exact G.
  Qed.

  Lemma within_gap : forall e (P : Q -> Prop),
    within (front_distance E w e) P <-> exists f, gap_for_stop w e f /\ P f.
  Proof.
    intros e P. split.
    - destruct (front_distance E w e) as [d|] eqn:F; cbn; [|tauto]. intros H. exists d.
      split; [apply gap_stop; exact F | exact H].
    - intros (f & G & H). apply gap_stop in G. rewrite G. exact H.
  Qed.

  Lemma within_gap_lane : forall e (P : Q -> Prop),
    within (front_of_lane E w p e) P <-> exists f, gap_for_lane w p e f /\ P f.
  Proof.
    intros e P. split.
    - destruct (front_of_lane E w p e) as [d|] eqn:F; cbn; [|tauto]. intros H. exists d.
      split; [apply gap_lane; exact F | exact H].
    - intros (f & G & H). apply gap_lane in G. rewrite G. exact H.
  Qed.

  Lemma follow_lane_decides : forall r s,
    lane_following r = true -> in_lane E w (entity E s) = true -> 0 <= speed E w (entity E s) ->
    (hindered w p (entity E s) /\ follow_lane E w p r s = Some (Failure, s))
    \/ (~ hindered w p (entity E s)
        /\ follow_lane E w p r s = running E (drive E w FollowLane (wanted E w p (entity E s)) s)).
  Proof.
    intros r s F L V. unfold follow_lane. rewrite F, L. cbn [negb].
    replace (lt (speed E w (entity E s)) 0) with false by (symmetry; apply lt_false; exact V).
    unfold hindered. destruct (see_around p); cbn [andb]; [|right; split; [intros [X _]; discriminate|reflexivity]].
    destruct (right_of_way E w) eqn:R; [left; split; [tauto | reflexivity]|].
    assert (G1 := within_gap_lane (entity E s)
                    (fun d => d <= stop_distance E w (entity E s) + length_ p + 5)).
    assert (G2 := within_iff (front_of_lane E w p (entity E s))
                    (fun d => le d (stop_distance E w (entity E s) + length_ p + 5) = true) _
                    (fun d => le_true d _)).
    destruct (exceeds (front_of_lane E w p (entity E s)) _) eqn:X1.
    { left. apply exceeds_true in X1. split; [|reflexivity]. split; [reflexivity|].
      right. left. apply G1, G2, X1. }
    apply exceeds_false in X1.
    assert (G3 := within_iff (light_line E w (entity E s))
                    (fun d => le d (horizon E w (entity E s)) = true)
                    (fun d => d <= sight w (entity E s))
                    (fun d => ltac:(rewrite le_true, horizon_sight; reflexivity))).
    destruct (exceeds (light_line E w (entity E s)) _) eqn:X2.
    { left. apply exceeds_true in X2. split; [|reflexivity]. split; [reflexivity|].
      right. right. left. apply G3, X2. }
    apply exceeds_false in X2.
    assert (G4 := within_iff (stop_line E w (entity E s))
                    (fun d => le d (stop_distance E w (entity E s) + length_ p * (1 # 2) + 5) = true)
                    (fun d => d <= stop_distance E w (entity E s) + length_ p / 2 + 5)
                    (fun d => ltac:(rewrite le_true, half; reflexivity))).
    destruct (exceeds (stop_line E w (entity E s)) _) eqn:X3.
    { left. apply exceeds_true in X3. split; [|reflexivity]. split; [reflexivity|].
      right. right. right. left. apply G4, X3. }
    apply exceeds_false in X3.
    assert (G5 := within_iff (conflict E w (entity E s))
                    (fun d => lt d (length_ p + 3 + stop_distance E w (entity E s)) = true) _
                    (fun d => lt_true d _)).
    destruct (exceeds (conflict E w (entity E s)) _) eqn:X4.
    { left. apply exceeds_true in X4. split; [|reflexivity]. split; [reflexivity|].
      right. right. right. right. apply G5, X4. }
    apply exceeds_false in X4.
    right. split; [|reflexivity]. rewrite <- G1, <- G2, <- G3, <- G4, <- G5. intros [_ H].
    destruct H as [H|H]; [discriminate|]. tauto.
  Qed.

  Lemma approach_stopping : forall d e, stopping w p e d (approach E w p d e).
  Proof.
    intros d e. unfold stopping, approach. pose proof (half (length_ p)) as H.
    destruct (lt (d - (length_ p * (1 # 2) + 1)) (stop_distance E w e)) eqn:X; reflect_q.
    - left. split; [rewrite <- H; exact X | reflexivity].
    - right. split; [rewrite <- H; exact X | reflexivity].
  Qed.

  Lemma capped_limited : forall d e, stopping_limited w p e d (capped p (approach E w p d e)).
  Proof.
    intros d e. exists (approach E w p d e). split; [apply approach_stopping|].
    unfold capped. destruct (target_speed p) as [x|]; [right | left; split; reflexivity].
    exists x. split; [reflexivity|]. destruct (lt (approach E w p d e) x) eqn:X; reflect_q.
    - rewrite Q.min_r by lra. reflexivity.
    - rewrite Q.min_l by lra. reflexivity.
  Qed.

  Lemma behind_following : forall d v e, 0 <= wanted E w p e -> v < wanted E w p e ->
    exists t, behind E w p d v (wanted E w p e) e = Some t /\ following w p e d v t.
  Proof.
    intros d v e W V. unfold behind.
    replace (lt (wanted E w p e) 0) with false by (symmetry; apply lt_false; exact W).
    eexists. split; [reflexivity|]. exists (wanted E w p e).
    split; [apply aim_wanted; reflexivity|]. right.
    assert (CL : forall asked, (if lt asked 0 then 0 else if lt (wanted E w p e) asked
                                then wanted E w p e else asked)
                               == Qmin (wanted E w p e) (Qmax 0 asked)).
    { intros asked. destruct (lt asked 0) eqn:A; reflect_q.
      - rewrite Q.max_l by lra. rewrite Q.min_r by lra. reflexivity.
      - destruct (lt (wanted E w p e) asked) eqn:B; reflect_q.
        + rewrite Q.max_r by lra. rewrite Q.min_l by lra. reflexivity.
        + rewrite Q.max_r by lra. rewrite Q.min_r by lra. reflexivity. }
    destruct (le d (stop_distance E w e)) eqn:A; reflect_q.
    - left. split; [exact V|]. split; [exact A|]. rewrite CL.
      rewrite Q.max_l by lra. rewrite Q.min_r by lra. reflexivity.
    - destruct (le (stop_distance E w e + length_ p + 5) d) eqn:B; reflect_q.
      + right. left. split; [exact V|]. split; [exact B|]. split; [exact A|]. apply CL.
      + right. right. split; [exact V|]. split; [split; assumption|]. apply CL.
  Qed.

  (** The actions one by one, for a vehicle on a lane that sees around and need not yield. *)
  Section Watching.
    Variables (r : request) (s : state E).
    Hypothesis F : lane_following r = true.
    Hypothesis L : in_lane E w (entity E s) = true.
    Hypothesis V : 0 <= speed E w (entity E s).
    Hypothesis A : see_around p = true.
    Hypothesis N : right_of_way E w = false.

    Lemma forwards : lt (speed E w (entity E s)) 0 = false.
    Proof using V. apply lt_false. exact V. Qed.

    Lemma drives : forall l t,
      drive E w l t s = Some (moved E l (Drive t) (advance E w t (entity E s)) s).
    Proof using L. intros. unfold drive. rewrite L. reflexivity. Qed.

    Lemma front_decides : 0 <= wanted E w p (entity E s) ->
      (exists d v t, front_first w p (entity E s) d v /\ following w p (entity E s) d v t
         /\ follow_front_entity E w p r s
            = Some (Running, moved E FollowFrontEntity (Drive t) (advance E w t (entity E s)) s))
      \/ ((forall d v, ~ front_first w p (entity E s) d v)
          /\ follow_front_entity E w p r s = Some (Failure, s)).
    Proof using F L V A N.
      intros W. unfold follow_front_entity. rewrite F, A, N, L, forwards. cbn [negb].
      destruct (front_to_follow E w p (entity E s)) as [[d v]|] eqn:FF.
      2:{ right. split; [|reflexivity]. intros d v (G & _). apply gap_follow in G. congruence. }
      assert (UN : forall d' v', gap_to_follow w p (entity E s) d' v' -> d' = d /\ v' = v).
      { intros d' v' G. apply gap_follow in G. rewrite FF in G. injection G as -> ->. split; reflexivity. }
      apply gap_follow in FF.
      assert (G1 := within_iff (conflict E w (entity E s)) (fun c => lt c d = true) _
                      (fun c => lt_true c d)).
      assert (G2 := within_iff (stop_line E w (entity E s)) (fun c => lt c d = true) _
                      (fun c => lt_true c d)).
      destruct (exceeds (conflict E w (entity E s)) _) eqn:X1.
      { right. split; [|reflexivity]. intros d' v' (G & C & _). destruct (UN _ _ G) as [-> ->].
        apply C, G1, exceeds_true, X1. }
      destruct (exceeds (stop_line E w (entity E s)) _) eqn:X2.
      { right. split; [|reflexivity]. intros d' v' (G & _ & C). destruct (UN _ _ G) as [-> ->].
        apply C, G2, exceeds_true, X2. }
      apply exceeds_false in X1, X2. left. exists d, v.
      assert (FF1 : front_first w p (entity E s) d v).
      { split; [exact FF|]. rewrite <- G1, <- G2. split; assumption. }
      destruct (le (wanted E w p (entity E s)) v) eqn:X3; reflect_q.
      - exists (wanted E w p (entity E s)). split; [exact FF1|]. rewrite drives.
        split; [|reflexivity]. exists (wanted E w p (entity E s)).
        split; [apply aim_wanted; reflexivity|]. left. split; [exact X3 | reflexivity].
      - destruct (behind_following d v (entity E s) W X3) as (t & B & FO).
        exists t. split; [exact FF1|]. split; [exact FO|]. rewrite B, drives. reflexivity.
    Qed.

    Lemma light_decides :
      (exists d t, red_light w (entity E s) d /\ stopping_limited w p (entity E s) d t
         /\ stop_at_traffic_light E w p r s
            = Some (Running, moved E StopAtTrafficLight (Drive t) (advance E w t (entity E s)) s))
      \/ ((forall d, ~ red_light w (entity E s) d)
          /\ stop_at_traffic_light E w p r s = Some (Failure, s)).
    Proof using F L V A N.
      unfold stop_at_traffic_light. rewrite F, A, N, L, forwards. cbn [negb].
      destruct (light_line E w (entity E s)) as [d|] eqn:LL.
      2:{ right. split; [|reflexivity]. intros d (X & _). congruence. }
      destruct (lt (horizon E w (entity E s)) d) eqn:X; reflect_q.
      - right. split; [|reflexivity]. intros d' (Y & Z). rewrite LL in Y. injection Y as <-.
        rewrite horizon_sight in X. lra.
      - left. exists d. eexists. split; [split; [exact LL | rewrite <- horizon_sight; exact X]|].
        split; [apply capped_limited|]. rewrite drives. reflexivity.
    Qed.

    Lemma line_decides :
      (exists d t, stop_line_first w (entity E s) d /\ at_line w p (entity E s) d t
         /\ stop_at_stop_line E w p r s
            = Some (Running, moved E StopAtStopLine (Drive t) (advance E w t (entity E s)) s))
      \/ ((forall d, ~ stop_line_first w (entity E s) d)
          /\ stop_at_stop_line E w p r s = Some (Failure, s)).
    Proof using F L V A N.
      unfold stop_at_stop_line. rewrite F, A, N, L, forwards. cbn [negb].
      destruct (stop_line E w (entity E s)) as [d|] eqn:SL.
      2:{ right. split; [|reflexivity]. intros d (X & _). congruence. }
      assert (UN : forall d', stop_line E w (entity E s) = Some d' -> d' = d)
        by (intros d' X; congruence).
      assert (G1 := within_iff (front_distance E w (entity E s)) (fun c => le c d = true) _
                      (fun c => le_true c d)). rewrite within_gap in G1.
      assert (G2 := within_iff (conflict E w (entity E s)) (fun c => le c d = true) _
                      (fun c => le_true c d)).
      destruct (exceeds (front_distance E w (entity E s)) _) eqn:X1.
      { right. split; [|reflexivity]. intros d' (X & C & _). rewrite SL in X. injection X as <-.
        apply C. apply within_gap. apply (within_iff _ _ _ (fun c => le_true c d)).
        apply exceeds_true, X1. }
      destruct (exceeds (conflict E w (entity E s)) _) eqn:X2.
      { right. split; [|reflexivity]. intros d' (X & _ & C). rewrite SL in X. injection X as <-.
        apply C. apply G2, exceeds_true, X2. }
      apply exceeds_false in X1, X2. left. exists d.
      assert (FI : stop_line_first w (entity E s) d).
      { split; [exact SL|]. split.
        - intros X. apply within_gap in X. apply (within_iff _ _ _ (fun c => le_true c d)) in X.
          apply X1, X.
        - rewrite <- G2. exact X2. }
      destruct (lt (- (1 # 1000)) (speed E w (entity E s)) && lt (speed E w (entity E s)) (1 # 1000)
                && le d (length_ p + 5)) eqn:X3.
      - apply andb_true_iff in X3. destruct X3 as [X3 X4]. apply andb_true_iff in X3.
        destruct X3 as [X3 X5]. reflect_q. exists (wanted E w p (entity E s)).
        split; [exact FI|]. rewrite drives. split; [|reflexivity]. left.
        split; [split; assumption|]. split; [assumption|]. exists (wanted E w p (entity E s)).
        split; [apply aim_wanted; reflexivity | reflexivity].
      - eexists. split; [exact FI|]. rewrite drives. split; [|reflexivity]. right.
        split; [|apply capped_limited]. intros ((Y1 & Y2) & Y3). apply lt_true in Y1, Y2.
        apply le_true in Y3. rewrite Y1, Y2, Y3 in X3. discriminate.
    Qed.

    Lemma crossing_decides :
      (exists d t, crossing_first w (entity E s) d /\ stopping_limited w p (entity E s) d t
         /\ stop_at_crossing_entity E w p r s
            = Some (Running, moved E StopAtCrossingEntity (Drive t) (advance E w t (entity E s)) s))
      \/ ((forall d, ~ crossing_first w (entity E s) d)
          /\ stop_at_crossing_entity E w p r s = Some (Failure, s)).
    Proof using F L V A N.
      unfold stop_at_crossing_entity. rewrite F, A, N, L, forwards. cbn [negb].
      destruct (conflict E w (entity E s)) as [d|] eqn:SL.
      2:{ right. split; [|reflexivity]. intros d (X & _). congruence. }
      assert (G2 := within_iff (stop_line E w (entity E s)) (fun c => le c d = true) _
                      (fun c => le_true c d)).
      destruct (exceeds (front_distance E w (entity E s)) _) eqn:X1.
      { right. split; [|reflexivity]. intros d' (X & C & _). rewrite SL in X. injection X as <-.
        apply C. apply within_gap. apply (within_iff _ _ _ (fun c => le_true c d)).
        apply exceeds_true, X1. }
      destruct (exceeds (stop_line E w (entity E s)) _) eqn:X2.
      { right. split; [|reflexivity]. intros d' (X & _ & C). rewrite SL in X. injection X as <-.
        apply C. apply G2, exceeds_true, X2. }
      apply exceeds_false in X1, X2. left. exists d. eexists. rewrite drives.
      split; [|split; [apply capped_limited | reflexivity]].
      split; [exact SL|]. split.
      - intros X. apply within_gap in X. apply (within_iff _ _ _ (fun c => le_true c d)) in X.
        apply X1, X.
      - rewrite <- G2. exact X2.
    Qed.
  End Watching.

  (** What a vehicle that follows its lane does in a pass over the lane sequence. *)
  Lemma decides : forall r s,
    lane_following r = true -> in_lane E w (entity E s) = true -> 0 <= speed E w (entity E s) ->
    orderly w p (entity E s) ->
    exists l t st, decision w p (entity E s) l t
      /\ (st = Running /\ (l = Yield -> right_of_way E w = true)
          \/ l = Yield /\ right_of_way E w = false /\ st = Success)
      /\ turn act lane_order r s
         = Some (Acts l st (match l with FollowLane => r | _ => NoRequest end)
                   (moved E l (Drive t) (advance E w t (entity E s)) s)).
  Proof.
    intros r s F L V (O1 & O2 & O3).
    assert (W : 0 <= wanted E w p (entity E s)) by (apply O1; apply aim_wanted; reflexivity).
    assert (DR : dropped FollowLane r = NoRequest) by (destruct r; easy).
    assert (Y : forall t st, 0 <= t ->
              yielded E w st (drive E w Yield t s)
              = Some (st, moved E Yield (Drive t) (advance E w t (entity E s)) s)).
    { intros t st T. unfold drive. rewrite L. unfold yielded, moved. cbn [entity].
      destruct (O3 t) as [IL SP]. rewrite IL. cbn [negb].
      replace (lt (speed E w (advance E w t (entity E s))) 0) with false
        by (symmetry; apply lt_false; apply SP; assumption).
      reflexivity. }
    change lane_order with (FollowLane :: selector_order). cbn [turn].
    change (vehicle_act E w p FollowLane r s) with (follow_lane E w p r s).
    destruct (follow_lane_decides r s F L V) as [[H ->] | [H ->]].
    2:{ unfold drive. rewrite L. cbn [running].
        exists FollowLane, (wanted E w p (entity E s)), Running.
        split; [apply D_clear; [exact H | apply aim_wanted; reflexivity]|].
        split; [left; split; [reflexivity | discriminate] | reflexivity]. }
    rewrite DR. assert (A : see_around p = true) by (destruct H; assumption).
    unfold selector_order. cbn [turn]. unfold vehicle_act at 1.
    destruct (right_of_way E w) eqn:R.
    - unfold follow_front_entity. rewrite R. cbn [lane_following negb]. unfold fail at 1.
      cbn [dropped request_of]. unfold vehicle_act at 1, stop_at_traffic_light.
      rewrite R, A, L. cbn [lane_following negb]. unfold fail at 1. cbn [dropped request_of].
      unfold vehicle_act at 1, stop_at_stop_line. rewrite R, A. cbn [lane_following negb].
      unfold fail at 1. cbn [dropped request_of].
      unfold vehicle_act at 1, stop_at_crossing_entity. rewrite R, A, L. cbn [lane_following negb].
      unfold fail at 1. cbn [dropped request_of].
      unfold vehicle_act at 1, yield. rewrite R, A, L. cbn [lane_following negb].
      set (t := match yield_line E w (entity E s) with
                | Some d => approach E w p d (entity E s)
                | None => limit E w (entity E s) end).
      assert (T : 0 <= t).
      { unfold t. destruct (yield_line E w (entity E s)) as [d|]; [|exact O2].
        unfold approach. destruct (lt _ _); [lra | exact V]. }
      rewrite (Y t Running T). exists Yield, t, Running.
      split; [|split; [left; split; [reflexivity | intros _; reflexivity] | reflexivity]].
      apply D_yield; [exact H | exact R|]. unfold t.
      destruct (yield_line E w (entity E s)) as [d|] eqn:YL.
      + right. exists d. split; [reflexivity | apply approach_stopping].
      + left. split; reflexivity.
    - assert (FN : lane_following NoRequest = true) by reflexivity.
      destruct (front_decides NoRequest s FN L V A R W) as [(d & v & t & FF & FO & ->) | [NF ->]].
      { exists FollowFrontEntity, t, Running.
        split; [exact (D_front w p (entity E s) d v t H R FF FO)|].
        split; [left; split; [reflexivity | discriminate] | reflexivity]. }
      cbn [dropped request_of].
      change (vehicle_act E w p StopAtTrafficLight NoRequest s)
        with (stop_at_traffic_light E w p NoRequest s).
      destruct (light_decides NoRequest s FN L V A R) as [(d & t & RL & ST & ->) | [NL ->]].
      { exists StopAtTrafficLight, t, Running.
        split; [exact (D_light w p (entity E s) d t H R NF RL ST)|].
        split; [left; split; [reflexivity | discriminate] | reflexivity]. }
      cbn [dropped request_of].
      change (vehicle_act E w p StopAtStopLine NoRequest s)
        with (stop_at_stop_line E w p NoRequest s).
      destruct (line_decides NoRequest s FN L V A R) as [(d & t & SL & ST & ->) | [NS ->]].
      { exists StopAtStopLine, t, Running.
        split; [exact (D_line w p (entity E s) d t H R NF NL SL ST)|].
        split; [left; split; [reflexivity | discriminate] | reflexivity]. }
      cbn [dropped request_of].
      change (vehicle_act E w p StopAtCrossingEntity NoRequest s)
        with (stop_at_crossing_entity E w p NoRequest s).
      destruct (crossing_decides NoRequest s FN L V A R) as [(d & t & SL & ST & ->) | [NC ->]].
      { exists StopAtCrossingEntity, t, Running.
        split; [exact (D_crossing w p (entity E s) d t H R NF NL NS SL ST)|].
        split; [left; split; [reflexivity | discriminate] | reflexivity]. }
      cbn [dropped request_of].
      change (vehicle_act E w p Yield NoRequest s) with (yield E w p NoRequest s).
      unfold yield. rewrite R, A, L. cbn [lane_following negb]. rewrite (Y _ _ W).
      exists Yield, (wanted E w p (entity E s)), Success.
      split; [apply D_through; auto; apply aim_wanted; reflexivity|].
      split; [right; repeat split; assumption | reflexivity].
  Qed.

  (** The decision is unique. *)
  Lemma stopping_unique : forall e d t t', stopping w p e d t -> stopping w p e d t' -> t == t'.
  Proof. intros e d t t' [[A B] | [A B]] [[C D] | [C D]]; lra. Qed.

  Lemma limited_unique : forall e d t t', stopping_limited w p e d t ->
    stopping_limited w p e d t' -> t == t'.
  Proof.
    intros e d t t' (b & B & C) (b' & B' & C'). pose proof (stopping_unique _ _ _ _ B B') as X.
    destruct C as [[N C] | (x & N & C)]; destruct C' as [[N' C'] | (x' & N' & C')]; try congruence.
    - lra.
    - rewrite N in N'. injection N' as <-. rewrite C, C', X. reflexivity.
  Qed.

  Lemma aim_unique : forall e a b, aim w p e a -> aim w p e b -> a = b.
  Proof. intros e a b A B. apply aim_wanted in A, B. congruence. Qed.

  Lemma following_unique : forall e d v t t', following w p e d v t -> following w p e d v t' -> t == t'.
  Proof.
    intros e d v t t' (a & A & H) (b & B & H'). rewrite <- (aim_unique _ _ _ A B) in H'.
    destruct H as [(X & Y) | [(X & Y & Z) | [(X & Y & Z & U) | (X & Y & Z)]]];
      destruct H' as [(X' & Y') | [(X' & Y' & Z') | [(X' & Y' & Z' & U') | (X' & Y' & Z')]]];
      try lra; rewrite ?U, ?U', ?Z, ?Z'; try reflexivity; lra.
  Qed.

  Lemma at_line_unique : forall e d t t', at_line w p e d t -> at_line w p e d t' -> t == t'.
  Proof.
    intros e d t t' [(A & B & a & C & D) | (A & B)] [(A' & B' & a' & C' & D') | (A' & B')].
    - rewrite <- (aim_unique _ _ _ C C') in D'. lra.
    - exfalso. apply A'. split; assumption.
    - exfalso. apply A. split; assumption.
    - exact (limited_unique _ _ _ _ B B').
  Qed.

  Lemma front_unique : forall e d v d' v', front_first w p e d v -> front_first w p e d' v' ->
    d = d' /\ v = v'.
  Proof.
    intros e d v d' v' (A & _) (B & _). apply gap_follow in A, B. rewrite A in B.
    injection B as -> ->. split; reflexivity.
  Qed.

  Lemma decision_unique : forall e l t l' t', decision w p e l t -> decision w p e l' t' ->
    l = l' /\ t == t'.
  Proof.
    intros e l t l' t' H H'.
    destruct H; destruct H'; try congruence; try tauto;
      try (exfalso;
           match goal with
           | A : forall d v, ~ front_first _ _ _ d v, B : front_first _ _ _ _ _ |- _ => exact (A _ _ B)
           | A : forall d, ~ red_light _ _ d, B : red_light _ _ _ |- _ => exact (A _ B)
           | A : forall d, ~ stop_line_first _ _ d, B : stop_line_first _ _ _ |- _ => exact (A _ B)
           | A : forall d, ~ crossing_first _ _ d, B : crossing_first _ _ _ |- _ => exact (A _ B)
           end); split; try reflexivity.
    - rewrite (aim_unique _ _ _ H0 H2). reflexivity.
    - destruct H1 as [[Y Z] | (d & Y & Z)]; destruct H4 as [[Y' Z'] | (d' & Y' & Z')]; try congruence.
      + lra.
      + rewrite Y in Y'. injection Y' as <-. exact (stopping_unique _ _ _ _ Z Z').
    - destruct (front_unique _ _ _ _ _ H1 H5) as [<- <-]. exact (following_unique _ _ _ _ _ H2 H6).
    - destruct H2 as [X _]. destruct H7 as [X' _]. rewrite X in X'. injection X' as <-.
      exact (limited_unique _ _ _ _ H3 H8).
    - destruct H3 as [X _]. destruct H9 as [X' _]. rewrite X in X'. injection X' as <-.
      exact (at_line_unique _ _ _ _ H4 H10).
    - destruct H4 as [X _]. destruct H11 as [X' _]. rewrite X in X'. injection X' as <-.
      exact (limited_unique _ _ _ _ H5 H12).
    - rewrite (aim_unique _ _ _ H5 H12). reflexivity.
  Qed.
End Decide.
