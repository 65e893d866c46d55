(** * C115 to C117: lane changes, vehicles off the lanes, pedestrians *)

From Coq Require Import String List Bool QArith Qminmax Lqa Lia.
From Verif Require Import M_Behavior S_Behavior P_Behavior P_Behavior2 P_Behavior3 P_Behavior4
  P_Behavior5 T_Behavior2 T_Behavior3.
Import ListNotations.
Open Scope Q_scope.

Definition count (n : nat) : Q := inject_Z (Z.of_nat n).

Lemma count_S : forall n, count (S n) == count n + 1.
Proof. intros n. unfold count. rewrite Nat2Z.inj_succ. unfold Z.succ. rewrite inject_Z_plus. reflexivity. Qed.

Lemma count_0 : count 0 == 0.
Proof. reflexivity. Qed.

Section Changes.
  Context {E : Type}.
  Variables (w : world E) (p : settings).

  (** Setting the speed sets it, and moving along the curve keeps it. *)
  Definition speed_kept : Prop :=
    (forall v a e, speed E w (with_speed E w v a e) = v)
    /\ (forall x e, speed E w (on_curve E w x e) = speed E w e).

  (** ** C115: lane changes *)

  (** The time a lane change of this shape has to take at least, from the constraint and the target
      speed of the vehicle. *)
  Definition takes (q : lane_request) (cu : curve) (e : E) (time : Q) : Prop :=
    match target_speed p with
    | None =>
        match lc_constraint q with
        | Duration T => time == T
        | LateralVelocity u => time == curve_offset cu / u
        | NoConstraint | LongitudinalDistance _ => time == curve_length cu / speed E w e
        end
    | Some t =>
        match lc_constraint q with
        | Duration T => time == Qmax T (curve_length cu / t)
        | LateralVelocity u => time == Qmax (curve_offset cu / u) (curve_length cu / t)
        | NoConstraint | LongitudinalDistance _ =>
            time == Qmax (curve_length cu / speed E w e) (curve_length cu / t)
        end
    end.

  Lemma list_lane_step : forall f done q s st s' lr,
    lane_change p = Some lr ->
    vehicle_act E w p LaneChange LaneChangeR s = Some (st, s') ->
    (q = Free \/ q = Busy LaneChange) ->
    st = Running ->
    list_frame vehicle_order before_vehicle (vehicle_act E w p) (S f) done q LaneChangeR s
    = (Did "lane_change" LaneChangeR s' (S done), Busy LaneChange).
  Proof using.
    intros f done q s st s' lr LC A Q ->. destruct Q as [-> | ->]; cbn [list_frame consulted];
      unfold vehicle_order at 1; cbn [from_on leaf_eqb turn]; rewrite A; reflexivity.
  Qed.

  (** The frame in which a lane change begins, whatever was in progress. *)
  Lemma lane_begins : forall t cur s s' lr k,
    reachable vehicle_tree t cur -> in_progress t <> Some LaneChange ->
    lane_change p = Some lr ->
    vehicle_act E w p LaneChange LaneChangeR s = Some (Running, s') ->
    exists t' n, vehicle_frame E w p (2 + k) t (Context LaneChangeR cur s)
      = Returned t' (Context LaneChangeR "lane_change" s') n
      /\ in_progress t' = Some LaneChange.
  Proof using.
    intros t cur s s' lr k R P LC A.
    assert (X : exists n, list_frame vehicle_order before_vehicle (vehicle_act E w p) (2 + k) 0
                  (position_of t) LaneChangeR s
                = (Did "lane_change" LaneChangeR s' n, Busy LaneChange)).
    { cbn [Nat.add]. destruct (positions t cur R) as [-> | [H | [-> | (l & -> & L)]]].
      - eexists. apply (list_lane_step _ _ _ _ _ _ _ LC A); auto.
      - exfalso. apply P. unfold position_of in H. destruct (in_progress t); congruence.
      - remember (S k) as f. cbn [list_frame].
        change (consulted vehicle_order (Busy FollowTrajectory)) with (FollowTrajectory :: lane_order).
        remember lane_order as rest eqn:RE. cbn [turn]. rewrite trajectory_other by discriminate.
        subst rest. change (dropped FollowTrajectory LaneChangeR) with LaneChangeR.
        rewrite others_decline; [|reflexivity | intros l H; exact H]. subst f.
        eexists. apply (list_lane_step _ _ _ _ _ _ _ LC A); auto.
      - rewrite second_pass; [|reflexivity | exists l; split; [reflexivity | exact L]].
        eexists. apply (list_lane_step _ _ _ _ _ _ _ LC A); auto. }
    destruct X as (n & X).
    destruct (vehicle_did w p t cur _ s (2 + k) _ _ _ _ _ R X) as (t' & U & PR & _).
    exists t', n. split; assumption.
  Qed.

  Lemma lane_goes_on : forall t cur s s' lr k,
    reachable vehicle_tree t cur -> in_progress t = Some LaneChange ->
    lane_change p = Some lr ->
    vehicle_act E w p LaneChange LaneChangeR s = Some (Running, s') ->
    exists t', vehicle_frame E w p (1 + k) t (Context LaneChangeR cur s)
      = Returned t' (Context LaneChangeR "lane_change" s') 1
      /\ in_progress t' = Some LaneChange.
  Proof using.
    intros t cur s s' lr k R P LC A.
    pose proof (list_lane_step k 0 (position_of t) s Running s' lr LC A
                  ltac:(rewrite (position_progress _ _ P); auto) eq_refl) as X.
    destruct (vehicle_did w p t cur _ s (1 + k) _ _ _ _ _ R X) as (t' & U & PR & _).
    exists t'. split; assumption.
  Qed.

  Lemma lane_finishes : forall t cur s s' lr k,
    reachable vehicle_tree t cur -> in_progress t = Some LaneChange ->
    lane_change p = Some lr ->
    vehicle_act E w p LaneChange LaneChangeR s = Some (Success, s') ->
    exists t', vehicle_frame E w p (1 + k) t (Context LaneChangeR cur s)
      = Returned t' (Context NoRequest "lane_change" s') 1
      /\ in_progress t' = None.
  Proof using.
    intros t cur s s' lr k R P LC A.
    assert (X : list_frame vehicle_order before_vehicle (vehicle_act E w p) (1 + k) 0
                  (position_of t) LaneChangeR s
                = (Did "lane_change" NoRequest s' 1, Free)).
    { rewrite (position_progress _ _ P). cbn [Nat.add list_frame consulted].
      unfold vehicle_order at 1. cbn [from_on leaf_eqb turn]. rewrite A. reflexivity. }
    destruct (vehicle_did w p t cur _ s (1 + k) _ _ _ _ _ R X) as (t' & U & PR & _).
    exists t'. split; assumption.
  Qed.

  (** *** With the policy that keeps the speed of the plan *)

  Lemma force_running : forall lr pl s, lc_policy lr = Force -> speed_kept ->
    0 <= plan_velocity pl ->
    plan_s pl + plan_velocity pl * step p < curve_length (plan_curve pl) ->
    exists e', lane_step E w p lr pl s
      = Some (Running, State E e'
          (Some (Plan (plan_curve pl) (plan_s pl + plan_velocity pl * step p) (plan_velocity pl)))
          ((LaneChange, Shift (plan_s pl + plan_velocity pl * step p)) :: moves E s))
      /\ speed E w e' = plan_velocity pl.
  Proof using.
    intros lr pl s PO (W & C) V H. unfold lane_step, lane_speed. rewrite PO. cbv zeta. rewrite W.
    rewrite (proj2 (lt_true _ _) H). rewrite C, W.
    assert (N : lt (plan_velocity pl) 0 = false) by (apply lt_false; exact V).
    rewrite N. eexists. split; [reflexivity|]. rewrite C, W. reflexivity.
  Qed.

  Lemma force_lands : forall lr pl s, lc_policy lr = Force -> speed_kept ->
    0 <= plan_velocity pl ->
    curve_length (plan_curve pl) <= plan_s pl + plan_velocity pl * step p ->
    exists e', lane_step E w p lr pl s
      = Some (Success, State E
          (land E w (plan_s pl + plan_velocity pl * step p - curve_length (plan_curve pl)
                     + curve_target (plan_curve pl)) e') None
          ((LaneChange, Land (plan_s pl + plan_velocity pl * step p
              - curve_length (plan_curve pl) + curve_target (plan_curve pl))) :: moves E s))
      /\ speed E w e' = plan_velocity pl.
  Proof using.
    intros lr pl s PO (W & C) V H. unfold lane_step, lane_speed. rewrite PO. cbv zeta. rewrite W.
    rewrite (proj2 (lt_false _ _) H). rewrite (proj2 (lt_false _ _) V).
    eexists. split; [reflexivity|]. apply W.
  Qed.

  Lemma act_in_plan : forall lr pl s, lane_change p = Some lr -> plan E s = Some pl ->
    vehicle_act E w p LaneChange LaneChangeR s = lane_step E w p lr pl s.
  Proof using. intros lr pl s LC P. cbn [vehicle_act]. unfold change_lane. rewrite LC, P. reflexivity. Qed.

  (** From a frame of the change on: [n] further frames. *)
  Lemma force_frames : forall lr cu v, lc_policy lr = Force -> speed_kept ->
    lane_change p = Some lr -> 0 <= v -> 0 <= step p ->
    forall n t cur s x, reachable vehicle_tree t cur -> in_progress t = Some LaneChange ->
      plan E s = Some (Plan cu x v) ->
      x + count n * (v * step p) < curve_length cu ->
      exists t' cur' s' y,
        frames w p n t (Context LaneChangeR cur s) = Some (t', Context LaneChangeR cur' s')
        /\ reachable vehicle_tree t' cur' /\ in_progress t' = Some LaneChange
        /\ (n = O \/ cur' = "lane_change"%string)
        /\ plan E s' = Some (Plan cu y v) /\ y == x + count n * (v * step p).
  Proof using.
    intros lr cu v PO SK LC V ST. induction n as [|n IH]; intros t cur s x R P PL H.
    - exists t, cur, s, x. cbn [frames]. split; [reflexivity|]. split; [exact R|].
      split; [exact P|]. split; [left; reflexivity|]. split; [exact PL|]. rewrite count_0. lra.
    - rewrite count_S in H.
      assert (VS : 0 <= v * step p) by nra.
      assert (CN : 0 <= count n * (v * step p)).
      { assert (0 <= count n) by (unfold count; change 0 with (inject_Z 0); rewrite <- Zle_Qle; lia).
        nra. }
      destruct (force_running lr (Plan cu x v) s PO SK V) as (e' & S1 & _);
        [cbn [plan_s plan_velocity plan_curve]; lra|].
      rewrite <- (act_in_plan lr (Plan cu x v) s LC PL) in S1.
      destruct (lane_goes_on t cur s _ lr 2 R P LC S1) as (t1 & U & P1).
      cbn [Nat.add] in U. cbn [frames]. rewrite U.
      match type of U with
      | _ = Returned _ (Context _ _ ?s1) _ =>
          destruct (IH t1 "lane_change"%string s1 (x + v * step p)
                      (reached_again _ _ _ _ _ _ _ _ _ _ R U) P1 eq_refl ltac:(lra))
            as (t' & cur' & s' & y & F & R' & P' & C' & PL' & Y)
      end.
      exists t', cur', s', y. split; [exact F|]. split; [exact R'|]. split; [exact P'|].
      split.
      { right. destruct C' as [-> | C']; [|exact C']. cbn [frames] in F. congruence. }
      split; [exact PL'|]. rewrite count_S, Y. lra.
  Qed.

  Lemma frames_S : forall n t c, frames w p (S n) t c
    = match vehicle_frame E w p 3 t c with
      | Returned t' c' _ => frames w p n t' c' | Threw | Looping => None end.
  Proof using. reflexivity. Qed.

  Lemma frames_app : forall n m t c, frames w p (n + m) t c
    = match frames w p n t c with Some (t', c') => frames w p m t' c' | None => None end.
  Proof using.
    induction n as [|n IH]; intros m t c; [reflexivity|]. cbn [Nat.add frames].
    destruct (vehicle_frame E w p 3 t c); [apply IH | reflexivity | reflexivity].
  Qed.

  (** What a request for a lane change, keeping the planned speed, meets. *)
  Definition forced (t : node leaf) (s : state E) (q : lane_request) (cu : curve) (v : Q) : Prop :=
    in_progress t <> Some LaneChange /\ plan E s = None /\ in_lane E w (entity E s) = true
    /\ lane_change p = Some q /\ lc_policy q = Force /\ speed_kept
    /\ plan_curve_from E w (entity E s) = Some cu
    /\ lane_velocity E w p q cu (entity E s) = Some v.

  Lemma first_frame : forall t cur s q cu v,
    reachable vehicle_tree t cur -> forced t s q cu v -> 0 <= v ->
    v * step p < curve_length cu ->
    exists t' s' n y,
      vehicle_frame E w p 3 t (Context LaneChangeR cur s)
      = Returned t' (Context LaneChangeR "lane_change" s') n
      /\ in_progress t' = Some LaneChange /\ plan E s' = Some (Plan cu y v) /\ y == v * step p.
  Proof using.
    intros t cur s q cu v R (P & PN & L & LC & PO & SK & PC & LV) V H.
    destruct (force_running q (Plan cu 0 v) s PO SK V) as (e' & S1 & _);
      [cbn [plan_s plan_velocity plan_curve]; lra|].
    assert (A : vehicle_act E w p LaneChange LaneChangeR s = lane_step E w p q (Plan cu 0 v) s).
    { cbn [vehicle_act]. unfold change_lane. rewrite LC, PN, L. cbn [negb]. rewrite PC, LV.
      reflexivity. }
    rewrite <- A in S1. destruct (lane_begins t cur s _ q 1 R P LC S1) as (t' & n & U & P').
    exists t'. eexists. exists n. eexists. split; [exact U|]. split; [exact P'|].
    split; [reflexivity|]. cbn [plan_s plan_velocity]. lra.
  Qed.

  Lemma forced_during : forall t cur s q cu v,
    reachable vehicle_tree t cur -> forced t s q cu v -> 0 <= v -> 0 <= step p ->
    forall n, count (S n) * (v * step p) < curve_length cu ->
    exists t' s' y,
      frames w p (S n) t (Context LaneChangeR cur s)
      = Some (t', Context LaneChangeR "lane_change" s')
      /\ reachable vehicle_tree t' "lane_change" /\ in_progress t' = Some LaneChange
      /\ plan E s' = Some (Plan cu y v) /\ y == count (S n) * (v * step p).
  Proof using.
    intros t cur s q cu v R F V ST n H.
    pose proof F as (P & PN & L & LC & PO & SK & PC & LV).
    assert (VS : 0 <= v * step p) by nra.
    assert (CN : 0 <= count n) by (unfold count; change 0 with (inject_Z 0); rewrite <- Zle_Qle; lia).
    rewrite count_S in H.
    destruct (first_frame t cur s q cu v R F V ltac:(nra)) as (t1 & s1 & k & y & U & P1 & PL1 & Y).
    rewrite frames_S, U.
    destruct (force_frames q cu v PO SK LC V ST n t1 "lane_change"%string s1 y
                (reached_again _ _ _ _ _ _ _ _ _ _ R U) P1 PL1 ltac:(rewrite Y; lra))
      as (t' & cur' & s' & z & FR & R' & P' & C' & PL' & Z).
    assert (C : cur' = "lane_change"%string).
    { destruct C' as [-> | C']; [cbn [frames] in FR; congruence | exact C']. }
    subst cur'. exists t', s', z. split; [exact FR|]. split; [exact R'|]. split; [exact P'|].
    split; [exact PL'|]. rewrite count_S, Z, Y. lra.
  Qed.

  (** The change is in progress for exactly as many frames as it has to take, and then ends on the
      target lane: it is in progress after the frames that end before the time it has to take, and
      over in the first frame that ends no earlier. *)
  Theorem C115_time : forall t cur s q cu v time,
    reachable vehicle_tree t cur -> forced t s q cu v ->
    0 < v -> 0 < step p -> time == curve_length cu / v -> step p < time ->
    (forall n, count (S n) * step p < time ->
       exists t' s' y,
         frames w p (S n) t (Context LaneChangeR cur s)
         = Some (t', Context LaneChangeR "lane_change" s')
         /\ in_progress t' = Some LaneChange
         /\ plan E s' = Some (Plan cu y v) /\ y == count (S n) * step p * v)
    /\ (forall n, count n * step p < time -> time <= count (S n) * step p ->
       exists t' s' x e,
         frames w p (S n) t (Context LaneChangeR cur s)
         = Some (t', Context NoRequest "lane_change" s')
         /\ in_progress t' = None /\ plan E s' = None
         /\ entity E s' = land E w x e /\ speed E w e = v
         /\ x == curve_target cu + (count (S n) * step p * v - curve_length cu)).
  Proof using.
    intros t cur s q cu v time R F V ST T FI.
    assert (VT : v * time == curve_length cu) by (rewrite T; field; lra).
    assert (V0 : 0 <= v) by lra. assert (S0 : 0 <= step p) by lra.
    split.
    - intros n H. destruct (forced_during t cur s q cu v R F V0 S0 n) as (t' & s' & y & FR & _ & P' & PL & Y).
      { rewrite <- VT. nra. }
      exists t', s', y. split; [exact FR|]. split; [exact P'|]. split; [exact PL|]. rewrite Y. ring.
    - intros n LO HI. pose proof F as (P & PN & L & LC & PO & SK & PC & LV).
      destruct n as [|n].
      { exfalso. rewrite count_S, count_0 in HI. lra. }
      destruct (forced_during t cur s q cu v R F V0 S0 n) as (t' & s' & y & FR & R' & P' & PL & Y).
      { rewrite <- VT. nra. }
      destruct (force_lands q (Plan cu y v) s' PO SK V0) as (e' & SL & SP).
      { cbn [plan_s plan_velocity plan_curve]. rewrite Y, <- VT. rewrite (count_S (S n)) in HI. nra. }
      rewrite <- (act_in_plan q (Plan cu y v) s' LC PL) in SL.
      destruct (lane_finishes t' "lane_change"%string s' _ q 2 R' P' LC SL) as (t2 & U & P2).
      cbn [Nat.add] in U.
      replace (S (S n)) with (S n + 1)%nat by lia. rewrite frames_app, FR, frames_S, U.
      cbn [frames]. exists t2. eexists. eexists. exists e'. split; [reflexivity|].
      split; [exact P2|]. split; [reflexivity|]. split; [reflexivity|]. split; [exact SP|].
      cbn [plan_s plan_velocity plan_curve]. rewrite Y.
      replace (S n + 1)%nat with (S (S n)) by lia. rewrite (count_S (S n)). ring.
  Qed.

  (** The time is the one the constraint asks for: the duration itself, the offset to the target
      lane over the lateral speed, or the length of the curve over the present speed; longer only
      when the target speed of the vehicle is too low for it. *)
  Theorem C115_constraint : forall q cu e time,
    0 < curve_length cu -> (forall t, target_speed p = Some t -> 0 < t) ->
    match lc_constraint q with
    | Duration T => 0 < T
    | LateralVelocity u => 0 < curve_offset cu / u
    | NoConstraint | LongitudinalDistance _ => 0 < speed E w e
    end ->
    takes q cu e time ->
    exists v, lane_velocity E w p q cu e = Some v /\ 0 < v /\ time == curve_length cu / v.
  Proof using.
    intros q cu e time LEN TS OK TK.
    assert (G : forall x v0, 0 < x -> v0 == curve_length cu / x ->
              0 < v0 /\ x == curve_length cu / v0).
    { intros x v0 X V0.
      assert (0 < curve_length cu / x) by (apply Qlt_shift_div_l; lra).
      split; [lra|]. rewrite V0. field. split; lra. }
    assert (B : exists v0 x,
        0 < x /\ 0 < v0 /\ x == curve_length cu / v0
        /\ match lc_constraint q with
           | NoConstraint => speed E w e
           | LateralVelocity value => curve_length cu / (curve_offset cu / value)
           | LongitudinalDistance _ => speed E w e
           | Duration value => curve_length cu / value
           end = v0
        /\ match target_speed p with
           | None => time == x
           | Some t => time == Qmax x (curve_length cu / t) end).
    { unfold takes in TK. destruct (lc_constraint q) as [|u|d|T].
      - exists (speed E w e), (curve_length cu / speed E w e).
        split; [apply Qlt_shift_div_l; lra|]. split; [exact OK|]. split; [reflexivity|].
        split; [reflexivity|]. destruct (target_speed p); exact TK.
      - exists (curve_length cu / (curve_offset cu / u)), (curve_offset cu / u).
        destruct (G (curve_offset cu / u) _ OK (Qeq_refl _)) as (G1 & G2).
        split; [exact OK|]. split; [exact G1|]. split; [exact G2|].
        split; [reflexivity|]. destruct (target_speed p); exact TK.
      - exists (speed E w e), (curve_length cu / speed E w e).
        split; [apply Qlt_shift_div_l; lra|]. split; [exact OK|]. split; [reflexivity|].
        split; [reflexivity|]. destruct (target_speed p); exact TK.
      - exists (curve_length cu / T), T.
        destruct (G T _ OK (Qeq_refl _)) as (G1 & G2).
        split; [exact OK|]. split; [exact G1|]. split; [exact G2|].
        split; [reflexivity|]. destruct (target_speed p); exact TK. }
    destruct B as (v0 & x & X & V0 & XV & EQ & TM). unfold lane_velocity. rewrite EQ.
    destruct (target_speed p) as [t|] eqn:TE.
    - specialize (TS t eq_refl). rewrite (proj2 (lt_false t 0)) by lra.
      rewrite (proj2 (lt_false v0 0)) by lra.
      destruct (lt t v0) eqn:LT.
      + apply lt_true in LT. exists t. split; [reflexivity|]. split; [exact TS|].
        rewrite TM. apply Q.max_r. rewrite XV.
        apply Qle_shift_div_l; [exact TS|]. rewrite Qmult_comm.
        assert (Q1 : curve_length cu / v0 * v0 == curve_length cu) by (field; lra).
        assert (0 < curve_length cu / v0) by lra. nra.
      + apply lt_false in LT. exists v0. split; [reflexivity|]. split; [exact V0|].
        rewrite TM. rewrite Q.max_l; [exact XV|]. rewrite XV.
        apply Qle_shift_div_r; [exact TS|].
        assert (Q1 : curve_length cu / v0 * v0 == curve_length cu) by (field; lra).
        assert (0 < curve_length cu / v0) by lra. nra.
    - exists v0. split; [reflexivity|]. split; [exact V0|]. rewrite TM. exact XV.
  Qed.

  (** Refuted: a change at speed zero never ends. *)
  Theorem C115_standing_refuted : forall t cur s q cu v n,
    reachable vehicle_tree t cur -> forced t s q cu v -> v == 0 -> 0 < step p ->
    0 < curve_length cu ->
    exists t' s',
      frames w p (S n) t (Context LaneChangeR cur s)
      = Some (t', Context LaneChangeR "lane_change" s')
      /\ in_progress t' = Some LaneChange.
  Proof using.
    intros t cur s q cu v n R F V ST LEN.
    destruct (forced_during t cur s q cu v R F ltac:(lra) ltac:(lra) n) as (t' & s' & y & FR & _ & P' & _).
    - assert (v * step p == 0) by (rewrite V; ring). nra.
    - exists t', s'. split; assumption.
  Qed.

  (** Refuted: a vehicle without a target speed never accelerates under the best-effort policy,
      whatever speed the constraint asks for: a standing one stands for ever. *)
  Theorem C115_best_effort_refuted : forall t cur s q pl n,
    reachable vehicle_tree t cur -> in_progress t = Some LaneChange ->
    lane_change p = Some q -> lc_policy q = BestEffort -> target_speed p = None ->
    plan E s = Some pl -> 0 <= plan_velocity pl -> 0 < step p -> 0 <= max_speed p ->
    0 <= max_deceleration p ->
    speed_kept -> speed E w (entity E s) == 0 -> plan_s pl < curve_length (plan_curve pl) ->
    exists t' s' pl',
      frames w p n t (Context LaneChangeR cur s) = Some (t', Context LaneChangeR "lane_change" s')
      /\ in_progress t' = Some LaneChange /\ plan E s' = Some pl' /\ plan_s pl' == plan_s pl
      /\ speed E w (entity E s') == 0.
  Proof using.
    intros t cur s q pl n R P LC PO TS PL V ST MS MD (W & C) SP LEN. revert t cur s pl R P PL V SP LEN.
    induction n as [|n IH]; intros t cur s pl R P PL V SP LEN.
    - pose proof (vehicle_reached t cur R) as AT. rewrite (position_progress _ _ P) in AT.
      destruct AT as (_ & _ & ->). exists t, s, pl. cbn [frames].
      repeat split; try assumption.
    - assert (EF : effort E w p (plan_velocity pl) (entity E s) == 0).
      { unfold effort. rewrite TS.
        assert (A0 : 0 <= (plan_velocity pl - speed E w (entity E s)) / step p)
          by (apply Qle_shift_div_l; lra).
        rewrite (proj2 (lt_false _ _)) by lra.
        destruct (lt 0 _) eqn:Z; [reflexivity|]. apply lt_false in Z. lra. }
      assert (X : exists v' e', v' == 0 /\ speed E w e' = v'
                  /\ lane_step E w p q pl s
                     = Some (Running, State E e'
                         (Some (Plan (plan_curve pl) (plan_s pl + v' * step p) (plan_velocity pl)))
                         ((LaneChange, Shift (plan_s pl + v' * step p)) :: moves E s))).
      { unfold lane_step, lane_speed. rewrite PO. cbv zeta.
        set (a := effort E w p (plan_velocity pl) (entity E s)) in *.
        set (v := speed E w (entity E s) + a * step p).
        assert (V0 : v == 0) by (unfold v; rewrite SP, EF; ring).
        rewrite (proj2 (lt_false v (-10))) by lra. rewrite (proj2 (lt_false (max_speed p) v)) by lra.
        rewrite W. assert (V1 : v * step p == 0) by (rewrite V0; ring).
        rewrite (proj2 (lt_true _ _)) by lra. rewrite C, W. rewrite (proj2 (lt_false v 0)) by lra.
        exists v. eexists. split; [exact V0|]. split; [|reflexivity]. rewrite C, W. reflexivity. }
      destruct X as (v' & e' & V' & SE & X).
      rewrite <- (act_in_plan q pl s LC PL) in X.
      destruct (lane_goes_on t cur s _ q 2 R P LC X) as (t1 & U & P1). cbn [Nat.add] in U.
      rewrite frames_S, U.
      assert (V1 : v' * step p == 0) by (rewrite V'; ring).
      match type of U with
      | _ = Returned _ (Context _ _ ?s1) _ =>
          destruct (IH t1 "lane_change"%string s1 _ (reached_again _ _ _ _ _ _ _ _ _ _ R U) P1 eq_refl)
            as (t' & s' & pl' & FR & P' & PL' & Y & SP')
      end.
      + exact V.
      + cbn [entity]. rewrite SE. exact V'.
      + cbn [plan_s plan_curve]. lra.
      + exists t', s', pl'. split; [exact FR|]. split; [exact P'|]. split; [exact PL'|].
        split; [|exact SP']. rewrite Y. cbn [plan_s]. lra.
  Qed.

  (** Refuted: a second lane change request during a change has no effect on it: the vehicle
      completes the first change (curve and velocity), and the request is then dropped. *)
  Theorem C115_second_refuted : forall t cur s q pl,
    reachable vehicle_tree t cur -> in_progress t = Some LaneChange ->
    lane_change p = Some q -> lc_policy q = Force -> speed_kept ->
    plan E s = Some pl -> 0 <= plan_velocity pl ->
    (plan_s pl + plan_velocity pl * step p < curve_length (plan_curve pl) ->
       exists t' s' x, vehicle_frame E w p 3 t (Context LaneChangeR cur s)
         = Returned t' (Context LaneChangeR "lane_change" s') 1
         /\ plan E s' = Some (Plan (plan_curve pl) x (plan_velocity pl)))
    /\ (curve_length (plan_curve pl) <= plan_s pl + plan_velocity pl * step p ->
       exists t' s', vehicle_frame E w p 3 t (Context LaneChangeR cur s)
         = Returned t' (Context NoRequest "lane_change" s') 1 /\ plan E s' = None).
  Proof using.
    intros t cur s q pl R P LC PO SK PL V. split; intros H.
    - destruct (force_running q pl s PO SK V H) as (e' & X & _).
      rewrite <- (act_in_plan q pl s LC PL) in X.
      destruct (lane_goes_on t cur s _ q 2 R P LC X) as (t1 & U & P1).
      exists t1. eexists. eexists. split; [exact U | reflexivity].
    - destruct (force_lands q pl s PO SK V H) as (e' & X & _).
      rewrite <- (act_in_plan q pl s LC PL) in X.
      destruct (lane_finishes t cur s _ q 2 R P LC X) as (t1 & U & P1).
      exists t1. eexists. split; [exact U | reflexivity].
  Qed.

  (** ** C116: a vehicle off the lanes *)

  (** It stands still, unless one of three actions is in progress. *)
  Theorem C116_stands : forall t cur r s k,
    reachable vehicle_tree t cur ->
    in_progress t <> Some FollowFrontEntity -> in_progress t <> Some StopAtTrafficLight ->
    in_progress t <> Some StopAtStopLine ->
    (r = NoRequest \/ r = FollowLaneR) -> in_lane E w (entity E s) = false ->
    exists t' r' s' n,
      vehicle_frame E w p (2 + k) t (Context r cur s) = Returned t' (Context r' "follow_lane" s') n
      /\ entity E s' = stand E w (entity E s) /\ moves E s' = (FollowLane, Stand) :: moves E s
      /\ in_progress t' = Some FollowLane.
  Proof using.
    intros t cur r s k R N1 N2 N3 RQ L.
    assert (F : lane_following r = true) by (destruct RQ as [-> | ->]; reflexivity).
    assert (FL : forall s0, entity E s0 = entity E s -> follow_lane E w p r s0
                 = Some (Running, moved E FollowLane Stand (stand E w (entity E s0)) s0)).
    { intros s0 E0. unfold follow_lane. rewrite F, E0, L. reflexivity. }
    assert (D : forall l, l = StopAtCrossingEntity \/ l = Yield \/ l = MoveBackward ->
                vehicle_act E w p l r s = Some (Failure, s)).
    { intros l [-> | [-> | ->]]; cbn [vehicle_act];
        unfold stop_at_crossing_entity, yield, move_backward; rewrite F, L; cbn [negb];
        destruct (see_around p); reflexivity. }
    assert (DR : forall l, l = StopAtCrossingEntity \/ l = Yield \/ l = MoveBackward ->
                 dropped l r = r)
      by (intros l [-> | [-> | ->]]; destruct RQ as [-> | ->]; reflexivity).
    (* a pass from the beginning *)
    assert (WHOLE : forall f done, list_frame vehicle_order before_vehicle (vehicle_act E w p)
              (S f) done Free r s
            = (Did "follow_lane" r (moved E FollowLane Stand (stand E w (entity E s))
                 (State E (entity E s) None (moves E s))) (S done), Busy FollowLane)).
    { intros f done. cbn [list_frame].
      change (consulted vehicle_order Free) with (LaneChange :: FollowTrajectory :: lane_order).
      unfold lane_order. cbn [turn].
      rewrite lane_change_other by (destruct RQ as [-> | ->]; discriminate).
      replace (dropped LaneChange r) with r by (destruct RQ as [-> | ->]; reflexivity).
      rewrite trajectory_other by (destruct RQ as [-> | ->]; discriminate).
      replace (dropped FollowTrajectory r) with r by (destruct RQ as [-> | ->]; reflexivity).
      cbn [vehicle_act]. rewrite FL by reflexivity. reflexivity. }
    assert (X : exists r' s' n, list_frame vehicle_order before_vehicle (vehicle_act E w p) (2 + k) 0
                 (position_of t) r s = (Did "follow_lane" r' s' n, Busy FollowLane)
               /\ entity E s' = stand E w (entity E s)
               /\ moves E s' = (FollowLane, Stand) :: moves E s).
    { cbn [Nat.add]. destruct (positions t cur R) as [-> | [-> | [-> | (l & LP & LO)]]].
      - rewrite WHOLE. repeat eexists.
      - change (list_frame vehicle_order before_vehicle (vehicle_act E w p) (S (S k)) 0 (Busy LaneChange) r s)
          with (list_frame vehicle_order before_vehicle (vehicle_act E w p) (S (S k)) 0 (Busy LaneChange) r s).
        cbn [list_frame].
        change (consulted vehicle_order (Busy LaneChange))
          with (LaneChange :: FollowTrajectory :: lane_order).
        unfold lane_order. cbn [turn].
        rewrite lane_change_other by (destruct RQ as [-> | ->]; discriminate).
        replace (dropped LaneChange r) with r by (destruct RQ as [-> | ->]; reflexivity).
        rewrite trajectory_other by (destruct RQ as [-> | ->]; discriminate).
        replace (dropped FollowTrajectory r) with r by (destruct RQ as [-> | ->]; reflexivity).
        cbn [vehicle_act]. rewrite FL by reflexivity. repeat eexists.
      - cbn [list_frame].
        change (consulted vehicle_order (Busy FollowTrajectory))
          with (FollowTrajectory :: lane_order).
        unfold lane_order. cbn [turn].
        rewrite trajectory_other by (destruct RQ as [-> | ->]; discriminate).
        replace (dropped FollowTrajectory r) with r by (destruct RQ as [-> | ->]; reflexivity).
        cbn [vehicle_act]. rewrite FL by reflexivity. repeat eexists.
      - assert (IP : in_progress t = Some l).
        { unfold position_of in LP. destruct (in_progress t); congruence. }
        rewrite LP.
        assert (CASES : l = FollowLane \/ l = StopAtCrossingEntity \/ l = Yield \/ l = MoveBackward).
        { unfold lane_order, selector_order in LO. cbn [In] in LO.
          destruct LO as [<- | [<- | [<- | [<- | [<- | [<- | [<- | []]]]]]]]; try congruence; auto. }
        destruct CASES as [-> | C].
        + cbn [list_frame].
          change (consulted vehicle_order (Busy FollowLane)) with lane_order.
          unfold lane_order. cbn [turn vehicle_act]. rewrite FL by reflexivity. repeat eexists.
        + assert (NB : turn (vehicle_act E w p) (consulted vehicle_order (Busy l)) r s
                       = Some (NobodyActs r s)).
          { destruct C as [-> | [-> | ->]]; cbn [consulted]; unfold vehicle_order;
              cbn [from_on leaf_eqb turn];
              rewrite ?D by auto; rewrite ?DR by auto; rewrite ?D by auto; rewrite ?DR by auto;
              rewrite ?D by auto; rewrite ?DR by auto; reflexivity. }
          remember (S k) as f. cbn [list_frame]. rewrite NB. subst f. rewrite WHOLE. repeat eexists. }
    destruct X as (r' & s' & n & X & E1 & M1).
    destruct (vehicle_did w p t cur _ s (2 + k) _ _ _ _ _ R X) as (t' & U & PR & _).
    exists t', r', s', n. split; [exact U|]. split; [exact E1|]. split; [exact M1|]. exact PR.
  Qed.

  (** Refuted: with one of those three in progress the frame throws (the simulation ends), although
      a vehicle that looks around may well leave the lanes while it brakes or follows. *)
  Theorem C116_throws_refuted : forall t cur r s k l,
    reachable vehicle_tree t cur -> in_progress t = Some l ->
    l = FollowFrontEntity \/ l = StopAtTrafficLight \/ l = StopAtStopLine ->
    (r = NoRequest \/ r = FollowLaneR) -> in_lane E w (entity E s) = false ->
    see_around p = true -> right_of_way E w = false -> 0 <= speed E w (entity E s) ->
    vehicle_frame E w p (1 + k) t (Context r cur s) = Threw.
  Proof using.
    intros t cur r s k l R P LL RQ L A N V.
    assert (F : lane_following r = true) by (destruct RQ as [-> | ->]; reflexivity).
    assert (T1 : follow_front_entity E w p r s = None)
      by (unfold follow_front_entity; rewrite F, N, A, L; reflexivity).
    assert (T2 : stop_at_traffic_light E w p r s = Some (Failure, s))
      by (unfold stop_at_traffic_light; rewrite F, L; reflexivity).
    assert (T3 : stop_at_stop_line E w p r s = None).
    { unfold stop_at_stop_line. rewrite F, N, A, L.
      rewrite (proj2 (lt_false _ _) V). reflexivity. }
    assert (X : list_frame vehicle_order before_vehicle (vehicle_act E w p) (1 + k) 0
                  (position_of t) r s = (Failed, position_of t)).
    { rewrite (position_progress _ _ P). cbn [Nat.add list_frame].
      assert (NB : turn (vehicle_act E w p) (consulted vehicle_order (Busy l)) r s = None).
      { destruct LL as [-> | [-> | ->]]; cbn [consulted]; unfold vehicle_order;
          cbn [from_on leaf_eqb turn vehicle_act]; rewrite ?T1, ?T2; try reflexivity;
          replace (dropped StopAtTrafficLight r) with r by (destruct RQ as [-> | ->]; reflexivity);
          rewrite T3; reflexivity. }
      rewrite NB. reflexivity. }
    exact (vehicle_threw w p t cur r s (1 + k) _ R X).
  Qed.
End Changes.
