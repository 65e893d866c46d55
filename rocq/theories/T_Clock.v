(** * Simulation time: property theorems (C44, C56). *)
From Coq Require Import Sorted. 
From Coq Require Import ZArith QArith Qround List Bool Lia Lqa.
From Verif Require Import M_Clock S_Clock.
Import ListNotations.
Local Open Scope Q_scope.

(** ** Lemmas *)
Lemma run_length xs : forall a a' l rs, run xs a = (a', l, rs) -> length rs = length xs.
Proof.
  induction xs as [| x xs IH]; intros a a' l rs E; simpl in E.
  - now injection E as <- <- <-.
  - destruct (do x a) as [[a1 l1] r]. destruct (run xs a1) as [[a2 l2] rs'] eqn:R. injection E as <- <- <-.
    simpl. f_equal. now apply (IH _ _ _ _ R).
Qed.

(** One call. *)
Lemma do_cases x a a' l r : do x a = (a', l, r) ->
  rate (c a') = rate (c a) /\ standalone a' = standalone a /\
  match x with
  | SetStepTime s _ => since (c a') = since (c a) /\ at_start (c a') = at_start (c a) /\
      npc_started a' = npc_started a /\
      factor (c a') = if Qle_bool (1 # 1000) s then s else factor (c a)
  | StartNpcLogic => since (c a') = since (c a) /\ factor (c a') = factor (c a) /\
      (r = Yes /\ npc_started a = false /\ at_start (c a) = None /\ npc_started a' = true /\
       at_start (c a') = Some (since (c a)) \/
       r = Throws /\ a' = a /\ (npc_started a = true \/ at_start (c a) <> None))
  | UpdateFrame _ _ _ _ => at_start (c a') = at_start (c a) /\ npc_started a' = npc_started a /\
      factor (c a') = factor (c a) /\
      (r = Yes /\ since (c a') = since (c a) + factor (c a) / rate (c a) \/ r <> Yes /\ a' = a)
  end.
Proof.
  destruct x as [s ok | | g so lo to]; simpl.
  - unfold set_step_time. destruct (Qle_bool (1 # 1000) s); intros [= <- <- <-]; simpl; tauto.
  - unfold start_npc_logic, start. destruct (npc_started a) eqn:N.
    + intros [= <- <- <-]. repeat split. right. auto.
    + destruct (at_start (c a)) eqn:S.
      * intros [= <- <- <-]. repeat split. right. repeat split. right. congruence.
      * intros [= <- <- <-]. simpl. repeat split. left. auto.
  - unfold update_frame. destruct (standalone a) eqn:A; destruct g, so, lo, to; simpl; intros [= <- <- <-];
      simpl; repeat split; auto; try (right; split; [discriminate | reflexivity]).
Qed.

Lemma run_since xs : forall a a' l rs, run xs a = (a', l, rs) ->
  rate (c a') = rate (c a) /\
  since (c a') == since (c a) + elapsed (factor (c a)) (rate (c a)) (combine xs rs).
Proof.
  induction xs as [| x xs IH]; intros a a' l rs E; simpl in E.
  - injection E as <- <- <-. simpl. split; [reflexivity | ring].
  - destruct (do x a) as [[a1 l1] r] eqn:D. destruct (run xs a1) as [[a2 l2] rs'] eqn:R.
    injection E as <- <- <-. destruct (do_cases _ _ _ _ _ D) as (HR & _ & H).
    destruct (IH _ _ _ _ R) as [HR' HS]. split; [congruence |].
    rewrite HR in HS. destruct x as [s ok | | g so lo to]; simpl combine; cbn [elapsed].
    + destruct H as (H1 & _ & _ & H4). rewrite H1, H4 in HS. exact HS.
    + destruct H as (H1 & H2 & _). rewrite H1, H2 in HS. destruct r; exact HS.
    + destruct H as (_ & _ & H3 & [[-> H4] | [NY ->]]).
      * rewrite H3, H4 in HS. rewrite HS. ring.
      * destruct r; [congruence | exact HS | exact HS].
Qed.

Lemma started_run xs : forall a a' l rs s, run xs a = (a', l, rs) -> npc_started a = true ->
  at_start (c a) = Some s -> npc_started a' = true /\ at_start (c a') = Some s /\
  ~ In (StartNpcLogic, Yes) (combine xs rs).
Proof.
  induction xs as [| x xs IH]; intros a a' l rs s E N S; simpl in E.
  - injection E as <- <- <-. auto.
  - destruct (do x a) as [[a1 l1] r] eqn:D. destruct (run xs a1) as [[a2 l2] rs'] eqn:R.
    injection E as <- <- <-. destruct (do_cases _ _ _ _ _ D) as (_ & _ & H).
    assert (X : npc_started a1 = true /\ at_start (c a1) = Some s /\ (x, r) <> (StartNpcLogic, Yes)).
    { destruct x; [destruct H as (_ & H1 & H2 & _); repeat split; congruence | | destruct H as (H1 & H2 & _); repeat split; congruence].
      destruct H as (_ & _ & [H | (-> & -> & _)]); [destruct H as (_ & H & _); congruence |].
      repeat split; congruence. }
    destruct X as (X1 & X2 & X3). destruct (IH _ _ _ _ s R X1 X2) as (Y1 & Y2 & Y3).
    repeat split; auto. simpl. intros [Z | Z]; [congruence | tauto].
Qed.

Lemma run_scenario xs : forall a a' l rs, run xs a = (a', l, rs) -> npc_started a = false ->
  at_start (c a) = None ->
  same (scenario_time (c a')) (scenario_clock (factor (c a)) (rate (c a)) (combine xs rs)) /\
  (npc_started a' = true <-> In (StartNpcLogic, Yes) (combine xs rs)).
Proof.
  unfold scenario_clock, scenario_time.
  induction xs as [| x xs IH]; intros a a' l rs E N S; simpl in E.
  - injection E as <- <- <-. simpl. rewrite S, N. simpl. split; [exact I | split; [discriminate | tauto]].
  - destruct (do x a) as [[a1 l1] r] eqn:D. destruct (run xs a1) as [[a2 l2] rs'] eqn:R.
    injection E as <- <- <-. destruct (do_cases _ _ _ _ _ D) as (HR & _ & H).
    destruct x as [s ok | | g so lo to]; simpl combine; cbn [after_start].
    + destruct H as (H1 & H2 & H3 & H4). destruct (IH _ _ _ _ R) as [A B]; [congruence | congruence |].
      rewrite HR, H4 in A. split; [exact A |]. rewrite B. simpl. split; [now right |].
      intros [Z | Z]; [discriminate | exact Z].
    + destruct H as (H1 & H2 & [(-> & _ & _ & H3 & H4) | (-> & -> & [H | H])]); [| congruence | congruence].
      destruct (started_run _ _ _ _ _ _ R H3 H4) as (Y1 & Y2 & _).
      destruct (run_since _ _ _ _ _ R) as [_ HS]. rewrite Y2. simpl. rewrite HR, H1, H2 in HS.
      split; [rewrite HS; ring |]. split; [now left | reflexivity || (intros _; exact Y1)].
    + destruct H as (H1 & H2 & H3 & H4). destruct (IH _ _ _ _ R) as [A B]; [congruence | congruence |].
      rewrite HR, H3 in A. split.
      * destruct r; exact A.
      * rewrite B. simpl. split; [now right |]. intros [Z | Z]; [discriminate | exact Z].
Qed.

(** C44. After any calls, the scenario time is what elapsed since the start: the sum of the steps of the
    successful frames since then; before the start it is undefined. *)
Theorem C44_scenario_time alone f r xs a l rs : run xs (new_api alone f r) = (a, l, rs) ->
  same (scenario_time (c a)) (scenario_clock f r (combine xs rs)).
Proof. intros E. exact (proj1 (run_scenario _ _ _ _ _ E eq_refl eq_refl)). Qed.

(** With a constant factor, n frames after the start the time is n * factor / rate. *)
Lemma elapsed_constant f r xs : (forall s b y, ~ In (SetStepTime s b, y) xs) ->
  elapsed f r xs == inject_Z (Z.of_nat (frames xs)) * (f / r).
Proof.
  unfold frames. induction xs as [| [x y] xs IH]; intros N.
  - simpl. ring.
  - assert (N' : forall s b y, ~ In (SetStepTime s b, y) xs) by (intros s b z Z; apply (N s b z); now right).
    specialize (IH N'). destruct x as [s ok | | g so lo to].
    + exfalso. apply (N s ok y). now left.
    + cbn [elapsed filter]. destruct y; exact IH.
    + cbn [elapsed filter]. destruct y; [| exact IH | exact IH].
      cbn [length]. rewrite IH, Nat2Z.inj_succ, <- Z.add_1_r, inject_Z_plus.
      change (inject_Z 1) with 1. ring.
Qed.
Theorem C44_constant_step alone f r before after a l rs rs' :
  length rs = length before ->
  run (before ++ StartNpcLogic :: after) (new_api alone f r) = (a, l, rs ++ Yes :: rs') ->
  (forall s b, ~ In (SetStepTime s b) before) -> (forall s b, ~ In (SetStepTime s b) after) ->
  exists t, scenario_time (c a) = Some t /\
            t == inject_Z (Z.of_nat (frames (combine after rs'))) * (f / r).
Proof.
  intros L E N M. pose proof (C44_scenario_time _ _ _ _ _ _ _ E) as S.
  pose proof (proj2 (run_scenario _ _ _ _ _ E eq_refl eq_refl)) as ST.
  assert (A : forall xs ys, length ys = length xs -> (forall s b, ~ In (SetStepTime s b) xs) ->
    ~ In (StartNpcLogic, Yes) (combine xs ys) ->
    after_start f (combine (xs ++ StartNpcLogic :: after) (ys ++ Yes :: rs')) = Some (f, combine after rs')).
  { induction xs as [| x xs IH]; intros [| y ys] Hl Hn Hs; simpl in Hl; try discriminate; [reflexivity |].
    simpl. injection Hl as Hl. destruct x as [s b | | g so lo to].
    - exfalso. apply (Hn s b). now left.
    - destruct y; [exfalso; apply Hs; now left | |]; (apply IH; [exact Hl | | intros Z; apply Hs; now right];
        intros s b Z; apply (Hn s b); now right).
    - apply IH; [exact Hl | | intros Z; apply Hs; now right]. intros s b Z; apply (Hn s b); now right. }
  assert (Q : ~ In (StartNpcLogic, Yes) (combine before rs)).
  { intros Z. clear - L E Z. revert Z. generalize dependent (new_api alone f r). revert rs L l.
    induction before as [| x xs IH]; intros [| y ys] L l a0 E Z; simpl in *; try discriminate; [tauto |].
    destruct (do x a0) as [[a1 l1] r1] eqn:D. destruct (run (xs ++ StartNpcLogic :: after) a1) as [[a2 l2] rs''] eqn:R.
    injection E as <- <- <- ->. injection L as L. destruct Z as [Z | Z].
    - injection Z as -> ->. destruct (do_cases _ _ _ _ _ D) as (_ & _ & H).
      destruct H as (_ & _ & [(_ & _ & _ & H3 & H4) | (? & _)]); [| discriminate].
      destruct (started_run _ _ _ _ _ _ R H3 H4) as (_ & _ & C). apply C.
      clear - L. revert ys L. induction xs as [| x xs IH]; intros [| y ys] L; try discriminate; simpl; [now left |].
      right. apply IH. now injection L.
    - exact (IH ys L _ _ R Z). }
  unfold scenario_clock in S. rewrite (A before rs L N Q) in S.
  unfold same in S. destruct (scenario_time (c a)) as [t |]; [| contradiction].
  exists t. split; [reflexivity |]. rewrite S. apply elapsed_constant.
  intros s b y Z. apply (M s b). clear - Z. revert rs' Z.
  induction after as [| x xs IH]; intros [| z zs] Z; simpl in Z; try tauto.
  destruct Z as [Z | Z]; [injection Z as -> _; now left | right; now apply (IH zs)].
Qed.
(** A second start is rejected and changes nothing, and none ever succeeds again. *)
Theorem C44_second_start alone f r xs a l rs : run xs (new_api alone f r) = (a, l, rs) ->
  In (StartNpcLogic, Yes) (combine xs rs) -> do StartNpcLogic a = (a, [], Throws).
Proof.
  intros E H. apply (run_scenario _ _ _ _ _ E eq_refl eq_refl) in H. simpl. unfold start_npc_logic.
  now rewrite H.
Qed.
Theorem C44_first_start alone f r xs a l rs : run xs (new_api alone f r) = (a, l, rs) ->
  ~ In (StartNpcLogic, Yes) (combine xs rs) ->
  exists a', do StartNpcLogic a = (a', [NpcStarted (scenario_time (c a'))], Yes) /\
             same (scenario_time (c a')) (Some 0).
Proof.
  intros E H. pose proof (run_scenario _ _ _ _ _ E eq_refl eq_refl) as [A B].
  assert (N : npc_started a = false) by (destruct (npc_started a); [exfalso; apply H; now apply B | reflexivity]).
  assert (S : at_start (c a) = None).
  { unfold scenario_time in A. destruct (at_start (c a)) as [s |]; [| reflexivity]. exfalso.
    unfold scenario_clock in A. destruct (after_start _ _) as [[f' ys] |] eqn:F; [| exact A].
    apply H. clear - F. revert F. simpl. generalize f. induction (combine xs rs) as [| [x y] zs IH]; intros g F; [discriminate |].
    destruct x as [s b | | ? ? ? ?]; simpl in F.
    - right. exact (IH _ F).
    - destruct y; [now left | right; exact (IH _ F) | right; exact (IH _ F)].
    - right. destruct y; exact (IH _ F). }
  simpl. unfold start_npc_logic, start. rewrite N, S.
  exists {| c := {| factor := factor (c a); rate := rate (c a); since := since (c a); at_start := Some (since (c a)) |};
            npc_started := true; standalone := standalone a |}.
  split; [reflexivity |]. unfold scenario_time. simpl. ring.
Qed.

Example C44_example :
  let xs := [UpdateFrame false true true true; SetStepTime 2 true; UpdateFrame true true true true;
             StartNpcLogic; UpdateFrame true true true true; UpdateFrame true true false true;
             UpdateFrame true true true true; StartNpcLogic; SetStepTime (1 # 2000) true; UpdateFrame true true true true] in
  let '(a, _, rs) := run xs (new_api false 1 30) in
  rs = [Yes; Yes; Yes; Yes; Yes; No; Yes; Throws; No; Yes] /\
  same (scenario_time (c a)) (Some (3 * (2 / 30))) /\ frames (combine xs rs) = 5%nat.
Proof. vm_compute. auto. Qed.

(** ** The published clock *)
Lemma nanoseconds_floor s : 0 <= s -> nanoseconds s = Qfloor (s * inject_Z 1000000000).
Proof.
  intros H. unfold nanoseconds, Qfloor. destruct s as [n d]. unfold Qle in H. simpl in *.
  rewrite Pos.mul_1_r, Z.quot_div_nonneg; lia.
Qed.
(** Time never runs backwards: with a positive frame rate and factor, the published ROS time never
    decreases, and is the simulation time rounded down to a nanosecond. *)
Definition positive_steps (f r : Q) := 0 < f /\ 0 < r.
Lemma run_positive xs : forall a a' l rs, run xs a = (a', l, rs) ->
  0 < factor (c a) -> 0 < rate (c a) ->
  0 < factor (c a') /\ 0 < rate (c a') /\ since (c a) <= since (c a').
Proof.
  induction xs as [| x xs IH]; intros a a' l rs E F R; simpl in E.
  - injection E as <- <- <-. repeat split; auto. apply Qle_refl.
  - destruct (do x a) as [[a1 l1] r] eqn:D. destruct (run xs a1) as [[a2 l2] rs'] eqn:R'.
    injection E as <- <- <-. destruct (do_cases _ _ _ _ _ D) as (HR & _ & H).
    assert (X : 0 < factor (c a1) /\ since (c a) <= since (c a1)).
    { destruct x as [s ok | | g so lo to].
      - destruct H as (H1 & _ & _ & H4). rewrite H1, H4. split; [| apply Qle_refl].
        destruct (Qle_bool (1 # 1000) s) eqn:Q; [| exact F]. apply Qle_bool_iff in Q.
        eapply Qlt_le_trans; [| exact Q]. reflexivity.
      - destruct H as (H1 & H2 & _). rewrite H1, H2. split; [exact F | apply Qle_refl].
      - destruct H as (_ & _ & H3 & [[_ H4] | [_ ->]]); [| split; [exact F | apply Qle_refl]].
        rewrite H3, H4. split; [exact F |].
        assert (0 < factor (c a) / rate (c a)) by (apply Qlt_shift_div_l; [exact R | now rewrite Qmult_0_l]). lra. }
    destruct X as [X1 X2]. destruct (IH _ _ _ _ R' X1) as (Y1 & Y2 & Y3); [now rewrite HR |].
    repeat split; auto. lra.
Qed.
Theorem C44_ros_time alone f r xs a l rs : positive_steps f r ->
  run xs (new_api alone f r) = (a, l, rs) ->
  inject_Z (ros_time (c a)) <= elapsed f r (combine xs rs) * inject_Z 1000000000 /\
  elapsed f r (combine xs rs) * inject_Z 1000000000 < inject_Z (ros_time (c a)) + 1.
Proof.
  intros [F R] E. destruct (run_since _ _ _ _ _ E) as [_ S]. simpl in S.
  destruct (run_positive _ _ _ _ _ E F R) as (_ & _ & P). simpl in P.
  unfold ros_time, simulation_time. rewrite nanoseconds_floor by exact P.
  rewrite Qplus_0_l in S. rewrite <- S.
  split; [apply Qfloor_le |]. eapply Qlt_le_trans; [apply Qlt_floor |].
  rewrite inject_Z_plus. apply Qle_refl.
Qed.
Theorem C44_ros_time_monotone alone f r xs ys a l rs a' l' rs' : positive_steps f r ->
  run xs (new_api alone f r) = (a, l, rs) -> run ys a = (a', l', rs') ->
  (ros_time (c a) <= ros_time (c a'))%Z.
Proof.
  intros [F R] E E'. destruct (run_positive _ _ _ _ _ E F R) as (F' & R' & P). simpl in P.
  destruct (run_positive _ _ _ _ _ E' F' R') as (_ & _ & P').
  unfold ros_time, simulation_time. rewrite !nanoseconds_floor by lra.
  apply Qfloor_resp_le. apply Qmult_le_compat_r; [exact P' | discriminate].
Qed.
Example C44_ros_example :
  ros_time (c (fst (fst (run [UpdateFrame false true true true] (new_api false 1 30))))) = 33333333%Z.
Proof. reflexivity. Qed.

(** C56. Within a frame everybody sees the same time: the entities, the traffic modules and the
    environment simulator get the scenario time at the beginning of the frame; the clock moves only at
    the end, exactly if the frame succeeds, and the new time is published then. *)
Theorem C56_frame g so lo to a a' l r : do (UpdateFrame g so lo to) a = (a', l, r) ->
  (forall t s, In (EntitiesUpdated t s) l -> t = scenario_time (c a) /\ s = step_time (c a)) /\
  (forall t s, In (ModulesExecuted t s) l -> t = scenario_time (c a) /\ s = step_time (c a)) /\
  (forall x t z, In (TimeSent x t z) l -> x = simulation_time (c a) /\ t = scenario_time (c a) /\ z = ros_time (c a)) /\
  (forall z, In (Published z) l -> r = Yes /\ z = ros_time (c a')) /\
  (r = Yes -> since (c a') = since (c a) + step_time (c a) /\ In (Published (ros_time (c a'))) l /\
              In (EntitiesUpdated (scenario_time (c a)) (step_time (c a))) l /\
              In (ModulesExecuted (scenario_time (c a)) (step_time (c a))) l) /\
  (r <> Yes -> a' = a).
Proof.
  simpl. unfold update_frame, step_time.
  destruct (standalone a) eqn:A; destruct g, so, lo, to; simpl; intros [= <- <- <-]; simpl;
    repeat split; intros; intuition (try congruence; try discriminate).
Qed.
(** A successful frame without stand-alone mode needs all three answers; in stand-alone mode only the
    first one matters. *)
Theorem C56_succeeds_iff g so lo to a :
  snd (do (UpdateFrame g so lo to) a) = Yes <->
  so = true /\ (standalone a = true -> g = false) /\ (standalone a = false -> lo = true /\ to = true).
Proof.
  simpl. unfold update_frame. destruct (standalone a), g, so, lo, to; simpl;
    (split; [intros; repeat split; intros; (reflexivity || congruence) |
             intros (X & Y & Z); try reflexivity;
             try (specialize (Y eq_refl)); try (destruct (Z eq_refl)); discriminate]).
Qed.
(** The parts of a frame happen in a fixed order, each at most once: the entities move before the traffic
    modules act on them, the other simulator is told after that, and the time is published last. *)
Definition stage (e : event) : nat :=
  match e with
  | StatusesExchanged => 1 | EntitiesUpdated _ _ => 2 | ModulesExecuted _ _ => 3 | LightsSent => 4
  | TimeSent _ _ _ => 5 | Published _ => 6 | NpcStarted _ | StepTimeSent _ => 0
  end%nat.
Theorem C56_order g so lo to a a' l r : do (UpdateFrame g so lo to) a = (a', l, r) ->
  StronglySorted lt (map stage l).
Proof.
  simpl. unfold update_frame.
  destruct (standalone a) eqn:A; destruct g, so, lo, to; simpl; intros [= <- <- <-]; simpl;
    repeat constructor.
Qed.
(** A failing frame may already have moved the entities: the next frame repeats the same time. *)
Example C56_failed_frame_repeats :
  let '(a, l, rs) := run [StartNpcLogic; UpdateFrame false true true false; UpdateFrame false true true true]
                         (new_api false 1 10) in
  rs = [Yes; No; Yes] /\
  length (filter (fun e => match e with EntitiesUpdated (Some _) _ => true | _ => false end) l) = 2%nat /\
  same (scenario_time (c a)) (Some (1 # 10)).
Proof. vm_compute. auto. Qed.

Print Assumptions C44_scenario_time.
Print Assumptions C44_constant_step.
Print Assumptions C44_second_start.
Print Assumptions C44_first_start.
Print Assumptions C44_ros_time.
Print Assumptions C44_ros_time_monotone.
Print Assumptions C56_frame.
Print Assumptions C56_succeeds_iff.
Print Assumptions C56_order.
