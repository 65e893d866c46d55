(** * The interpreter node: one verdict per run, filed where it belongs *)

From Coq Require Import String Bool Arith ZArith List Lia.
From Verif Require Import M_Interpreter S_Interpreter P_Interpreter.
Import ListNotations.
Open Scope list_scope.

Definition nowhere := Path "" "" "".

(** The verdicts recorded over a history, each with the scenario it was recorded for. *)
Definition verdicts (s : node) : list (path * verdict) := filed nowhere (rev (trace s)).

Lemma reach rs s : Forall shuts_calmly rs -> serve rs fresh = Fine s tt -> inv s.
Proof.
  intros H E. pose proof (serve_inv rs fresh inv_fresh H) as W. rewrite E in W. exact W.
Qed.

Lemma reach_told rs : Forall shuts_calmly rs -> told (node_of (serve rs fresh)).
Proof.
  intros H. pose proof (serve_inv rs fresh inv_fresh H) as W.
  destruct (serve rs fresh); simpl in *; [auto using told_of_inv|contradiction|tauto].
Qed.

Lemma caught_deserved e : deserves e (caught e).
Proof. destruct e; constructor. Qed.

Lemma deserved_caught e v : deserves e v -> v = caught e.
Proof. destruct 1; reflexivity. Qed.

(** ** C74: one verdict, the right one *)

(** Whatever is asked of the node, and whatever goes wrong, between two attempts to load or run a
    scenario at most one verdict is recorded. *)
Theorem C74_at_most_one_verdict : forall rs, Forall shuts_calmly rs ->
  forall before between after,
    rev (trace (node_of (serve rs fresh))) = before ++ between ++ after ->
    forallb (fun e => negb (is_attempt e)) between = true ->
    reports between <= 1.
Proof.
  intros rs H a b c E F. pose proof (t_well _ (reach_told rs H)) as W.
  assert (E' : trace (node_of (serve rs fresh)) = rev c ++ rev b ++ rev a).
  { rewrite <- (rev_involutive (trace _)), E, !rev_app_distr, app_assoc. reflexivity. }
  rewrite E' in W. rewrite <- reports_rev.
  eapply well_counts; eauto. rewrite forallb_rev. exact F.
Qed.

Lemma idle_filed P s s' : (forall e, P e = true -> ordinary e = true) -> adds P s s' ->
  filed_rev (trace s') = filed_rev (trace s) /\ last_loaded (trace s') = last_loaded (trace s).
Proof.
  intros H (l & -> & F). apply filed_ordinary. rewrite forallb_forall in *. auto.
Qed.

Lemma tidies_ordinary e : tidies e = true -> ordinary e = true.
Proof. destruct e; simpl; auto; discriminate. Qed.

Lemma published_filed s s' : (trace s' = trace s \/ trace s' = Published :: trace s) ->
  filed_rev (trace s') = filed_rev (trace s).
Proof. intros [->| ->]; reflexivity. Qed.

(** When the work of a frame fails, the run ends with the verdict that failure deserves, recorded
    for this scenario; when it does not fail, nothing is recorded and the run goes on. *)
Theorem C74_frame_verdict : forall rs s, Forall shuts_calmly rs -> serve rs fresh = Fine s tt ->
  ph s = Active -> forall v t,
  (forall e, frame_fails v e ->
     exists w, deserves e w /\
     let after := node_of (handle (Frame v t) s) in
     verdicts after = verdicts s ++ [(osc_path s, w)] /\
     timer after = false /\
     forall s', handle (Frame v t) s = Fine s' tt -> ph s' <> Active) /\
  ((forall e, ~ frame_fails v e) ->
     exists s', handle (Frame v t) s = Fine s' tt /\ ph s' = Active /\ verdicts s' = verdicts s).
Proof.
  intros rs s H R HP v t. pose proof (reach rs s H R) as I.
  destruct (i_active s I HP) as (TM & N & SC & CO & PB).
  unfold handle. rewrite TM.
  change (evaluate_storyboard v t s) with
    (with_handler (fun s => andthen (publish s) (fun s _ => deactivate t s)) (frame_work v s)).
  pose proof (frame_work_spec v s N CO SC) as W.
  destruct (frame_work v s) as [s1 []|s1 e1|s1 w1]; simpl in W; [| |contradiction].
  - destruct W as (K & A & T & P & C & N1 & PI & RE & NF). split.
    + intros e F. exfalso. eapply NF; eauto.
    + intros _. exists s1. simpl. split; auto. destruct K. split; [congruence|].
      unfold verdicts, nowhere. rewrite !filed_rev_eq.
      apply (idle_filed _ _ _ playing_ordinary A).
  - destruct W as (K & A & T & P & C & N1 & PI & RE & FF). split.
    2:{ intros X. exfalso. eapply X; eauto. }
    intros e F.
    assert (e = e1).
    { clear -F FF. inversion F; inversion FF; subst; try congruence;
        destruct v as [u en ? ? ?]; simpl in *; subst; intuition congruence. }
    subst e1. exists (caught e). split; [apply caught_deserved|].
    destruct (idle_filed _ _ _ playing_ordinary A) as [FA LA]. destruct K.
    unfold with_handler.
    assert (V : filed_rev (trace (report (caught e) s1)) = filed_rev (trace s) ++ [(osc_path s, caught e)]).
    { simpl. rewrite FA, LA, (i_path s I). reflexivity. }
    set (s2 := report (caught e) s1) in *.
    assert (E1 : ph s2 = Active) by (simpl; congruence).
    assert (E2 : scenarios s2 = 1) by (simpl; congruence).
    assert (E3 : script s2 = true) by (simpl; congruence).
    clearbody s2. pose proof (publish_spec s2) as PS.
    destruct (publish s2) as [s3 []|s3 e3|s3 w3]; simpl in PS;
      [|contradiction|destruct PS; congruence].
    destruct PS as (K3 & A3 & T3 & P3 & C3 & N3 & _). simpl.
    pose proof (published_filed _ _ A3) as F3. destruct K3.
    assert (D : forall s4, node_of (deactivate t s3) = s4 -> adds tidies s3 s4 /\ timer s4 = false).
    { intros s4 <-. assert (HP3 : ph s3 = Active) by congruence.
      unfold deactivate. rewrite HP3. unfold transition, on_deactivate.
      pose proof (reset_spec (te_first t) s3) as R1.
      destruct (reset (te_first t) s3) as [x []|x ex|x wx]; simpl in *.
      - destruct R1 as ([] & _). auto.
      - destruct R1 as ([K1 A1 T1 P1] & _). unfold on_error.
        pose proof (reset_spec (te_second t) x) as R2.
        destruct (reset (te_second t) x) as [y []|y ey|y wy]; simpl in *;
          destruct R2 as ([K2 A2 T2 P2] & _); split; auto; eapply adds_trans; eauto.
      - destruct R1 as ([] & _). auto. }
    destruct (D _ eq_refl) as [D1 D2]. split; [|split; auto].
    + unfold verdicts, nowhere. rewrite !filed_rev_eq.
      destruct (idle_filed _ _ _ tidies_ordinary D1) as [X _]. congruence.
    + intros s' E. pose proof (deactivate_spec t s3 ltac:(congruence) ltac:(congruence)) as G.
      rewrite E in G. apply (g_ph _ _ G).
Qed.

(** When starting a scenario fails, that run ends with the verdict of its first failing stage;
    when it does not fail, the run is on and nothing is recorded. *)
Theorem C74_start_verdict : forall rs s, Forall shuts_calmly rs -> serve rs fresh = Fine s tt ->
  ph s = Inactive -> scenarios s <> 0 -> core s = false -> forall v t,
  (forall e, fails_first (stages (rec_flag s) v) e ->
     exists w, deserves e w /\
     let after := node_of (handle (Activate v t) s) in
     verdicts after = verdicts s ++ [(osc_path s, w)] /\ timer after = false /\
     forall s', handle (Activate v t) s = Fine s' tt -> ph s' <> Active) /\
  (Forall (fun o => o = None) (stages (rec_flag s) v) ->
     exists s', handle (Activate v t) s = Fine s' tt /\ ph s' = Active /\ verdicts s' = verdicts s).
Proof.
  intros rs s H R HP HN HC v t. pose proof (reach rs s H R) as I.
  unfold handle. rewrite HP. unfold on_activate.
  destruct (scenarios s) as [|n] eqn:N; [congruence|].
  assert (n = 0) by (pose proof (i_one s I); lia). subst n.
  assert (SC : script s = true) by (apply i_inactive; auto; lia).
  fold (start_work v s). pose proof (start_work_spec v s) as W.
  assert (U : forall l e e', fails_first l e -> fails_first l e' -> e = e').
  { clear. intros l e e' (b & a & -> & F) (b' & a' & E & F'). revert b' E F'.
    induction F as [|x b Hx F IH]; intros b' E F'.
    - destruct b' as [|y b']; simpl in E; [congruence|]. inversion E; subst. inversion F'; congruence.
    - destruct b' as [|y b']; simpl in E; inversion E; subst; [congruence|].
      inversion F'; subst. eauto. }
  destruct (start_work v s) as [s1 a|s1 e1|s1 w1]; simpl in W; [| |contradiction].
  - destruct W as (-> & K & A & T & P & C & N1 & RM & C0 & AN). split.
    + intros e (b & a & E & _). exfalso. rewrite E in AN. apply Forall_elt in AN. discriminate.
    + intros _. simpl. eexists. split; [reflexivity|]. split; [reflexivity|].
      unfold verdicts, nowhere. simpl. rewrite !filed_rev_eq.
      destruct (idle_filed _ _ _ staging_ordinary A) as [X _]. rewrite X. reflexivity.
  - destruct W as (K & A & T & N1 & RM & FF). specialize (FF HC). split.
    2:{ intros X. exfalso. destruct FF as (b & a & E & _). rewrite E in X.
        apply Forall_elt in X. discriminate. }
    intros e F. assert (e = e1) by eauto. subst e1.
    exists (caught e). split; [apply caught_deserved|].
    destruct (idle_filed _ _ _ staging_ordinary A) as [FA LA]. destruct K.
    unfold with_handler.
    assert (V : filed_rev (trace (report (caught e) s1)) = filed_rev (trace s) ++ [(osc_path s, caught e)]).
    { simpl. rewrite FA, LA, (i_path s I). reflexivity. }
    set (s2 := report (caught e) s1) in *.
    assert (E2 : scenarios s2 = 1) by (simpl; congruence).
    assert (E3 : script s2 = true) by (simpl; congruence).
    clearbody s2. pose proof (publish_spec s2) as PS.
    destruct (publish s2) as [s3 []|s3 e3|s3 w3]; simpl in PS;
      [|contradiction|destruct PS; congruence].
    destruct PS as (K3 & A3 & T3 & P3 & C3 & N3 & _). simpl.
    pose proof (published_filed _ _ A3) as F3. destruct K3.
    pose proof (reset_spec (te_first t) s3) as R1.
    assert (Z : forall s4, adds tidies s3 s4 -> 
      filed nowhere (rev (trace s4)) = filed nowhere (rev (trace s)) ++ [(osc_path s, caught e)]).
    { intros s4 D1. unfold nowhere. rewrite !filed_rev_eq.
      destruct (idle_filed _ _ _ tidies_ordinary D1) as [X _]. congruence. }
    unfold verdicts, nowhere in *.
    destruct (reset (te_first t) s3) as [x []|x ex|x wx]; simpl in *.
    + destruct R1 as ([K4 A4 T4 P4] & _). repeat split; auto.
      intros s' E. inversion E; subst. simpl. discriminate.
    + destruct R1 as ([K4 A4 T4 P4] & _). unfold on_error.
      pose proof (reset_spec (te_second t) x) as R2.
      destruct (reset (te_second t) x) as [y []|y ey|y wy]; simpl in *;
        destruct R2 as ([K5 A5 T5 P5] & _); (split; [apply Z; eapply adds_trans; eauto|]);
        split; auto; intros s' E; inversion E; subst; simpl; discriminate.
    + destruct R1 as ([K4 A4 T4 P4] & _). repeat split; auto. discriminate.
Qed.

(** When a scenario file cannot be read, that is the verdict and the node stays unconfigured. *)
Theorem C74_load_verdict : forall rs s, Forall shuts_calmly rs -> serve rs fresh = Fine s tt ->
  ph s = Unconfigured -> forall v,
  (forall e, le_read v = inl e -> exists w s', deserves e w /\ handle (Configure v) s = Fine s' tt /\
     verdicts s' = verdicts s ++ [(par_path s, w)] /\ ph s' = Unconfigured) /\
  (le_read v = inr IsScenario -> le_threshold v = None ->
     exists s', handle (Configure v) s = Fine s' tt /\ ph s' = Inactive /\ verdicts s' = verdicts s /\
     osc_path s' = par_path s).
Proof.
  intros rs s H R HP v. unfold handle. rewrite HP. unfold on_configure. split.
  - intros e E. rewrite E. exists (caught e). eexists. split; [apply caught_deserved|].
    split; [reflexivity|]. split; [|reflexivity].
    unfold verdicts, nowhere. rewrite !filed_rev_eq. reflexivity.
  - intros E1 E2. rewrite E1. simpl. rewrite E2. simpl. eexists. split; [reflexivity|].
    repeat split; auto. unfold verdicts, nowhere. simpl. rewrite filed_app. simpl. apply app_nil_r.
Qed.

(** Ending a run from outside - which is how the test runner enforces its time limit - records
    nothing: the report stays as it was. *)
Theorem C74_timeout_leaves_no_verdict : forall rs s, Forall shuts_calmly rs ->
  serve rs fresh = Fine s tt -> ph s = Active -> forall t,
  let after := node_of (handle (Deactivate t) s) in
  verdicts after = verdicts s /\ files after = files s /\ results after = results s.
Proof.
  intros rs s H R HP t. pose proof (reach rs s H R) as I.
  destruct (i_active s I HP) as (TM & N & SC & CO & PB). simpl.
  pose proof (deactivate_spec t s HP N) as D. unfold verdicts, nowhere. rewrite !filed_rev_eq.
  destruct (deactivate t s); simpl in *; [|contradiction|].
  - destruct D. split; auto. apply (idle_filed _ _ _ tidies_ordinary g_adds).
  - destruct D as (D1 & D2 & D3 & D4 & _). split; auto. apply (idle_filed _ _ _ tidies_ordinary D4).
Qed.

(** *** Example histories *)
Definition here (c : string) := Path "/tests" "suite" c.
Definition fine_load := LoadEnv (inr IsScenario) None.
Definition fine_start := StartEnv (Launched 41%Z) None None None None None.
Definition fine_frame := FrameEnv false true None None None.
Definition fails_at e := FrameEnv false true None (Some e) None.
Definition calm_tear := TearEnv None None.

(** One scenario that passes and a second one that never ends and is stopped from outside. *)
Definition pass_then_timeout : list request :=
  [SetParameters (here "a") "/out" false; Configure fine_load; Activate fine_start calm_tear;
   Frame fine_frame calm_tear; Frame (fails_at ExitSuccess) calm_tear; Cleanup;
   SetParameters (here "b") "/out" false; Configure fine_load; Activate fine_start calm_tear;
   Frame fine_frame calm_tear; Frame fine_frame calm_tear; Deactivate calm_tear; Cleanup].

(** The claim "a scenario that runs into the time limit is reported as a failure" is false: the
    report accepts, and does not list the scenario. *)
Theorem C74_timeout_refuted :
  Forall shuts_calmly pass_then_timeout /\
  exists s d, serve pass_then_timeout fresh = Fine s tt /\ files s = [("/out"%string, d)] /\
    accepted d = true /\ look_up d "suite" "b" = None /\ d_tests d = 1.
Proof.
  split; [repeat constructor|]. eexists _, _. split; [vm_compute; reflexivity|].
  split; [reflexivity|]. vm_compute. auto.
Qed.

Example C74_example : exists s, serve (firstn 4 pass_then_timeout) fresh = Fine s tt /\
  ph s = Active /\ frame_fails (fails_at (ExitFailure "x")) (ExitFailure "x").
Proof.
  eexists. split; [vm_compute; reflexivity|]. split; [reflexivity|].
  apply ff_evaluate; reflexivity.
Qed.

Example C74_start_example : exists s, serve (firstn 2 pass_then_timeout) fresh = Fine s tt /\
  ph s = Inactive /\ scenarios s <> 0 /\ core s = false /\
  fails_first (stages (rec_flag s) (StartEnv (Launched 41%Z) None None (Some (Simulation "m")) None None))
    (Simulation "m").
Proof.
  eexists. split; [vm_compute; reflexivity|]. split; [reflexivity|].
  split; [discriminate|]. split; [reflexivity|].
  exists [None; None], [None; None]. split; auto.
Qed.

(** ** C75: the scenario plays only during its run, and the node stays sound *)

(** Anything of a scenario that plays is preceded by the start of a run with no verdict in between:
    after a verdict nothing plays until the next activation. *)
Theorem C75_plays_only_in_a_run : forall rs, Forall shuts_calmly rs ->
  forall before e after,
    rev (trace (node_of (serve rs fresh))) = before ++ e :: after -> is_play e = true ->
    exists pre run, before = pre ++ Began :: run /\ reports run = 0.
Proof.
  intros rs H b e c E P. pose proof (t_well _ (reach_told rs H)) as W.
  assert (E' : trace (node_of (serve rs fresh)) = rev c ++ e :: rev b).
  { rewrite <- (rev_involutive (trace _)), E, !rev_app_distr. simpl. rewrite <- app_assoc. reflexivity. }
  rewrite E' in W. apply well_app in W. destruct W as (_ & W & _). specialize (W P).
  destruct (running_needs_began _ W) as (x & y & F & G).
  exists (rev y), (rev x). split.
  - rewrite <- (rev_involutive b), F, rev_app_distr. simpl. rewrite <- app_assoc. reflexivity.
  - rewrite reports_rev. unfold reports. clear -G. induction x as [|e x IH]; simpl; auto.
    simpl in G. apply andb_true_iff in G. destruct G as [G1 G2].
    destruct (is_report e); [discriminate|auto].
Qed.

(** A node that is not active ignores its timer, whatever a frame would do. *)
Theorem C75_only_while_active : forall rs s, Forall shuts_calmly rs -> serve rs fresh = Fine s tt ->
  ph s <> Active -> forall v t, handle (Frame v t) s = Fine s tt.
Proof.
  intros rs s H R HP v t. pose proof (reach rs s H R) as I. unfold handle.
  destruct (timer s) eqn:T; auto. exfalso. apply HP. apply i_timer; auto.
Qed.

Definition tidy_core (s : node) : Prop := core s = true -> ph s = Active.

Lemma handle_core r s : inv s -> calm r -> tidy_core s ->
  wp (handle r s) (fun s' _ => tidy_core s') (fun _ _ => True) (fun _ _ => True).
Proof.
  intros I HC TC. unfold tidy_core in *. destruct r as [a b c|v|v t|v t|t| |t]; simpl.
  - auto.
  - destruct (ph s) eqn:HP; simpl; auto; try (intros X; specialize (TC X); congruence).
    assert (CF : core s = false) by (destruct (core s); auto; specialize (TC eq_refl); congruence).
    unfold on_configure. cbv zeta.
    match goal with |- context [set_result ?x s] => generalize x; intros v0 end.
    set (s1 := emit _ _). assert (C1 : core s1 = false) by exact CF. clearbody s1.
    assert (Y : forall x a p, core x = false -> core (set_ph p (report a x)) = true -> ph (set_ph p (report a x)) = Active)
      by (intros; simpl in *; congruence).
    destruct (le_read v) as [e|c]; [exact (Y s1 (caught e) Unconfigured C1)|].
    unfold andthen, outside.
    destruct (le_threshold v) as [e|]; [exact (Y (set_script true s1) (caught e) Unconfigured C1)|].
    destruct c; unfold with_handler; simpl wp;
      intros X; change (core s1 = true) in X; congruence.
  - destruct (ph s) eqn:HP; simpl; auto; try (intros X; specialize (TC X); congruence).
    unfold on_activate. destruct (scenarios s) as [|n]; [simpl; intros X; specialize (TC X); congruence|].
    fold (start_work v s). pose proof (start_work_spec v s) as W.
    destruct (start_work v s) as [s1 a|s1 e|s1 w]; simpl in W.
    + destruct W as (-> & _). simpl. auto.
    + unfold with_handler. set (s2 := report (caught e) s1). clearbody s2. simpl in HC. rewrite HC.
      pose proof (publish_spec s2) as PS.
      destruct (publish s2) as [s3 []|s3 e3|s3 w3]; simpl in PS; [|contradiction|exact Logic.I].
      simpl. pose proof (reset_spec None s3) as R1.
      destruct (reset None s3) as [x []|x ex|x wx]; simpl in *; auto.
      * destruct R1 as (_ & R1 & _). congruence.
      * destruct R1 as (_ & R1 & _). discriminate.
    + contradiction.
  - destruct (timer s) eqn:TM; simpl; auto.
    pose proof (i_timer s I TM) as HP. destruct (i_active s I HP) as (_ & N & SC & CO & PB).
    change (evaluate_storyboard v t s) with
      (with_handler (fun s => andthen (publish s) (fun s _ => deactivate t s)) (frame_work v s)).
    pose proof (frame_work_spec v s N CO SC) as W.
    destruct (frame_work v s) as [s1 []|s1 e1|s1 w1]; simpl in W; [| |contradiction].
    + destruct W as ([] & _). simpl. congruence.
    + destruct W as (K & _). destruct K. unfold with_handler.
      assert (E1 : ph (report (caught e1) s1) = Active) by (simpl; congruence).
      set (s2 := report (caught e1) s1) in *. clearbody s2.
      pose proof (publish_spec s2) as PS.
      destruct (publish s2) as [s3 []|s3 e3|s3 w3]; simpl in PS; [|contradiction|exact Logic.I].
      destruct PS as ([] & _). unfold andthen, deactivate. rewrite k_ph0, E1.
      simpl in HC. rewrite HC. unfold transition, on_deactivate, andthen.
      pose proof (reset_spec None s3) as R1.
      destruct (reset None s3) as [x []|x ex|x wx]; simpl in *; auto.
      * destruct R1 as (_ & R1 & _). congruence.
      * destruct R1 as (_ & R1 & _). discriminate.
  - unfold deactivate. destruct (ph s) eqn:HP; simpl; try (intros X; specialize (TC X); congruence).
    simpl in HC. rewrite HC. unfold transition, on_deactivate, andthen.
    pose proof (reset_spec None s) as R1.
    destruct (reset None s) as [x []|x ex|x wx]; simpl in *; auto.
    * destruct R1 as (_ & R1 & _). congruence.
    * destruct R1 as (_ & R1 & _). discriminate.
  - destruct (ph s) eqn:HP; simpl; auto; intros X; specialize (TC X); congruence.
  - simpl in HC. assert (G : wp (transition Finalized (ph s) (te_second t) (on_shutdown (te_first t) s))
             (fun s' _ => core s' = true -> ph s' = Active) (fun _ _ => True) (fun _ _ => True)).
    { unfold on_shutdown. rewrite HC. unfold core_deactivate, andthen.
      simpl. destruct (core s) eqn:CO; simpl; congruence. }
    destruct (ph s) eqn:HP; auto. simpl. intros X. specialize (TC X). congruence.
Qed.

Lemma calm_shuts r : calm r -> shuts_calmly r.
Proof. destruct r; simpl; auto. Qed.

(** As long as tearing the simulator down does not raise, the simulator exists exactly while the
    node is active: runs never overlap and nothing is left behind. *)
Theorem C75_simulator_exists_iff_active : forall rs s, Forall calm rs ->
  serve rs fresh = Fine s tt -> (core s = true <-> ph s = Active).
Proof.
  intros rs s H E.
  assert (HS : Forall shuts_calmly rs) by (eapply Forall_impl; [apply calm_shuts|auto]).
  split.
  - change (tidy_core s). revert H E.
    assert (G : forall rs s0, inv s0 -> tidy_core s0 -> Forall calm rs ->
                serve rs s0 = Fine s tt -> tidy_core s).
    { clear. induction rs as [|r rs IH]; simpl; intros s0 I T F E.
      - inversion E; subst; auto.
      - inversion F; subst.
        pose proof (handle_inv r s0 I (calm_shuts _ H1)) as W1.
        pose proof (handle_core r s0 I H1 T) as W2.
        destruct (handle r s0) as [s1 []|s1 e1|s1 w1]; simpl in *; try discriminate. eauto. }
    apply G; [apply inv_fresh|]. unfold tidy_core. simpl. discriminate.
  - intros A. pose proof (reach rs s HS E) as I. destruct (i_active s I A) as (_ & _ & _ & C & _). exact C.
Qed.

(** No history ends in undefined behaviour or an exception nobody handles, unless tearing down
    raises during a shutdown. *)
Theorem C75_no_undefined_behaviour : forall rs, Forall shuts_calmly rs ->
  match serve rs fresh with
  | Fine _ _ => True
  | Raises _ _ => False
  | Stops _ w => w <> PopsEmptyList /\ w <> DerefsNull
  end.
Proof.
  intros rs H. pose proof (serve_inv rs fresh inv_fresh H) as W.
  destruct (serve rs fresh); simpl in *; auto. destruct W as [_ [->| ->]]; split; discriminate.
Qed.

(** Without that proviso both claims are false: a shutdown that raises removes an element from an
    empty list, and a run whose teardown raises twice leaves the simulator behind. *)
Definition raising_tear := TearEnv (Some (Plain "despawn")) (Some (Plain "despawn")).

Theorem C75_refuted :
  (exists s, serve [SetParameters (here "a") "/out" false; Configure fine_load;
                    Activate fine_start calm_tear;
                    Shutdown (TearEnv (Some (Plain "despawn")) None)] fresh = Stops s PopsEmptyList) /\
  (exists s, serve [SetParameters (here "a") "/out" false; Configure fine_load;
                    Activate fine_start calm_tear; Deactivate raising_tear] fresh = Fine s tt /\
             core s = true /\ ph s = Finalized).
Proof.
  split.
  - eexists. vm_compute. reflexivity.
  - eexists. split; [vm_compute; reflexivity|]. split; reflexivity.
Qed.

Example C75_example : exists s, serve (firstn 4 pass_then_timeout) fresh = Fine s tt /\
  core s = true /\ ph s = Active /\ Forall calm pass_then_timeout /\
  rev (trace s) = [Loading (here "a"); Began; CoreUp; Advanced; InitActions; Evaluated; Advanced; Published].
Proof.
  eexists. split; [vm_compute; reflexivity|]. repeat split; auto; repeat constructor.
Qed.

(** ** C76: the report *)

(** The report written last lists, for every suite and case, exactly the failures and errors
    recorded for scenarios with that directory and file name, in order; its totals are the numbers
    of failures, errors and verdicts recorded since the node was started. *)
Theorem C76_report : forall rs, Forall shuts_calmly rs ->
  let s := node_of (serve rs fresh) in
  match files s with
  | [] => verdicts s = []
  | (_, d) :: _ =>
      d_failures d = length (filter (fun pv => is_failure (snd pv)) (verdicts s)) /\
      d_errors d = length (filter (fun pv => is_error (snd pv)) (verdicts s)) /\
      d_tests d = length (verdicts s) /\
      forall suite case,
        match look_up d suite case with
        | None => forall p v, In (p, v) (verdicts s) -> ~ (p_suite p = suite /\ p_case p = case)
        | Some (fs, es) =>
            (exists p v, In (p, v) (verdicts s) /\ p_suite p = suite /\ p_case p = case) /\
            fs = failures_of suite case (verdicts s) /\ es = errors_of suite case (verdicts s)
        end
  end.
Proof.
  intros rs H s. pose proof (reach_told rs H) as T. fold s in T. destruct T as [_ _ _ R F].
  unfold verdicts, nowhere. rewrite filed_rev_eq. destruct (files s) as [|[o d] fl]; auto.
  subst d. destruct (totals (results s) _ R) as (A & B & C). repeat (split; [assumption|]).
  intros suite case. rewrite look_up_write, R.
  pose proof (case_at_build suite case (filed_rev (trace s))) as G.
  destruct (case_at (build (filed_rev (trace s))) suite case) as [c|]; simpl.
  - destruct G as (G1 & G2 & G3). split; [|auto].
    apply existsb_exists in G1. destruct G1 as ([p v] & I & E).
    apply andb_true_iff in E. simpl in E. destruct E as [E1 E2].
    apply String.eqb_eq in E1, E2. eauto.
  - intros p v I [<- <-]. assert (hits (p_suite p) (p_case p) (filed_rev (trace s)) = true).
    { apply existsb_exists. exists (p, v). split; auto. simpl. rewrite !String.eqb_refl. reflexivity. }
    congruence.
Qed.

Lemma sum_zero l : sum l = 0 -> Forall (fun n => n = 0) l.
Proof. induction l; simpl; constructor; try lia. apply IHl. lia. Qed.

(** The report lists every suite once, with the numbers of failures, errors and verdicts recorded
    for scenarios of that directory name. *)
Theorem C76_suite_totals : forall rs, Forall shuts_calmly rs ->
  let s := node_of (serve rs fresh) in
  forall o d fl, files s = (o, d) :: fl ->
  NoDup (map sn_name (d_suites d)) /\
  forall x, In x (d_suites d) ->
    let of_it := filter (fun pv => String.eqb (p_suite (fst pv)) (sn_name x)) (verdicts s) in
    sn_failures x = length (filter (fun pv => is_failure (snd pv)) of_it) /\
    sn_errors x = length (filter (fun pv => is_error (snd pv)) of_it) /\
    sn_tests x = length of_it.
Proof.
  intros rs H s o d fl E. pose proof (reach_told rs H) as T. fold s in T. destruct T as [_ _ _ R F].
  unfold verdicts, nowhere. rewrite filed_rev_eq. rewrite E in F. subst d.
  exact (suite_totals _ _ R).
Qed.


Lemma accepted_totals r :
  accepted (write_suites r) = true <-> d_failures (write_suites r) = 0 /\ d_errors (write_suites r) = 0.
Proof.
  unfold accepted. simpl. generalize (suites r). intros l.
  induction l as [|s l IH]; simpl; [tauto|].
  rewrite andb_true_iff, IH.
  assert (G : forallb (fun c => match cn_failures c with [] => match cn_errors c with [] => true | _ => false end | _ => false end)
                (map write_case (suite_cases s)) = true <->
              sum (map (fun c => length (case_failure c)) (suite_cases s)) = 0 /\
              sum (map (fun c => length (case_error c)) (suite_cases s)) = 0).
  { generalize (suite_cases s). intros m. induction m as [|c m IHm]; simpl; [tauto|].
    rewrite andb_true_iff, IHm. destruct (case_failure c), (case_error c); simpl; intuition (try discriminate; lia). }
  rewrite G. lia.
Qed.

(** The shipped check accepts the report exactly when every recorded verdict is a pass. *)
Theorem C76_accepted_iff_all_passed : forall rs, Forall shuts_calmly rs ->
  let s := node_of (serve rs fresh) in
  forall o d fl, files s = (o, d) :: fl ->
  (accepted d = true <-> forall p v, In (p, v) (verdicts s) -> v = Pass).
Proof.
  intros rs H s o d fl E. pose proof (reach_told rs H) as T. fold s in T. destruct T as [_ _ _ R F].
  rewrite E in F. subst d. rewrite accepted_totals.
  destruct (totals (results s) _ R) as (A & B & _). rewrite A, B.
  unfold verdicts, nowhere. rewrite filed_rev_eq. generalize (filed_rev (trace s)). clear.
  induction l as [|[p v] l IH]; simpl; [split; [contradiction|auto]|].
  destruct v; simpl.
  - rewrite IH. split; intros X q w; [intros [Y|Y]; [congruence|eauto]|eauto].
  - split; [lia|]. intros X. specialize (X p _ (or_introl eq_refl)). discriminate.
  - split; [lia|]. intros X. specialize (X p _ (or_introl eq_refl)). discriminate.
Qed.

(** The claim "different scenario files have entries of their own" is false: two files with the
    same name in directories of the same name share one, and the report carries the name of the
    directory of the last. *)
Theorem C76_shared_entry_refuted :
  exists rs s d, Forall shuts_calmly rs /\ serve rs fresh = Fine s tt /\
    verdicts s = [(Path "/x" "suite" "a", Failure "SimulationFailure" "one");
                  (Path "/y" "suite" "a", Error "SyntaxError" "two")] /\
    files s = (("/out"%string, d) :: tl (files s)) /\ d_name d = "/y"%string /\
    look_up d "suite" "a" = Some ([("SimulationFailure", "one")], [("SyntaxError", "two")])%string /\
    map (fun n => length (sn_cases n)) (d_suites d) = [1].
Proof.
  exists [SetParameters (Path "/x" "suite" "a") "/out" false; Configure fine_load;
          Activate fine_start calm_tear; Frame (fails_at (ExitFailure "one")) calm_tear; Cleanup;
          SetParameters (Path "/y" "suite" "a") "/out" false;
          Configure (LoadEnv (inl (Syntax "two")) None)].
  eexists _, _. split; [repeat constructor|]. split; [vm_compute; reflexivity|].
  vm_compute. repeat split; reflexivity.
Qed.

(** ** C77: the recorder *)
Definition no_shutdown (r : request) : Prop := match r with Shutdown _ => False | _ => True end.

Record rec_ok (s : node) : Prop := RecOk {
  ro_idle : ph s <> Active -> recorders s = [];
  ro_on : ph s = Active -> rec_flag s = true -> recorders s = [process_id s] /\ (process_id s > 0)%Z;
  ro_off : ph s = Active -> rec_flag s = false -> recorders s = [] }.

Lemma reset_recorder_on s : recorders s = [process_id s] -> (process_id s > 0)%Z -> rec_flag s = true ->
  scenarios s <> 0 -> exists s', reset None s = Fine s' tt /\ recorders s' = [].
Proof.
  intros H1 H2 RF N. pose proof (reset_spec None s) as R.
  destruct (reset None s) as [s' []|s' e|s' w]; simpl in R.
  - exists s'. split; auto. destruct R as (_ & _ & _ & PI & RE).
    destruct RE as [[X _]|[[P0 _]|RE]]; [congruence|lia|].
    rewrite RE, H1. simpl. rewrite Z.eqb_refl. reflexivity.
  - destruct R as (_ & X & _). discriminate.
  - exfalso. destruct R as (_ & [[_ X]|[[_ [_ X]]|[_ [_ X]]]]); [congruence|lia|].
    apply X. rewrite H1. left. reflexivity.
Qed.

Lemma reset_recorder_off s : recorders s = [] -> rec_flag s = false ->
  scenarios s <> 0 -> exists s', reset None s = Fine s' tt /\ recorders s' = [].
Proof.
  intros H1 RF N. pose proof (reset_spec None s) as R.
  destruct (reset None s) as [s' []|s' e|s' w]; simpl in R.
  - exists s'. split; auto. destruct R as (_ & _ & _ & PI & RE).
    destruct RE as [[_ X]|[[P0 X]|RE]]; try congruence. rewrite RE, H1. reflexivity.
  - destruct R as (_ & X & _). discriminate.
  - exfalso. destruct R as (_ & [[_ X]|[[_ [X _]]|[_ [X _]]]]); congruence.
Qed.

Lemma handle_rec r s : inv s -> calm r -> records_well r -> no_shutdown r -> rec_ok s ->
  wp (handle r s) (fun s' _ => rec_ok s') (fun _ _ => False) (fun _ _ => False).
Proof.
  intros I HC RW NS [RI RON ROFF]. destruct r as [a b c|v|v t|v t|t| |t]; simpl in *.
  - constructor; simpl; auto.
  - destruct (ph s) eqn:HP; simpl; try (constructor; rewrite ?HP; auto; fail).
    assert (RE : recorders s = []) by (apply RI; discriminate).
    unfold on_configure. cbv zeta.
    match goal with |- context [set_result ?x s] => generalize x; intros v0 end.
    set (s1 := emit _ _). assert (R1 : recorders s1 = []) by exact RE. clearbody s1.
    assert (Y : forall x a, recorders x = [] -> rec_ok (set_ph Unconfigured (report a x)))
      by (intros; constructor; simpl; auto; discriminate).
    destruct (le_read v) as [e|c]; [apply (Y s1 (caught e)); auto|].
    unfold andthen, outside.
    destruct (le_threshold v) as [e|]; [apply (Y (set_script true s1) (caught e)); auto|].
    destruct c; unfold with_handler; simpl wp; try (apply Y; auto). constructor; simpl; auto; discriminate.
  - destruct (ph s) eqn:HP; simpl; try (constructor; rewrite ?HP; auto; fail).
    assert (RE : recorders s = []) by (apply RI; discriminate).
    unfold on_activate. destruct (scenarios s) as [|n] eqn:N; [constructor; simpl; auto; discriminate|].
    fold (start_work v s). pose proof (start_work_spec v s) as W.
    destruct RW as (pid & L & POS).
    destruct (start_work v s) as [s1 a|s1 e|s1 w]; simpl in W.
    + destruct W as (-> & K & _ & _ & _ & _ & _ & RM & _). destruct K. simpl.
      unfold recorder_moved in RM. rewrite L in RM.
      constructor; simpl; [congruence| |]; intros _ F; rewrite k_rf in F; rewrite F in RM;
        destruct RM as [M1 M2]; rewrite M2, ?M1, RE; auto.
    + destruct W as (K & _ & _ & N1 & RM & _). destruct K.
      unfold recorder_moved in RM. rewrite L in RM. unfold with_handler.
      assert (B : exists s', reset None (node_of (publish (report (caught e) s1))) = Fine s' tt /\ recorders s' = []).
      { assert (SC : script s = true) by (apply i_inactive; auto; lia).
        set (s2 := report (caught e) s1). 
        assert (E1 : script s2 = true) by (simpl; congruence).
        assert (E2 : scenarios s2 <> 0) by (simpl; lia).
        assert (E3 : rec_flag s2 = rec_flag s) by (simpl; congruence).
        assert (E4 : process_id s2 = process_id s1) by reflexivity.
        assert (E5 : recorders s2 = recorders s1) by reflexivity.
        clearbody s2. unfold publish. rewrite E1.
        match goal with |- context [Fine ?y tt] => set (s3 := y) end.
        assert (F1 : scenarios s3 = scenarios s2 /\ rec_flag s3 = rec_flag s2 /\ process_id s3 = process_id s2 /\ recorders s3 = recorders s2)
          by (subst s3; destruct (context_pub s2); auto).
        clearbody s3. simpl node_of. destruct F1 as (F1 & F2 & F3 & F4).
        destruct (rec_flag s) eqn:RF; destruct RM as [M1 M2].
        - apply reset_recorder_on; try congruence; lia.
        - apply reset_recorder_off; congruence. }
      destruct B as (s' & B1 & B2).
      assert (PF : exists s3, publish (report (caught e) s1) = Fine s3 tt).
      { unfold publish. change (script (report (caught e) s1)) with (script s1).
        rewrite k_sc, (i_inactive s I HP); [eauto|lia]. }
      destruct PF as (s3 & PF). rewrite PF in *. simpl in B1. simpl. rewrite HC, B1. simpl.
      constructor; simpl; auto; discriminate.
    + contradiction.
  - destruct (timer s) eqn:TM; simpl; [|constructor; auto].
    pose proof (i_timer s I TM) as HP. destruct (i_active s I HP) as (_ & N & SC & CO & PB).
    change (evaluate_storyboard v t s) with
      (with_handler (fun s => andthen (publish s) (fun s _ => deactivate t s)) (frame_work v s)).
    pose proof (frame_work_spec v s N CO SC) as W.
    destruct (frame_work v s) as [s1 []|s1 e1|s1 w1]; simpl in W; [| |contradiction].
    + destruct W as ([] & _ & _ & _ & _ & _ & PI & RE & _). simpl.
      constructor; rewrite ?k_ph, ?k_rf, ?PI, ?RE; auto.
    + destruct W as ([] & _ & _ & _ & _ & N1 & PI & RE & _). unfold with_handler.
      set (s2 := report (caught e1) s1).
      assert (E0 : ph s2 = Active) by (simpl; congruence).
      assert (E1 : script s2 = true) by (simpl; congruence).
      assert (E2 : scenarios s2 <> 0) by (simpl; lia).
      assert (E3 : rec_flag s2 = rec_flag s) by (simpl; congruence).
      assert (E4 : process_id s2 = process_id s) by exact PI.
      assert (E5 : recorders s2 = recorders s) by exact RE.
      clearbody s2. pose proof (publish_spec s2) as PS.
      destruct (publish s2) as [s3 []|s3 e3|s3 w3]; simpl in PS; [|contradiction|destruct PS; congruence].
      destruct PS as ([] & _ & _ & _ & _ & N3 & PI3 & RE3). simpl. unfold deactivate. rewrite k_ph0, E0.
      assert (B : exists s', reset None s3 = Fine s' tt /\ recorders s' = []).
      { destruct (rec_flag s) eqn:RF.
        - destruct (RON HP eq_refl). apply reset_recorder_on; try congruence; lia.
        - specialize (ROFF HP eq_refl). apply reset_recorder_off; congruence. }
      destruct B as (s' & B1 & B2). unfold on_deactivate. rewrite HC, B1. simpl.
      constructor; simpl; auto; discriminate.
  - unfold deactivate. destruct (ph s) eqn:HP; simpl; try (constructor; rewrite ?HP; auto; fail).
    destruct (i_active s I HP) as (_ & N & SC & CO & PB).
    assert (B : exists s', reset None s = Fine s' tt /\ recorders s' = []).
    { destruct (rec_flag s) eqn:RF.
      - destruct (RON eq_refl eq_refl). apply reset_recorder_on; auto; lia.
      - specialize (ROFF eq_refl eq_refl). apply reset_recorder_off; auto; lia. }
    destruct B as (s' & B1 & B2). unfold on_deactivate. rewrite HC, B1. simpl.
    constructor; simpl; auto; discriminate.
  - destruct (ph s) eqn:HP; simpl; try (constructor; rewrite ?HP; auto; fail).
    constructor; simpl; auto; try discriminate. intros _. apply RI. discriminate.
  - contradiction.
Qed.

(** While recorders start properly, tearing down does not raise and nobody shuts the node down,
    there is one recorder per run that records, none without, none after the run - and stopping it
    never ends the process. *)
Theorem C77_recorder_per_run : forall rs,
  Forall calm rs -> Forall records_well rs -> Forall no_shutdown rs ->
  exists s, serve rs fresh = Fine s tt /\
    (ph s <> Active -> recorders s = []) /\
    (ph s = Active -> rec_flag s = true -> exists pid, recorders s = [pid]) /\
    (ph s = Active -> rec_flag s = false -> recorders s = []).
Proof.
  assert (G : forall rs s0, inv s0 -> rec_ok s0 -> Forall calm rs -> Forall records_well rs ->
    Forall no_shutdown rs -> exists s, serve rs s0 = Fine s tt /\ rec_ok s).
  { induction rs as [|r rs IH]; simpl; intros s0 I T F1 F2 F3; [eauto|].
    inversion F1; inversion F2; inversion F3; subst.
    pose proof (handle_inv r s0 I ltac:(apply calm_shuts; assumption)) as W1.
    pose proof (handle_rec r s0 I ltac:(assumption) ltac:(assumption) ltac:(assumption) T) as W2.
    destruct (handle r s0) as [s1 []|s1 e1|s1 w1]; simpl in *; try contradiction. eauto. }
  intros rs F1 F2 F3. destruct (G rs fresh inv_fresh) as (s & E & [A B C]); auto.
  { constructor; simpl; auto; discriminate. }
  exists s. split; auto. split; auto. split; auto. intros. destruct (B H H0). eauto.
Qed.

Definition recording_run := [SetParameters (here "a") "/out" true; Configure fine_load].

(** Without those provisos: shutting down an active node leaves its recorder running; a recorder
    that cannot be forked makes the node interrupt every process it may signal; and a recorder
    that cannot be found after an earlier one was stopped ends the node's process. *)
Theorem C77_refuted :
  (exists s, serve (recording_run ++ [Activate fine_start calm_tear; Shutdown calm_tear]) fresh
             = Fine s tt /\ ph s = Finalized /\ recorders s = [41%Z]) /\
  (exists s, serve (recording_run ++
               [Activate (StartEnv ForkFails None None None None None) calm_tear]) fresh
             = Stops s SignalsEverybody) /\
  (exists s, serve (recording_run ++
               [Activate fine_start calm_tear; Deactivate calm_tear; Cleanup; Configure fine_load;
                Activate (StartEnv (NoProgram (Plain "which")) None None None None None) calm_tear]) fresh
             = Stops s ExitsProcess).
Proof.
  repeat split; eexists; vm_compute; repeat split; reflexivity.
Qed.

Example C77_example : exists s,
  Forall records_well (recording_run ++ [Activate fine_start calm_tear]) /\
  serve (recording_run ++ [Activate fine_start calm_tear]) fresh = Fine s tt /\
  ph s = Active /\ recorders s = [41%Z] /\ Forall no_shutdown recording_run.
Proof.
  eexists. split; [repeat constructor; exists 41%Z; split; [reflexivity|lia]|].
  split; [vm_compute; reflexivity|]. repeat split; repeat constructor.
Qed.

Print Assumptions C74_at_most_one_verdict.
Print Assumptions C74_frame_verdict.
Print Assumptions C74_start_verdict.
Print Assumptions C74_load_verdict.
Print Assumptions C74_timeout_leaves_no_verdict.
Print Assumptions C74_timeout_refuted.
Print Assumptions C75_plays_only_in_a_run.
Print Assumptions C75_only_while_active.
Print Assumptions C75_simulator_exists_iff_active.
Print Assumptions C75_no_undefined_behaviour.
Print Assumptions C75_refuted.
Print Assumptions C76_report.
Print Assumptions C76_suite_totals.
Print Assumptions C76_accepted_iff_all_passed.
Print Assumptions C76_shared_entry_refuted.
Print Assumptions C77_recorder_per_run.
Print Assumptions C77_refuted.
