(** Properties C04, C05, C09, C67 and C68 of the storyboard engine: completion, stopping and
    progress.  Histories are read newest first; see S_Storyboard for the vocabulary. *)
From Coq Require Import List Arith Bool Lia.
From Verif Require Import M_Storyboard S_Storyboard P_Storyboard P_StoryboardInv P_StoryboardEval P_StoryboardStop
  P_StoryboardProgress T_Storyboard.
Import ListNotations.

(** ** C04 *)
(** Whatever happens to an element, everything above it is executing or being stopped (or it is being
    started by its parent): below a completed or waiting element nothing at all happens. *)
Theorem activity_needs_active_ancestors : forall c env n w, reaches c env n w ->
  forall e l, at_time w e l -> forall y, above y (subject e) ->
  seen l y = Running \/ seen l y = StopT \/
  (y = tl (subject e) /\ seen l y = StartT /\ restartable (subject e) /\ exists o, e = Trans (subject e) o StartT).
Proof. intros c env n w H e l A. exact (proj1 (reaches_L2 c env n w e l H A)). Qed.

Corollary nothing_below_complete : forall c env n w, reaches c env n w ->
  forall e l, at_time w e l -> forall y, above y (subject e) -> seen l y <> Complete /\ seen l y <> Standby.
Proof.
  intros c env n w H e l A y Hy. destruct (activity_needs_active_ancestors c env n w H e l A y Hy) as [E|[E|(_ & E & _)]];
    rewrite E; split; discriminate.
Qed.

(** ** C05 *)
(** When a stop trigger fires while the element is executing, its stop is the next thing observed, and
    if the frame returns the element is complete at the end of it. *)
Lemma stopped_log c l p : log_ok c l -> ~ restartable p -> kind_of p <> KEvent ->
  (exists o, In (Trans p o StopT) l) -> seen l p = StopT \/ seen l p = Complete.
Proof.
  intros HOK Hr Hk. induction l as [|e l IH]; intros (o & Hin); [destruct Hin|].
  destruct HOK as [HE HOK]. destruct (path_dec (subject e) p) as [Es|Hn].
  - destruct e as [q o' s'|q b|q|q].
    + cbn in Es. subst q. rewrite seen_same. cbn [entry_ok] in HE. destruct HE as (E1 & E2 & _).
      destruct Hin as [Hin|Hin]; [injection Hin as _ ->; auto|].
      assert (X := IH HOK (ex_intro _ o Hin)).
      destruct E1 as [E1|(K & _)]; [|exfalso; apply Hr; right; exact K].
      rewrite <- E1 in X. destruct X as [X|X]; rewrite X in E2; destruct s'; cbn in E2; auto; try contradiction;
        try (destruct E2; congruence); exfalso; apply Hr; exact E2.
    + cbn. apply IH; [exact HOK|]. destruct Hin as [Hin|Hin]; [discriminate|eauto].
    + cbn. apply IH; [exact HOK|]. destruct Hin as [Hin|Hin]; [discriminate|eauto].
    + cbn. apply IH; [exact HOK|]. destruct Hin as [Hin|Hin]; [discriminate|eauto].
  - assert (Hs : seen (e :: l) p = seen l p).
    { destruct e; try reflexivity. apply seen_other; exact Hn. }
    rewrite Hs. apply IH; [exact HOK|]. destruct Hin as [Hin|Hin]; [subst e; exfalso; apply Hn; reflexivity|eauto].
Qed.

Lemma last_event {A} (l : list A) x y t : l ++ x :: t = y :: t -> l = [] /\ x = y.
Proof.
  intros H. destruct l as [|a l]; cbn in H; [injection H as ->; auto|].
  exfalso. injection H as _ H. apply (f_equal (@length A)) in H. rewrite app_length in H. simpl in H. lia.
Qed.

Theorem answers_take_effect : forall c env n w, reaches c env n w ->
  forall later e' e l, log w = later ++ e' :: e :: l -> next_ok e' e l.
Proof.
  intros c env n w H later e' e l E. assert (A : Adj (log w)).
  { destruct H as [H|H].
    - apply (frames_ok_inv c env n w H).
    - apply (proj1 (frames_exit c env n world0 w (world0_inv c) H)). }
  rewrite E in A. eapply Adj_at; exact A.
Qed.

(** Nothing is left pending when a frame returns: the last event asks for no follow-up. *)
Theorem nothing_pending_after_frame : forall c env n w, frames c env n world0 = Ok tt w ->
  forall e l, log w = e :: l -> forall e', next_ok e' e l.
Proof.
  intros c env n w H e l E. destruct (frames_ok_inv c env n w H) as (_ & _ & _ & _ & F & _).
  rewrite E in F. exact F.
Qed.

(** A scenario is ended by an exception only when an action call has just thrown. *)
Theorem exit_only_by_action : forall c env n w, frames c env n world0 = Exit w ->
  (exists p l, log w = Ask (QStartThrows p) true :: ActionStart p :: l) \/
  (exists p l, log w = Ask (QRunThrows p) true :: ActionRun p :: l).
Proof.
  intros c env n w H. destruct (proj2 (frames_exit c env n world0 w (world0_inv c) H)) as [T|[T|(p & T)]]; auto.
  exfalso. destruct (reaches_Inv c env n w (or_intror H)) as (g & _ & _ & HS & _). exact (HS p T).
Qed.

Theorem stop_trigger_completes : forall c env n w, frames c env n world0 = Ok tt w ->
  forall p l, at_time w (Ask (QStopTrigger p) true) l -> executing (seen l p) ->
  (exists later, log w = later ++ Trans p (seen l p) StopT :: Ask (QStopTrigger p) true :: l) /\
  seen (log w) p = Complete.
Proof.
  intros c env n w H p l (later & E) Hx. assert (HR : reaches c env n w) by (left; exact H).
  assert (Hn : seen l p <> Standby /\ seen l p <> StopT) by (destruct Hx as [E0|[E0|E0]]; rewrite E0; split; discriminate).
  assert (X : exists later', log w = later' ++ Trans p (seen l p) StopT :: Ask (QStopTrigger p) true :: l).
  { induction later as [|x later _] using rev_ind.
    - exfalso. assert (Y := nothing_pending_after_frame c env n w H _ _ E (ActionRun p)).
      cbn in Y. destruct Y as [_ [Y|[Y|Y]]]; [tauto|tauto|discriminate].
    - exists later. rewrite <- app_assoc in E. cbn [app] in E. rewrite E.
      assert (Y := answers_take_effect c env n w HR later x _ l E). cbn in Y.
      destruct Y as [_ [Y|[Y|Y]]]; [tauto|tauto|subst x; reflexivity]. }
  split; [exact X|]. destruct X as (later' & E').
  destruct (answers_take_effect c env n w HR later' _ _ l E') as [K _].
  assert (A : at_time w (Trans p (seen l p) StopT) (Ask (QStopTrigger p) true :: l)) by (exists later'; exact E').
  destruct (reaches_Inv c env n w HR) as (g & HI). destruct HI as (_ & _ & _ & _ & _ & _ & _ & _ & _ & HOK).
  cbn [fst] in HOK.
  destruct (stopped_log c (log w) p HOK) as [Y|Y].
  - intros [Kr|Kr]; destruct K; congruence.
  - destruct K; congruence.
  - exists (seen l p). rewrite E'. apply in_or_app. right. left. reflexivity.
  - exfalso. destruct (frames_ok_inv c env n w H) as (_ & _ & HH & HU & _). rewrite HH in Y.
    assert (Z := proj2 HU p (fun F => F) Y). destruct K; congruence.
  - exact Y.
Qed.

(** Once an element is complete, what is inside it does not execute, except in elements that were
    started by the stop itself (see [stop_reaches_descendants_refuted] for why this exception is needed). *)
Theorem complete_has_nothing_executing : forall c env n w, reaches c env n w ->
  forall y, seen (log w) y = Complete ->
  forall r, inside c r y -> executing (seen (log w) r) ->
  exists a, (r = a \/ inside c r a) /\ inside c a y /\ started_while_stopping (log w) a.
Proof. intros c env n w H y E r. exact (proj1 (reaches_Good c env n w H) y (or_introl E) r). Qed.

(** The same at the very moment of completion, which also covers runs cut off by an exception. *)
Theorem completion_leaves_nothing_executing : forall c env n w, reaches c env n w ->
  forall y old l, at_time w (Trans y old Complete) l ->
  forall r, inside c r y -> executing (seen l r) ->
  exists a, (r = a \/ inside c r a) /\ inside c a y /\ started_while_stopping l a.
Proof. intros c env n w H y old l A. exact (proj2 (reaches_L2 c env n w _ l H A)). Qed.

(** Consequently, if nothing inside was ever started by a stop, nothing inside executes. *)
Corollary complete_is_quiet : forall c env n w, reaches c env n w ->
  forall y, seen (log w) y = Complete ->
  (forall a, inside c a y -> ~ started_while_stopping (log w) a) ->
  forall r, inside c r y -> seen (log w) r = Standby \/ seen (log w) r = Complete \/ seen (log w) r = StopT.
Proof.
  intros c env n w H y E Hn r Hr. destruct (reaches_Inv c env n w H) as (g & (HH & _ & HS & _)). cbn [fst] in *.
  assert (X : ~ executing (seen (log w) r)).
  { intros Hx. destruct (complete_has_nothing_executing c env n w H y E r Hr Hx) as (a & _ & Ha & Hs). exact (Hn a Ha Hs). }
  specialize (HS r). rewrite <- HH in HS.
  unfold executing in X. destruct (seen (log w) r); tauto.
Qed.

(** Only an Event can be found in stopTransition between frames. *)
Theorem stop_finishes_in_frame : forall c env n w, frames c env n world0 = Ok tt w ->
  forall p, seen (log w) p = StopT -> kind_of p = KEvent.
Proof.
  intros c env n w H p E. destruct (frames_ok_inv c env n w H) as (_ & _ & HH & HU & _).
  rewrite HH in E. exact (proj2 HU p (fun F => F) E).
Qed.

(** ** C09 *)
(** Between frames an executing element has an unfinished child: with
    [end_only_when_children_complete], an element leaves runningState exactly when its children are
    all complete, without a frame of delay. *)
Theorem running_has_unfinished_child : forall c env n w, frames c env n world0 = Ok tt w ->
  forall p, composite p -> seen (log w) p = Running -> exists q, child_of c q p /\ seen (log w) q <> Complete.
Proof.
  intros c env n w H p K E. destruct (frames_ok_inv c env n w H) as (_ & _ & HH & HU & _).
  rewrite HH in E. destruct (proj1 HU p (fun F => F) K E) as (q & Hq & Eq). exists q. rewrite HH.
  split; [apply child_of_in; exact Hq|exact Eq].
Qed.

(** Between frames no element is in a transition state, except an overridden Event. *)
Theorem settled_between_frames : forall c env n w, frames c env n world0 = Ok tt w ->
  forall r, within c r [] -> (forall y, inside c r y -> seen (log w) y = Running) ->
  1 <= n -> seen (log w) r = Standby \/ seen (log w) r = Running \/ seen (log w) r = Complete \/
            (seen (log w) r = StopT /\ kind_of r = KEvent).
Proof.
  intros c env n w H r Hr Hy Hn. destruct n as [|n]; [lia|].
  assert (G : forall m w0 w1, FrameInv c w0 -> frames c env (S m) w0 = Ok tt w1 ->
            exists w2, FrameInv c w2 /\ frame c env w2 = Ok tt w1).
  { induction m as [|m IH]; intros w0 w1 HI E; cbn [frames] in E; unfold seqm, bind in E.
    - destruct (frame c env w0) as [[] w2|w2|] eqn:E2; try discriminate. injection E as <-. exists w0; auto.
    - destruct (frame c env w0) as [[] w2|w2|] eqn:E2; try discriminate.
      apply (IH w2 w1 (proj2 (frame_inv c env w0 w2 HI E2))). exact E. }
  destruct (G n world0 w (world0_inv c) H) as (w2 & HI & E).
  destruct (frame_prog c env w2 w HI E) as (new & _ & P). specialize (P r Hr Hy). unfold frame_status in P.
  destruct (seen (log w) r); auto; contradiction.
Qed.

(** ** C68 *)
(** In every frame that returns, every element whose ancestors are all executing was attended to. *)
Theorem every_frame_serves_everything_due : forall c env n w w',
  frames c env n world0 = Ok tt w -> frame c env w = Ok tt w' ->
  exists new, log w' = new ++ log w /\
  forall r, r = [] \/ inside c r [] -> (forall y, inside c r y -> seen (log w') y = Running) ->
  frame_status c new (log w') r.
Proof. intros c env n w w' H E. exact (frame_prog c env w w' (frames_ok_inv c env n w H) E). Qed.

(** ** The hypotheses are met by ordinary runs. *)
(** The Storyboard is stopped by its trigger in frame 2, while an Action runs. *)
Definition stop2_cfg := cfg 1 1 1 (fun _ => Parallel).
Definition stop2_env : list bool :=
  [false; false; false; false; false; true; true; false; false; false; true].
Definition stop2_world1 := world_of (frames stop2_cfg (env_of stop2_env) 1 world0).
Definition stop2_world := world_of (frames stop2_cfg (env_of stop2_env) 2 world0).
Example stop2_frames : frames stop2_cfg (env_of stop2_env) 2 world0 = Ok tt stop2_world.
Proof. vm_compute; reflexivity. Qed.
Example stop2_reaches : reaches stop2_cfg (env_of stop2_env) 2 stop2_world.
Proof. left; exact stop2_frames. Qed.

Example stop2_asked : at_time stop2_world (Ask (QStopTrigger []) true) (log stop2_world1) /\
  executing (seen (log stop2_world1) []) /\ seen (log stop2_world1) (action 0) = Running.
Proof.
  split; [|split; [right; left; vm_compute; reflexivity|vm_compute; reflexivity]].
  exists (firstn 19 (log stop2_world)). vm_compute. reflexivity.
Qed.
Example stop2_completes : seen (log stop2_world) [] = Complete.
Proof.
  destruct stop2_asked as (A & B & _). exact (proj2 (stop_trigger_completes _ _ _ _ stop2_frames _ _ A B)).
Qed.

(** Elements started while their parent was being stopped, computed from the history. *)
Fixpoint late (l : list entry) : list path :=
  match l with
  | [] => []
  | Trans a Standby StartT :: l1 => (if state_eqb (seen l1 (tl a)) StopT then [a] else []) ++ late l1
  | _ :: l1 => late l1
  end.
Lemma late_complete l a : started_while_stopping l a -> In a (late l).
Proof.
  intros (later & l1 & -> & E). induction later as [|e later IH]; cbn [app late].
  - rewrite E. left. reflexivity.
  - destruct e as [q [] []| | |]; auto; apply in_or_app; right; exact IH.
Qed.
Example stop2_quiet : forall r, inside stop2_cfg r [] -> seen (log stop2_world) r = Standby \/
  seen (log stop2_world) r = Complete \/ seen (log stop2_world) r = StopT.
Proof.
  apply (complete_is_quiet _ _ _ _ stop2_reaches []); [exact stop2_completes|].
  intros a _ H. apply late_complete in H. revert H. vm_compute. tauto.
Qed.
Example stop2_inside : inside stop2_cfg (action 0) [].
Proof.
  apply inside_deeper with (q := [1]); [|split; discriminate|exists 1; split; [cbn; lia|reflexivity]].
  apply inside_deeper with (q := act); [|split; discriminate|exists 0; split; [cbn; lia|reflexivity]].
  apply inside_deeper with (q := group); [|split; discriminate|exists 0; split; [cbn; lia|reflexivity]].
  apply inside_deeper with (q := maneuver); [|split; discriminate|exists 0; split; [cbn; lia|reflexivity]].
  apply inside_deeper with (q := ev 0); [|split; discriminate|exists 0; split; [cbn; lia|reflexivity]].
  apply inside_child; [split; discriminate|exists 0; split; [cbn; lia|reflexivity]].
Qed.

(** In frame 1 of the same run the Action, whose ancestors all run, was run and is not accomplished. *)
Lemma stop2_frame1 : frame stop2_cfg (env_of stop2_env) world0 = Ok tt stop2_world1.
Proof. vm_compute; reflexivity. Qed.
Lemma stop2_running : Forall (fun y => seen (log stop2_world1) y = Running)
  [action 0; ev 0; maneuver; group; act; [1]; []].
Proof. vm_compute. repeat constructor. Qed.
Lemma inside_tl c r y : inside c r y -> exists k, y = Nat.iter (S k) (@tl nat) r /\ length y + S k = length r.
Proof.
  assert (T : forall q p, child_of c q p -> p = tl q) by (intros q p (i & _ & ->); reflexivity).
  intros H. induction H as [q p _ Hc|r q p _ (k & E1 & E2) _ Hc].
  - exists 0. split; [exact (T _ _ Hc)|]. destruct Hc as (i & _ & ->). cbn [length]. lia.
  - exists (S k). rewrite (T _ _ Hc), E1. split; [reflexivity|]. rewrite <- E1, <- (T _ _ Hc).
    destruct Hc as (i & _ & ->). cbn [length] in E2 |- *. lia.
Qed.
Lemma stop2_above y : inside stop2_cfg (action 0) y -> In y [ev 0; maneuver; group; act; [1]; []].
Proof.
  intros H. destruct (inside_tl _ _ _ H) as (k & -> & Hl). cbn [length action] in Hl.
  do 6 (destruct k as [|k]; [cbn; tauto|]). lia.
Qed.
Example stop2_served : exists new, log stop2_world1 = new ++ log world0 /\
  In (ActionRun (action 0)) new /\ In (Ask (QAccomplished (action 0)) false) new.
Proof.
  destruct (every_frame_serves_everything_due stop2_cfg (env_of stop2_env) 0 world0 stop2_world1 eq_refl stop2_frame1)
    as (new & EN & P). exists new. split; [exact EN|].
  assert (X := P (action 0) (or_intror stop2_inside)). clear P.
  assert (Y := stop2_running). rewrite Forall_forall in Y.
  assert (R : forall y, inside stop2_cfg (action 0) y -> seen (log stop2_world1) y = Running).
  { intros y Hy. apply Y. right. apply stop2_above; exact Hy. }
  specialize (X R). clear R. assert (Z := Y (action 0) (or_introl eq_refl)). clear Y. revert EN X Z.
  generalize (log stop2_world1) as l. intros l _ X Z. unfold frame_status in X. rewrite Z in X.
  apply (proj2 X). intros [K _]. apply K. reflexivity.
Qed.

(** An exception ends a run right after the throwing action. *)
Definition throw_env : list bool := [false; true].
Example throw_exit : frames stop2_cfg (env_of throw_env) 1 world0 = Exit (world_of (frames stop2_cfg (env_of throw_env) 1 world0)).
Proof. vm_compute; reflexivity. Qed.

(** Refuted: a running Event below a completed Act is what [started_while_stopping] excludes. *)
Example late_start_is_late : forall w, w = world_of (frames (cfg 1 1 1 (fun _ => Parallel)) (env_of stop_env) 2 world0) ->
  late (log w) = [ev 0].
Proof. intros w ->. vm_compute. reflexivity. Qed.

Print Assumptions stop_trigger_completes.
Print Assumptions complete_has_nothing_executing.
Print Assumptions answers_take_effect.
Print Assumptions every_frame_serves_everything_due.
Print Assumptions running_has_unfinished_child.
Print Assumptions exit_only_by_action.
