(** Properties C01-C09 of the storyboard engine.  Histories are read newest first; see
    S_Storyboard for the vocabulary. *)
From Coq Require Import List Arith Bool Lia.
From Verif Require Import M_Storyboard S_Storyboard P_Storyboard P_StoryboardInv.
Import ListNotations.

(** ** Concrete scenarios used for non-vacuity and refutation: one Story, one Act, one
    ManeuverGroup (limit [gmax]), one Maneuver, [events] Events (limit [emax], priorities [pr]),
    one Action each. *)
Definition cfg (events gmax emax : nat) (pr : nat -> priority) : config :=
  {| nchild := fun p => match length p with 0 => 2 | 1 | 2 | 3 => 1 | 4 => events | 5 => 1 | _ => 0 end;
     maxattr := fun p => match length p with 3 => gmax | _ => emax end;
     prio := fun p => pr (hd 0 p) |}.
Definition env_of (l : list bool) : nat -> bool := fun n => nth n l false.
Definition world_of (o : outcome unit) : world :=
  match o with Ok _ w | Exit w => w | NoFuel => world0 end.
Definition act : path := [0; 1].
Definition group : path := [0; 0; 1].
Definition maneuver : path := [0; 0; 0; 1].
Definition ev (i : nat) : path := [i; 0; 0; 0; 1].
Definition action (i : nat) : path := [0; i; 0; 0; 0; 1].

(** Boolean reading of the log, for examples. *)
Definition is_trans (p : path) (o n : state) (e : entry) : bool :=
  match e with Trans q o' n' => path_eqb q p && state_eqb o o' && state_eqb n n' | _ => false end.

Lemma at_time_of_exists w e : In e (log w) -> exists l, at_time w e l.
Proof. intros H. apply in_split in H. destruct H as (l1 & l2 & H). exists l2, l1. exact H. Qed.

Lemma in_log_trans p o n w : existsb (is_trans p o n) (log w) = true -> In (Trans p o n) (log w).
Proof.
  intros H. apply existsb_exists in H. destruct H as (e & He & H). destruct e; try discriminate.
  cbn in H. apply andb_true_iff in H; destruct H as [H H3]. apply andb_true_iff in H; destruct H as [H1 H2].
  apply path_eqb_spec in H1. apply state_eqb_spec in H2. apply state_eqb_spec in H3. subst. exact He.
Qed.

Ltac entry H := let K := fresh in assert (K := reaches_entry _ _ _ _ _ _ H ltac:(eassumption)); cbn [entry_ok] in K;
  destruct K as (E1 & E2 & E3 & E4 & E5 & E6 & E7 & E8 & E9 & E10 & E11 & E12 & E13 & E14 & E15 & E16 & E17).

(** ** C02 *)
Theorem frame_terminates : forall c env n, exists w, reaches c env n w.
Proof.
  intros c env n. assert (H := frames_total c env n). unfold reaches.
  destruct (frames c env n world0) as [[] w|w|]; [exists w; auto|exists w; auto|congruence].
Qed.

(** ** C01 *)
Theorem transitions_lawful : forall c env n w, reaches c env n w ->
  forall p old new l, at_time w (Trans p old new) l -> lawful c p old new.
Proof. intros c env n w H p o s l A. entry H; auto. Qed.

(** Notifications are contiguous: each transition leaves the state notified last (the second stop
    of an Action, which assigns the state silently before notifying, is the one exception). *)
Theorem transitions_contiguous : forall c env n w, reaches c env n w ->
  forall p old new l, at_time w (Trans p old new) l ->
  old = seen l p \/ (kind_of p = KAction /\ old = Complete /\ new = Complete /\ seen l p = StopT).
Proof. intros c env n w H p o s l A. entry H; auto. Qed.

(** Nothing runs without having started, nothing completes without having ended or been stopped. *)
Theorem run_after_start : forall c env n w, reaches c env n w ->
  forall p old l, at_time w (Trans p old Running) l ->
  seen l p = StartT \/ (seen l p = StopT /\ kind_of p = KEvent /\ prio c p = Override).
Proof.
  intros c env n w H p o l A. entry H.
  destruct E1 as [E|(_ & _ & E & _)]; [|discriminate]. rewrite <- E.
  destruct o; cbn in E2; auto; contradiction.
Qed.

Theorem complete_after_end_or_stop : forall c env n w, reaches c env n w ->
  forall p old l, at_time w (Trans p old Complete) l ->
  seen l p = EndT \/ seen l p = StopT \/ (kind_of p = KAction /\ seen l p = Complete).
Proof.
  intros c env n w H p o l A. entry H.
  destruct E1 as [E|(_ & _ & _ & E)]; [|auto]. rewrite <- E.
  destruct o; cbn in E2; auto; contradiction.
Qed.

(** An Act or Event starts only when its start trigger was just answered with true. *)
Theorem start_needs_trigger : forall c env n w, reaches c env n w ->
  forall p old l, at_time w (Trans p old StartT) l -> kind_of p = KAct \/ kind_of p = KEvent ->
  exists l', l = Ask (QStartTrigger p) true :: l'.
Proof. intros c env n w H p o l A K. entry H; auto. Qed.

(** Something is stopped only by its own stop trigger, by its parent's stop, or (Events) by an
    override Event of the same Maneuver that is starting. *)
Theorem stop_needs_reason : forall c env n w, reaches c env n w ->
  forall p old l, at_time w (Trans p old StopT) l ->
  (exists l', l = Ask (QStopTrigger p) true :: l') \/
  (p <> [] /\ seen l (tl p) = StopT) \/
  (kind_of p = KEvent /\ exists q, tl q = tl p /\ kind_of q = KEvent /\ prio c q = Override /\
     (seen l q = StartT \/ seen l q = StopT)).
Proof.
  intros c env n w H p o l A. entry H.
  destruct (E12 eq_refl) as [(l' & E & _)|[E|E]];
    [left; exists l'; exact E|right; left; exact E|right; right; exact E].
Qed.

(** Children make progress only while the parent executes (or is being stopped, or, for the
    start ordered by the parent, is starting). *)
Theorem progress_needs_parent : forall c env n w, reaches c env n w ->
  forall p old new l, at_time w (Trans p old new) l -> p <> [] -> new <> StopT ->
  seen l (tl p) = Running \/ seen l (tl p) = StopT \/
  (new = StartT /\ seen l (tl p) = StartT /\ restartable p).
Proof.
  intros c env n w H p o s l A Hp Hs. entry H.
  destruct (state_eqb s StartT) eqn:E.
  - apply state_eqb_spec in E; subst s.
    destruct (E14 Hp eq_refl) as [X|[X|[X Y]]]; auto.
  - assert (s <> StartT) by (intros ->; discriminate).
    destruct (E13 Hp Hs H0) as [X|X]; auto.
Qed.

(** The strict life cycle of the standard does not hold: an override Event stops itself while it
    starts and then goes from stop to running. *)
Definition lc_env : list bool := [false; false; false; false; false; true; true].
Theorem standard_lifecycle_refuted :
  exists c env n w p old new, reaches c env n w /\ In (Trans p old new) (log w) /\ ~ standard_lawful old new.
Proof.
  exists (cfg 1 1 1 (fun _ => Override)), (env_of lc_env), 1,
    (world_of (frames (cfg 1 1 1 (fun _ => Override)) (env_of lc_env) 1 world0)), (ev 0), StopT, Running.
  split; [left; vm_compute; reflexivity|]. split; [apply in_log_trans; vm_compute; reflexivity|intros []].
Qed.

(** ** C03 *)
Theorem executions_bounded : forall c env n w, reaches c env n w ->
  forall p, ~ restartable p -> executions (log w) p <= Nat.max 1 (maxc c p).
Proof.
  intros c env n w H p Hp. destruct (reaches_Inv _ _ _ _ H) as (g & _ & HC & _ & _ & _ & _ & _ & HCI & _).
  cbn [fst] in HC. rewrite <- HC. apply HCI. exact Hp.
Qed.

(** In terms of the attribute: an Event with maximumExecutionCount m >= 1 runs at most m times in
    the whole scenario. *)
Theorem event_executions_bounded : forall c env n w, reaches c env n w ->
  forall p, kind_of p = KEvent -> 1 <= maxattr c p -> executions (log w) p <= maxattr c p.
Proof.
  intros c env n w H p K Hm. assert (X := executions_bounded c env n w H p).
  assert (Y : ~ restartable p) by (intros [E|E]; congruence). specialize (X Y).
  unfold maxc in X. rewrite K in X. lia.
Qed.

(** It leaves endTransition to complete only when no execution is left, to standby only when one is. *)
Theorem end_complete_iff_exhausted : forall c env n w, reaches c env n w ->
  forall p new l, at_time w (Trans p EndT new) l ->
  (new = Complete /\ maxc c p <= executions l p) \/ (new = Standby /\ executions l p < maxc c p).
Proof.
  intros c env n w H p s l A. entry H.
  destruct s; cbn in E2; try contradiction; auto.
Qed.

(** Maneuvers and Actions are executed at most as often as their parent. *)
Theorem child_executions_bounded : forall c env n w, reaches c env n w ->
  forall p q, kind_of p = KGroup \/ kind_of p = KEvent -> child_of c q p ->
  executions (log w) q <= executions (log w) p.
Proof.
  intros c env n w H p q K Hq. apply child_of_in in Hq.
  destruct (reaches_Inv _ _ _ _ H) as (g & _ & HC & HS & _ & _ & _ & _ & _ & HR & _).
  cbn [fst] in *. rewrite <- !HC. destruct (HR p q K Hq) as (R1 & R2 & R3 & _).
  assert (Hs := HS p). destruct (st (heap w p)) eqn:E; try congruence.
  - rewrite R1; auto.
  - rewrite R1; auto.
  - assert (X := R2 eq_refl). lia.
  - rewrite R1; auto.
  - destruct g as [r|]; [destruct (path_dec r p) as [->|Hn]; [rewrite R1; auto|]|];
      assert (X := R3 (or_intror eq_refl)); [assert (Y : Some r <> Some p) by congruence|assert (Y : @None path <> Some p) by congruence]; specialize (X Y); lia.
  - destruct g as [r|]; [destruct (path_dec r p) as [->|Hn]; [rewrite R1; auto|]|];
      assert (X := R3 (or_introl eq_refl)); [assert (Y : Some r <> Some p) by congruence|assert (Y : @None path <> Some p) by congruence]; specialize (X Y); lia.
Qed.

(** maximumExecutionCount = 0 still executes once. *)
Theorem execution_limit_zero_refuted :
  exists c env n w p, reaches c env n w /\ kind_of p = KEvent /\ maxattr c p < executions (log w) p.
Proof.
  exists (cfg 1 1 0 (fun _ => Parallel)), (env_of lc_env), 1,
    (world_of (frames (cfg 1 1 0 (fun _ => Parallel)) (env_of lc_env) 1 world0)), (ev 0).
  split; [left; vm_compute; reflexivity|]. split; [reflexivity|]. vm_compute. lia.
Qed.

(** ** C04 *)
(** Once an element that is not restarted by its parent's start has completed, it is only ever
    reported stopped or complete again.  Missing: that it is complete at every later frame end, which
    is false (next theorem). *)
Theorem finished_never_executes_again : forall c env n w, reaches c env n w ->
  forall p old new l, at_time w (Trans p old new) l -> ~ restartable p ->
  (exists o, In (Trans p o Complete) l) -> new = Complete \/ new = StopT.
Proof. intros c env n w H p o s l A. entry H; auto. Qed.

(** A Maneuver or Action leaves completeState for startTransition only when its parent is starting
    an execution (an override Event that just stopped itself counts as starting). *)
Theorem restart_only_by_parent : forall c env n w, reaches c env n w ->
  forall p old l, at_time w (Trans p old StartT) l -> old <> Standby ->
  seen l (tl p) = StartT \/ (seen l (tl p) = StopT /\ kind_of (tl p) = KEvent /\ prio c (tl p) = Override).
Proof. intros c env n w H p o l A. entry H; auto. Qed.

Definition fin_env : list bool :=
  [false; false; false; false; false; true; true; false; false; true; false; false; false; false; false; true].
Theorem finished_stays_finished_refuted :
  exists c env w1 w2 p, reaches c env 1 w1 /\ reaches c env 2 w2 /\ kind_of p = KEvent /\
    seen (log w1) p = Complete /\ seen (log w2) p = StopT.
Proof.
  set (c := cfg 2 1 1 (fun i => if Nat.eqb i 0 then Parallel else Override)).
  exists c, (env_of fin_env), (world_of (frames c (env_of fin_env) 1 world0)),
    (world_of (frames c (env_of fin_env) 2 world0)), (ev 0).
  split; [left; vm_compute; reflexivity|]. split; [left; vm_compute; reflexivity|].
  split; [reflexivity|]. split; vm_compute; reflexivity.
Qed.

(** ** C05 *)
(** An Event in standby can be started by the very evaluation that stops its Act, and it is left
    running below a completed Act. *)
Definition stop_env : list bool :=
  [false; false; false; false; false; true; false; false; false; false; true; true].
Theorem stop_reaches_descendants_refuted :
  exists c env n w p q, reaches c env n w /\ kind_of p = KAct /\ (exists l, q = l ++ p) /\
    In (Ask (QStopTrigger p) true) (log w) /\
    seen (log w) p = Complete /\ seen (log w) q = Running.
Proof.
  set (c := cfg 1 1 1 (fun _ => Parallel)).
  exists c, (env_of stop_env), 2, (world_of (frames c (env_of stop_env) 2 world0)), act, (ev 0).
  split; [left; vm_compute; reflexivity|]. split; [reflexivity|]. split; [exists [0;0;0]; reflexivity|].
  split; [|split; vm_compute; reflexivity].
  vm_compute. repeat first [left; reflexivity | right].
Qed.

(** ** C06 *)
Theorem override_leaves_single_running : forall c env n w, reaches c env n w ->
  forall p old l, at_time w (Trans p old Running) l -> kind_of p = KEvent -> prio c p = Override ->
  forall q, sibling c q p -> seen l q = Standby \/ seen l q = StopT.
Proof. intros c env n w H p o l A K P q Hq. entry H; auto. Qed.

(** ** C07 *)
Theorem skip_never_beside_running : forall c env n w, reaches c env n w ->
  forall p old l, at_time w (Trans p old Running) l -> kind_of p = KEvent -> prio c p = Skip ->
  forall q, sibling c q p -> seen l q <> Running.
Proof. intros c env n w H p o l A K P q Hq. entry H; auto. Qed.

(** A skipped Event returns to standby at once, because a sibling runs; nothing happens in between. *)
Theorem skipped_event_untouched : forall c env n w, reaches c env n w ->
  forall p l, at_time w (Trans p StartT Standby) l ->
  kind_of p = KEvent /\ prio c p = Skip /\
  exists l' q, l = Trans p Standby StartT :: l' /\ sibling c q p /\ seen l' q = Running /\
    executions l p = executions l' p.
Proof.
  intros c env n w H p l A. entry H. cbn [lawful] in E2. destruct E2 as [K P].
  split; [exact K|split; [exact P|]].
  destruct (E16 eq_refl eq_refl) as (l' & q & -> & B & C).
  exists l', q. auto.
Qed.

(** If all Events of a Maneuver have priority skip, at most one runs, at every moment. *)
Lemma skip_unique_suffix c m l : log_ok c l ->
  (forall i, kind_of (i :: m) = KEvent -> prio c (i :: m) = Skip) -> kind_of m = KManeuver ->
  forall q1 q2, child_of c q1 m -> child_of c q2 m -> seen l q1 = Running -> seen l q2 = Running -> q1 = q2.
Proof.
  intros HOK HS KM. induction l as [|e l IH]; intros q1 q2 C1 C2 R1 R2; [discriminate|].
  destruct HOK as [HE HOK]. specialize (IH HOK).
  destruct e as [p o s| | |]; try (apply IH; assumption).
  destruct (path_dec q1 q2) as [|Hne]; [assumption|exfalso].
  assert (HK : forall q, child_of c q m -> kind_of q = KEvent /\ tl q = m).
  { intros q (i & _ & ->). split; [|reflexivity]. apply kind_len_event. apply kind_len_maneuver in KM. simpl; lia. }
  assert (HX : forall a b, child_of c a m -> child_of c b m -> a <> b -> p = a ->
     seen (Trans p o s :: l) a = Running -> seen (Trans p o s :: l) b = Running -> False).
  { intros a b Ca Cb Hab -> Ra Rb. rewrite seen_same in Ra. subst s. rewrite seen_other in Rb by exact Hab.
    cbn [entry_ok] in HE. destruct HE as (_ & _ & _ & _ & _ & _ & E7 & _). destruct (HK a Ca) as [Ka Ta].
    assert (Pa : prio c a = Skip). { destruct Ca as (i & _ & ->). apply HS. exact Ka. }
    apply (E7 eq_refl Ka Pa b); [|exact Rb]. split; [congruence|]. rewrite Ta. exact Cb. }
  destruct (path_dec p q1) as [E|N1]; [eapply (HX q1 q2); eassumption|].
  destruct (path_dec p q2) as [E|N2]; [eapply (HX q2 q1); eauto|].
  rewrite seen_other in R1 by exact N1. rewrite seen_other in R2 by exact N2.
  apply Hne. eapply IH; eassumption.
Qed.

Lemma log_ok_suffix c l1 l : log_ok c (l1 ++ l) -> log_ok c l.
Proof. induction l1 as [|e l1 IH]; cbn; [auto|intros [_ H]; apply IH; exact H]. Qed.

Theorem all_skip_at_most_one_running : forall c env n w, reaches c env n w ->
  forall later l, log w = later ++ l ->
  forall m, kind_of m = KManeuver -> (forall i, prio c (i :: m) = Skip) ->
  forall q1 q2, child_of c q1 m -> child_of c q2 m ->
  seen l q1 = Running -> seen l q2 = Running -> q1 = q2.
Proof.
  intros c env n w H later l E m KM HS. destruct (reaches_Inv _ _ _ _ H) as (g & HI).
  destruct HI as (_ & _ & _ & _ & _ & _ & _ & _ & _ & HOK). cbn [fst] in HOK. rewrite E in HOK.
  apply log_ok_suffix in HOK. intros q1 q2. apply skip_unique_suffix; auto.
Qed.

(** ** C08 *)
(** Proved part: a new execution of a ManeuverGroup or Event puts every child back into
    startTransition before it runs, and when it ends normally each child was executed exactly as
    often as the parent.  Missing (false, see next theorem): that the Events below the Maneuvers of a
    re-executed ManeuverGroup execute again. *)
Theorem reexecution_restarts_children : forall c env n w, reaches c env n w ->
  forall p old l, at_time w (Trans p old Running) l -> kind_of p = KGroup \/ kind_of p = KEvent ->
  forall q, child_of c q p -> seen l q = StartT.
Proof. intros c env n w H p o l A K q Hq. entry H; auto. Qed.

Theorem children_execute_once_per_execution : forall c env n w, reaches c env n w ->
  forall p old l, at_time w (Trans p old EndT) l -> kind_of p = KGroup \/ kind_of p = KEvent ->
  forall q, child_of c q p -> executions l q = executions l p.
Proof. intros c env n w H p o l A K q Hq. entry H; auto. Qed.

Definition re_env : list bool :=
  [false; false; false; false; false; true; true; false; false; true].
Theorem reexecution_refuted :
  exists c env n w g e a, reaches c env n w /\ kind_of g = KGroup /\ kind_of e = KEvent /\ kind_of a = KAction /\
    (exists l, e = l ++ g) /\ child_of c a e /\
    executions (log w) g = 2 /\ seen (log w) g = Complete /\
    executions (log w) e = 1 /\ executions (log w) a = 1.
Proof.
  set (c := cfg 1 2 1 (fun _ => Parallel)).
  exists c, (env_of re_env), 1, (world_of (frames c (env_of re_env) 1 world0)), group, (ev 0), (action 0).
  split; [left; vm_compute; reflexivity|]. do 3 (split; [reflexivity|]).
  split; [exists [0;0]; reflexivity|]. split; [exists 0; split; [vm_compute; lia|reflexivity]|].
  repeat split; vm_compute; reflexivity.
Qed.

(** ** C09 *)
Theorem end_only_when_children_complete : forall c env n w, reaches c env n w ->
  forall p old l, at_time w (Trans p old EndT) l ->
  match kind_of p with
  | KAction | KInit => exists l', l = Ask (QAccomplished p) true :: l'
  | _ => forall q, child_of c q p -> seen l q = Complete
  end.
Proof. intros c env n w H p o l A. entry H. exact (E5 eq_refl). Qed.

(** ** The hypotheses are met by ordinary runs. *)
Definition demo := cfg 2 1 2 (fun i => if Nat.eqb i 0 then Parallel else Override).
Definition demo_env : list bool :=
  [false; false; false; false; false; true; true; false; false; true; true; false; false; true; true].
Definition demo_world := world_of (frames demo (env_of demo_env) 2 world0).
Example demo_reaches : reaches demo (env_of demo_env) 2 demo_world.
Proof. left; vm_compute; reflexivity. Qed.
Example demo_event_runs_twice : executions (log demo_world) (ev 0) = 2.
Proof. vm_compute; reflexivity. Qed.
Example demo_event_ends : exists l, at_time demo_world (Trans (ev 0) Running EndT) l.
Proof. apply at_time_of_exists, in_log_trans. vm_compute; reflexivity. Qed.
Example demo_override_runs : exists l, at_time demo_world (Trans (ev 1) StopT Running) l.
Proof. apply at_time_of_exists, in_log_trans. vm_compute; reflexivity. Qed.
Example demo_sibling_stopped : exists l, at_time demo_world (Trans (ev 0) Complete StopT) l.
Proof. apply at_time_of_exists, in_log_trans. vm_compute; reflexivity. Qed.
Example demo_restart : exists l, at_time demo_world (Trans (action 0) Complete StartT) l.
Proof. apply at_time_of_exists, in_log_trans. vm_compute; reflexivity. Qed.

Definition skip_cfg := cfg 2 1 1 (fun _ => Skip).
Definition skip_env : list bool := [false; false; false; false; false; true; true; false; false; false; true].
Definition skip_world := world_of (frames skip_cfg (env_of skip_env) 1 world0).
Example skip_reaches : reaches skip_cfg (env_of skip_env) 1 skip_world.
Proof. left; vm_compute; reflexivity. Qed.
Example skip_happens : exists l, at_time skip_world (Trans (ev 1) StartT Standby) l.
Proof. apply at_time_of_exists, in_log_trans. vm_compute; reflexivity. Qed.
Example skip_one_runs : seen (log skip_world) (ev 0) = Running /\ seen (log skip_world) (ev 1) = Standby.
Proof. split; vm_compute; reflexivity. Qed.

Print Assumptions frame_terminates.
Print Assumptions transitions_lawful.
Print Assumptions executions_bounded.
Print Assumptions child_executions_bounded.
Print Assumptions all_skip_at_most_one_running.
Print Assumptions reexecution_refuted.
