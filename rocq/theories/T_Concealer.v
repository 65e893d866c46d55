(** * C97-C103: the task queue between the simulator and Autoware. *)
From Coq Require Import ZArith List Bool Arith Lia.
From Verif Require Import M_Concealer S_Concealer P_Concealer P_Concealer2 P_Concealer3.
Import ListNotations.

(** The record after a schedule of the two threads, Autoware and time, with the given
    initialize_duration. *)
Definition record_of (d : Z) (es : list event) : list entry := log (run (start d) es).

(** ** C97: requests are carried out one at a time, in order, each at most once *)

Theorem C97_in_order d es : exists rest,
  accepted (record_of d es) = begun (record_of d es) ++ rest.
Proof.
  unfold record_of. destruct (reach_inv d es) as [A _ S _ _]. unfold spot in S. rewrite A.
  destruct (thread (run (start d) es)); try (destruct S as [[_ ->] _]; eauto; fail);
    try (destruct S as (_ & t & q & -> & [_ ->] & _); exists q; now rewrite <- app_assoc).
  destruct S as (_ & t & q & -> & _ & ->). exists q. now rewrite <- app_assoc.
Qed.

Theorem C97_begins d es l t : says (record_of d es) l (Began t) ->
  unfailed l /\ begun l = finished l /\ exists rest, accepted l = finished l ++ t :: rest.
Proof.
  intros H. apply reach_good in H. destruct H as [[U R] [rest E]].
  split; [exact U|]. split; [exact R|]. exists rest. now rewrite <- R.
Qed.

Theorem C97_ends d es l t :
  says (record_of d es) l (Finished t) \/ says (record_of d es) l (Failed t) -> running l t.
Proof. intros [H|H]; apply reach_good in H; apply H. Qed.

Theorem C97_acts d es l e : says (record_of d es) l e ->
  (exists r b, e = Sent r b) \/ (exists s, e = Saw s) \/ e = Lifted -> exists t, running l t.
Proof.
  intros H [(r & b & ->)|[(s & ->)| ->]]; apply reach_good in H; cbn in H.
  - destruct H as (t & n & k & H & _). eauto.
  - exact H.
  - destruct H as (t & k & H & _). eauto.
Qed.

Theorem C97_answer d es l w : says (record_of d es) l (Answered w true) -> finished l = accepted l.
Proof. intros H. apply reach_good in H. symmetry. exact H. Qed.

Theorem C97_answer_state d es w b :
  record_of d (es ++ [Main]) = record_of d es ++ [Answered w b] ->
  b = true <-> finished (record_of d es) = accepted (record_of d es) /\ seen (run (start d) es) = w.
Proof.
  unfold record_of. intros H. pose proof (reach_inv d es) as [A _ _ R _]. revert A R H.
  unfold run. rewrite fold_left_app. cbn [fold_left step].
  generalize (fold_left step es (start d)) as s. intros s A R H.
  assert (Z : log s = log s ++ [Answered w b] -> False).
  { intros K. apply (f_equal (@length entry)) in K. rewrite app_length in K. cbn in K. lia. }
  unfold proceed in H. destruct (main s).
  - exfalso. destruct (todo s) as [|c cs]; [exact (Z H)|].
    destruct c; cbn [enter] in H; try destruct (initialized s); cbn [thrown set_initialized] in H;
      try destruct (thrown s); cbn [log set_main set_initialized] in H;
      rewrite ?app_nil_r in H; try exact (Z H); apply app_inv_head in H; discriminate.
  - cbn in H. apply app_inv_head in H. discriminate.
  - destruct (queue s) eqn:E; cbn [log set_main] in H; [rewrite app_nil_r in H; destruct (Z H)|].
    apply app_inv_head in H.
    injection H as <- <-. split; [discriminate|]. intros [F _]. rewrite F in A.
    rewrite <- (app_nil_r (accepted (log s))) in A at 1. apply app_inv_head in A. discriminate.
  - cbn in H. apply app_inv_head in H. injection H as <- <-. rewrite R, app_nil_r in A.
    unfold astate_eqb. rewrite Nat.eqb_eq. split.
    + intros E. split; [auto|]. destruct (seen s), want; cbn in E; congruence.
    + intros [_ ->]. reflexivity.
  - destruct (Z H).
  - destruct (Z H).
  - exfalso. destruct (thread s); cbn [log set_main] in H; rewrite ?app_nil_r in H; exact (Z H).
  - destruct (Z H).
Qed.

(** The question that is answered is the one that was asked: whether Autoware drives, or whether it
    waits for engagement; whatever happens meanwhile besides further requests. *)
Definition question (q : demand) : option astate :=
  match q with DEngaged => Some Driving | DEngageable => Some WaitingForEngage | _ => None end.

Definition meanwhile (e : event) : Prop :=
  match e with Demand _ | Destroy => False | _ => True end.

Definition only_answers (w : astate) (es : list entry) : Prop :=
  forall w' b, In (Answered w' b) es -> w' = w.

Lemma only_answers_app w a b : only_answers w a -> only_answers w b -> only_answers w (a ++ b).
Proof. intros A B w' x I. apply in_app_or in I. destruct I as [I|I]; eauto. Qed.

Definition asking (w : astate) (q : call) (s : state) : Prop :=
  main s = Free /\ todo s = [q] \/ main s = Asking w /\ todo s = []
  \/ main s = Reading w /\ todo s = [] \/ main s = Free /\ todo s = [].

Lemma dispatch_quiet s o w : main (dispatch s o) = main s /\ todo (dispatch s o) = todo s
  /\ exists es, log (dispatch s o) = log s ++ es /\ only_answers w es.
Proof.
  assert (Q : forall es, (forall w' b, ~ In (Answered w' b) es) -> only_answers w es)
    by (intros es H w' b I; destruct (H w' b I)).
  unfold dispatch, die.
  destruct (thread s) as [| | |p|r k d|r n k| | |];
    repeat match goal with
      | |- context [match ?x with _ => _ end] => destruct x
      end;
    (split; [reflexivity|]; split; [reflexivity|]);
    cbn [log set_thread set_queue set_limit die];
    try (eexists; split; [reflexivity|]; apply Q; cbn; intuition discriminate);
    try (exists []; split; [rewrite app_nil_r; reflexivity | intros ? ? []]).
  all: exists ([] : list entry); split; [rewrite ?app_nil_r; reflexivity | intros ? ? []].
Qed.

Theorem C97_question d es q w es' : idle (run (start d) es) = true -> question q = Some w ->
  Forall meanwhile es' ->
  exists l, record_of d (es ++ Demand q :: es') = record_of d es ++ l /\ only_answers w l.
Proof.
  intros I W M. unfold record_of, run. rewrite fold_left_app. cbn [fold_left step].
  fold (run (start d) es). set (s := run (start d) es) in *. clearbody s. rewrite I.
  assert (C : exists c, calls (initialized s) q = [c]
              /\ (c = CEngaged /\ w = Driving \/ c = CEngageable /\ w = WaitingForEngage)).
  { destruct q; cbn in W; try discriminate; injection W as <-; eexists; (split; [reflexivity|]); auto. }
  destruct C as (c & C & K). rewrite C.
  assert (G : forall es' s0, Forall meanwhile es' -> asking w c s0 ->
              exists l, log (fold_left step es' s0) = log s0 ++ l /\ only_answers w l).
  { clear - K. induction es' as [|e es' IH]; intros s0 M A; cbn [fold_left].
    { exists []. rewrite app_nil_r. split; [reflexivity | intros ? ? []]. }
    inversion M as [|e0 es0 M1 M2]; subst.
    assert (S : asking w c (step s0 e)
                /\ exists l, log (step s0 e) = log s0 ++ l /\ only_answers w l).
    { assert (Z : exists l, log s0 = log s0 ++ l /\ only_answers w l)
        by (exists []; rewrite app_nil_r; split; [reflexivity | intros ? ? []]).
      destruct e as [dm| |o| |x|dt|]; cbn [meanwhile] in M1; try contradiction; cbn [step].
      - unfold proceed.
        destruct A as [[P T]|[[P T]|[[P T]|[P T]]]]; rewrite P; rewrite ?T.
        + assert (X : enter s0 c [] = set_main s0 Free [] [Threw]
                      \/ enter s0 c [] = set_main s0 (Asking w) [] []).
          { destruct K as [[-> ->]|[-> ->]]; cbn [enter]; destruct (thrown s0); auto. }
          destruct X as [-> | ->]; cbn [log set_main]; (split; [unfold asking; cbn; auto|]).
          * eexists. split; [reflexivity|]. intros w' b [H|[]]. discriminate H.
          * eexists. split; [reflexivity|]. intros w' b [].
        + destruct (queue s0); cbn [log set_main]; (split; [unfold asking; cbn; auto|]);
            eexists; (split; [reflexivity|]); intros w' b H; [destruct H|].
          destruct H as [H|[]]. congruence.
        + cbn [log set_main]. split; [unfold asking; cbn; auto|].
          eexists. split; [reflexivity|]. intros w' b [H|[]]. congruence.
        + split; [unfold asking; auto | exact Z].
      - destruct (dispatch_quiet s0 o w) as (P & T & L).
        split; [unfold asking; rewrite P, T; exact A | exact L].
      - split; [exact A | exact Z].
      - split; [exact A | exact Z].
      - split; [exact A | exact Z]. }
    destruct S as [A1 (l1 & L1 & O1)]. destruct (IH _ M2 A1) as (l2 & L2 & O2).
    exists (l1 ++ l2). rewrite L2, L1, app_assoc. split; [reflexivity|].
    apply only_answers_app; assumption. }
  destruct (G es' (set_main s Free [c] []) M) as (l & L & O).
  { unfold asking. cbn. auto. }
  exists l. rewrite L. cbn [log set_main]. rewrite app_nil_r. split; [reflexivity | exact O].
Qed.

(** A run: the ego gets a route and is engaged, and Autoware follows. *)
Definition steps (n : nat) : list event := repeat (Disp Yes) n.
Definition mains (n : nat) : list event := repeat Main n.
Definition journey : list event :=
  steps 9 ++ [Demand (DAssign 7 3)] ++ mains 7 ++ steps 30 ++ [See WaitingForRoute] ++ steps 30 ++
  [See Planning] ++ steps 3 ++ [See WaitingForEngage] ++ steps 8 ++
  [Demand DEngageable] ++ mains 3 ++ [Demand DEngage] ++ mains 2 ++ steps 12 ++
  [Demand DEngaged] ++ mains 3 ++ [See Driving] ++ steps 9 ++ [Demand DEngaged] ++ mains 3.

Example C97_example :
  accepted (record_of 100 journey) = [TStop; TClear; TInit 7; TPlan 3; TEngage] /\
  finished (record_of 100 journey) = [TStop; TClear; TInit 7; TPlan 3; TEngage] /\
  sent (record_of 100 journey) =
    [(ChangeToStop, true); (ClearRoute, true); (InitialPose 7, true); (SetRoute 3, true);
     (Engage, true)] /\
  flat_map (fun e => match e with Answered w b => [(w, b)] | _ => [] end) (record_of 100 journey) =
    [(WaitingForEngage, true); (Driving, false); (Driving, true)].
Proof. vm_compute. repeat split. Qed.

(** ** C98: a failure is reported by every later call and nothing more is done *)

Theorem C98_nothing_after d es l t l2 : record_of d es = l ++ Failed t :: l2 ->
  Forall (fun e => match e with Threw | Answered _ _ | Accepted _ => True | _ => False end) l2.
Proof.
  intros H. apply Forall_forall. intros e I. apply in_split in I. destruct I as (a & b & ->).
  assert (K : says (record_of d es) (l ++ Failed t :: a) e).
  { exists b. rewrite H, <- app_assoc. reflexivity. }
  apply reach_good in K.
  assert (N : ~ unfailed (l ++ Failed t :: a)).
  { intros U. apply (U t). apply in_or_app. right. now left. }
  destruct e; auto; cbn in K.
  - destruct K as [[U _] _]. easy.
  - destruct K as [[U _] _]. easy.
  - destruct K as [[U _] _]. easy.
  - destruct K as (? & ? & ? & [U _] & _). easy.
  - destruct K as (? & U & _). easy.
  - destruct K as (? & ? & [U _] & _). easy.
  - destruct K as ((? & U & _) & _). easy.
  - destruct K as (? & ? & ? & [U _] & _). easy.
  - destruct K as (? & ? & [U _] & _). easy.
  - destruct K as (? & [U _] & _). easy.
Qed.

(** The caller's thread is not inside a request. *)
Definition between_requests (s : state) : Prop := idle s = true.

Theorem C98_every_request_throws d es dm :
  let s := run (start d) es in
  (exists t, In (Failed t) (log s)) -> between_requests s ->
  let s' := run s [Demand dm; Main] in
  log s' = log s ++ [Threw] /\ between_requests s'.
Proof.
  intros s F B. destruct (failed_dead d es F) as [T D]. fold s in T, D.
  clearbody s. unfold between_requests, run in *. cbn [fold_left step]. rewrite B. cbn zeta.
  unfold proceed. cbn [main set_main todo].
  assert (G : forall c cs, (forall p, c <> CInit p) ->
    enter (set_main s Free (calls (initialized s) dm) []) c cs =
    set_main (set_main s Free (calls (initialized s) dm) []) Free [] [Threw]).
  { intros c cs N. destruct c as [| p | | |]; [|destruct (N p); reflexivity|..];
      cbn [enter thrown set_main]; rewrite T; reflexivity. }
  destruct dm; cbn [calls]; try destruct (initialized s); rewrite G by discriminate;
    cbn; rewrite app_nil_r; auto.
Qed.

Theorem C98_nothing_more d es es' :
  let s := run (start d) es in
  (exists t, In (Failed t) (log s)) -> between_requests s ->
  exists n, log (run s es') = log s ++ repeat Threw n.
Proof.
  intros s F B. destruct (failed_dead d es F) as [T D]. fold s in T, D.
  apply dead_run. constructor; auto. unfold between_requests, idle in B.
  destruct (main s); try discriminate. exact I.
Qed.

(** Why tasks fail. *)
Theorem C98_cause d es l t : says (record_of d es) l (Failed t) ->
  exists l0 c, l = l0 ++ [c] /\
  match c with
  | TimeUp => ~ In Lifted l0 /\ (d <= elapsed es)%Z
  | Unavailable r => purpose t r /\ sent (recent l0) = [] /\ (180000000000 < elapsed es)%Z
  | Refused r => purpose t r /\ sent (recent l0) = repeat (r, false) 30
  | Unexpected => sent (recent l0) = []
  | _ => False
  end.
Proof.
  intros H. pose proof H as [after E]. apply reach_good in H.
  destruct H as [R (l0 & c & -> & C)]. exists l0, c. split; [reflexivity|].
  assert (S : says (record_of d es) l0 c).
  { exists (Failed t :: after). rewrite <- app_assoc in E. exact E. }
  assert (I : In c (record_of d es)).
  { destruct S as [x ->]. apply in_or_app. right. now left. }
  pose proof (timed_reach d es) as [_ _ Tu _ Ta _]. unfold record_of in I.
  apply reach_good in S.
  assert (Q : forall u, running l0 u -> u = t).
  { intros u [_ Hu]. destruct R as [_ Hr]. rewrite begun_app, finished_app, Hu in Hr.
    destruct c; try easy; cbn in Hr; rewrite !app_nil_r in Hr; apply app_inj_tail in Hr;
      destruct Hr; congruence. }
  destruct c; try easy; cbn in S.
  - split; [apply S|auto].
  - destruct S as (u & k & e & Hu & Ht). rewrite (Q u Hu) in Ht. apply trace_sending in Ht.
    destruct Ht as (P & _ & A). split; [exact P|]. split; [exact A|]. exact (Ta r I).
  - destruct S as (u & k & Hu & Ht). rewrite (Q u Hu) in Ht. apply trace_sending in Ht.
    destruct Ht as (P & _ & _ & A). split; [exact P|exact A].
  - destruct S as (u & Hu & Ht). rewrite (Q u Hu) in Ht. apply trace_sending in Ht.
    destruct Ht as [(_ & A & _)|[(_ & A)|[(A & _)|(_ & _ & A & _)]]]; auto. destruct A.
Qed.

(** A request in progress while the dispatcher fails is accepted and never carried out. *)
Theorem C98_accepted_after_failure_refuted :
  exists es l t u l2, record_of 0 es = l ++ Failed t :: Accepted u :: l2 /\ ~ In (Began u) (record_of 0 es).
Proof.
  set (es := steps 4 ++ repeat (Disp No) 31 ++ [Demand DClear; Main; Disp No; Main]).
  exists es, (firstn 33 (record_of 0 es)), TStop, TClear, []. split.
  - vm_compute. reflexivity.
  - vm_compute. intuition discriminate.
Qed.

Example C97_question_example :
  idle (run (start 100) (steps 9 ++ [See WaitingForEngage])) = true
  /\ record_of 100 (steps 9 ++ [See WaitingForEngage] ++ Demand DEngageable :: mains 3)
     = record_of 100 (steps 9 ++ [See WaitingForEngage]) ++ [Answered WaitingForEngage true].
Proof. split; vm_compute; reflexivity. Qed.

Example C98_example :
  record_of 100 (steps 4 ++ repeat (Disp No) 32 ++ [Demand DSpin; Main; Demand (DAssign 1 2); Main; Main]) =
  Accepted TStop :: Began TStop :: repeat (Sent ChangeToStop false) 30 ++
  [Refused ChangeToStop; Failed TStop; Threw; Threw].
Proof. vm_compute. reflexivity. Qed.

(** ** C99: each task sends its request until the first success, at most 30 times *)

Theorem C99_sent d es l r b : says (record_of d es) l (Sent r b) ->
  exists t n, running l t /\ purpose t r /\ n < 30 /\ sent (recent l) = repeat (r, false) n.
Proof.
  intros H. apply reach_good in H. destruct H as (t & n & k & R & T).
  apply trace_sending in T. destruct T as (P & _ & L & E).
  exists t, (30 - S n). repeat split; auto; try apply R. lia.
Qed.

Theorem C99_finished d es l t : says (record_of d es) l (Finished t) ->
  (exists r n, purpose t r /\ n < 30 /\ sent (recent l) = repeat (r, false) n ++ [(r, true)]) \/
  (t = TEngage /\ sent (recent l) = [] /\ states (recent l) = [Driving]).
Proof.
  intros H. apply reach_good in H. destruct H as [_ T]. apply trace_sending in T.
  destruct T as [S|(E & A & B)]; auto.
Qed.

Example C99_example :
  record_of 100 (steps 4 ++ [Disp No; Disp No; Disp NotReady; Disp Yes; Disp Yes; Disp Yes]) =
  [Accepted TStop; Began TStop; Sent ChangeToStop false; Sent ChangeToStop false;
   Sent ChangeToStop true; Finished TStop].
Proof. vm_compute. reflexivity. Qed.

(** ** C100: what Autoware's state was when requests were sent and tasks finished *)

(** [s] is the last of the states looked at for the present task. *)
Definition last_seen (l : list entry) (s : astate) : Prop := exists b, states (recent l) = b ++ [s].
(** While the present task ran, Autoware's states only advanced. *)
Definition advances (l : list entry) : Prop := advancing (states (recent l)).

Lemma running_fun l t u : running l t -> running l u -> t = u.
Proof.
  intros [_ H] [_ K]. rewrite H in K. apply app_inj_tail in K. apply K.
Qed.

Lemma purpose_engage t : purpose t Engage -> t = TEngage.
Proof. destruct t; cbn; intros H; try discriminate; auto. destruct H as (k & _ & H). discriminate. Qed.
Lemma purpose_route t r : purpose t (SetRoute r) -> t = TPlan r.
Proof.
  destruct t; cbn; intros H; try discriminate; try congruence. destruct H as (k & _ & H). discriminate.
Qed.
Lemma purpose_pose t p : purpose t (InitialPose p) -> t = TInit p.
Proof.
  destruct t; cbn; intros H; try discriminate; try congruence. destruct H as (k & _ & H). discriminate.
Qed.

Lemma sent_here d es l r b : ~ destroyed es -> says (record_of d es) l (Sent r b) ->
  exists t n k, running l t /\ purpose t r /\ here false t (Try r (S n) k) l.
Proof.
  intros N H. apply (reach_good_false d es) in H; [|exact N]. destruct H as (t & n & k & R & T).
  exists t, n, k. repeat split; auto; try apply R. apply trace_sending in T. apply T.
Qed.

Theorem C100_engage d es l b : ~ destroyed es -> says (record_of d es) l (Sent Engage b) ->
  exists s, last_seen l s /\ s <> Planning /\
  (advances l -> s = WaitingForEngage \/ s = Driving \/ s = ArrivedGoal \/ s = Finalizing).
Proof.
  intros N H. destruct (sent_here d es l _ b N H) as (t & n & k & _ & P & T).
  apply purpose_engage in P. subst t. apply trace_engaging in T. inversion T; subst.
  match goal with K : seen_last _ _ _ |- _ => destruct K as (b0 & s & E & Q & A) end. exists s. split; [exists b0; exact E|].
  split; [exact Q|]. intros K. specialize (A K). destruct s; cbn in A; auto; lia.
Qed.

Theorem C100_engaged d es l : ~ destroyed es -> says (record_of d es) l (Finished TEngage) ->
  exists s, last_seen l s /\ s <> WaitingForEngage /\
  (advances l -> s = Driving \/ s = ArrivedGoal \/ s = Finalizing).
Proof.
  intros N H. apply (reach_good_false d es) in H; [|exact N]. destruct H as [_ T].
  apply trace_engaging in T. inversion T; subst.
  match goal with K : seen_last _ _ _ |- _ => destruct K as (b0 & s & E & Q & A) end. exists s. split; [exists b0; exact E|].
  split; [exact Q|]. intros K. specialize (A K). destruct s; cbn in A; auto; lia.
Qed.

Theorem C100_route d es l r b : ~ destroyed es -> says (record_of d es) l (Sent (SetRoute r) b) ->
  exists s, last_seen l s /\
  (s <> Initializing \/ states (recent l) = [ArrivedGoal; Initializing]) /\
  (advances l -> s <> Undefined /\ s <> Initializing).
Proof.
  intros N H. destruct (sent_here d es l _ b N H) as (t & n & k & _ & P & T).
  apply purpose_route in P. subst t. apply trace_planning in T. inversion T; subst.
  match goal with K : seen_last _ _ _ |- _ => destruct K as (b0 & s & E & Q & A) end. exists s. split; [exists b0; exact E|]. split.
  - destruct Q as [Q|[x Q]]; [left; exact Q|]. destruct s; try (left; discriminate).
    right. rewrite Q in *. destruct b0 as [|y [|z b0]]; try discriminate.
    + injection E as <- <-. reflexivity.
    + injection E as _ _ E. destruct b0; discriminate.
  - intros K. specialize (A K). destruct s; cbn in A; split; try discriminate; lia.
Qed.

Theorem C100_planned d es l r : ~ destroyed es -> says (record_of d es) l (Finished (TPlan r)) ->
  exists s, last_seen l s /\ s <> Planning /\
  (advances l -> s = WaitingForEngage \/ s = Driving \/ s = ArrivedGoal \/ s = Finalizing).
Proof.
  intros N H. apply (reach_good_false d es) in H; [|exact N]. destruct H as [_ T].
  apply trace_planning in T. inversion T; subst.
  match goal with K : seen_last _ _ _ |- _ => destruct K as (b0 & s & E & Q & A) end. exists s. split; [exists b0; exact E|].
  split; [exact Q|]. intros K. specialize (A K). destruct s; cbn in A; auto; lia.
Qed.

Theorem C100_pose d es l p b : ~ destroyed es -> says (record_of d es) l (Sent (InitialPose p) b) ->
  exists s, last_seen l s /\ s <> Undefined.
Proof.
  intros N H. destruct (sent_here d es l _ b N H) as (t & n & k & _ & P & T).
  apply purpose_pose in P. subst t. apply trace_initing in T. inversion T; subst.
  match goal with K : seen_last _ _ _ |- _ => destruct K as (b0 & s & E & Q & A) end. exists s. split; [exists b0; exact E|]. exact Q.
Qed.

Theorem C100_localized d es l p : ~ destroyed es -> says (record_of d es) l (Finished (TInit p)) ->
  exists s, last_seen l s /\ s <> Initializing /\ (advances l -> s <> Undefined).
Proof.
  intros N H. apply (reach_good_false d es) in H; [|exact N]. destruct H as [_ T].
  apply trace_initing in T. inversion T; subst.
  match goal with K : seen_last _ _ _ |- _ => destruct K as (b0 & s & E & Q & A) end. exists s. split; [exists b0; exact E|].
  split; [exact Q|]. intros K ->. specialize (A K). cbn in A. lia.
Qed.

(** If Autoware falls back while the task waits, the task goes on as if the state had been reached:
    engagement is requested without a route. *)
Theorem C100_engage_refuted : exists es l,
  says (record_of 100 es) l (Sent Engage true) /\ last_seen l WaitingForRoute /\ ~ destroyed es.
Proof.
  exists (steps 9 ++ [See Planning; Demand DEngage] ++ mains 2 ++ steps 4 ++
          [See WaitingForRoute] ++ steps 4).
  exists [Accepted TStop; Began TStop; Sent ChangeToStop true; Finished TStop; Accepted TEngage;
          Began TEngage; Saw Planning; Saw Planning; Saw WaitingForRoute].
  split; [exists []; vm_compute; reflexivity|]. split.
  - exists [Planning; Planning]. reflexivity.
  - vm_compute. intuition discriminate.
Qed.

(** Having arrived, a new route is sent and the task finishes without waiting for anything; the
    engagement that follows fails. *)
Theorem C100_arrived_refuted : exists es l t,
  record_of 100 es = l ++ [Failed t] /\ t = TEngage /\
  states l = [ArrivedGoal; ArrivedGoal; ArrivedGoal; ArrivedGoal; ArrivedGoal] /\
  In (Finished (TPlan 4)) l /\ ~ destroyed es.
Proof.
  set (es := steps 9 ++ [See ArrivedGoal; Demand (DReplan 4)] ++ mains 8 ++ steps 35).
  exists es, (firstn 24 (record_of 100 es)), TEngage.
  split; [|split; [reflexivity|split; [|split]]].
  - vm_compute. reflexivity.
  - vm_compute. reflexivity.
  - vm_compute. tauto.
  - vm_compute. intuition discriminate.
Qed.

(** ** C101: the time limit *)

Theorem C101_not_before d es : In TimeUp (record_of d es) -> (d <= elapsed es)%Z.
Proof. apply timed_reach. Qed.

Theorem C101_lifted d es l : says (record_of d es) l TimeUp -> ~ In Lifted l.
Proof. intros H. apply reach_good in H. apply H. Qed.

Theorem C101_lifted_by_engagement d es l : ~ destroyed es -> says (record_of d es) l Lifted ->
  running l TEngage /\ In (Engage, true) (sent (recent l)) /\
  exists s, last_seen l s /\ s <> WaitingForEngage.
Proof.
  intros N H. apply (reach_good_false d es) in H; [|exact N]. destruct H as (t & k & R & T).
  assert (Et : t = TEngage).
  { clear R. remember (Run (Lift k)) as p eqn:Ep. unfold here in T.
    pose proof (trace_sending _ _ _ _ _ T) as S.
    destruct t; try reflexivity; exfalso; subst p.
    - enough (G : forall p a b, trace false TStop p a b ->
                match p with Run (Lift _) => False | Run (Wait _ _ _) => False | Run (Look _) => False
                | Run (Send _ k) => k = Done | Ready _ k _ => k = Done | Try _ _ k => k = Done | _ => True end)
        by exact (G _ _ _ T).
      clear. intros p a b H; induction H; cbn; auto; try easy; try (subst; exact I).
    - enough (G : forall p a b, trace false TClear p a b ->
                match p with Run (Lift _) => False | Run (Wait _ _ _) => False | Run (Look _) => False
                | Run (Send _ k) => k = Done | Ready _ k _ => k = Done | Try _ _ k => k = Done | _ => True end)
        by exact (G _ _ _ T).
      clear. intros p a b H; induction H; cbn; auto; try easy; try (subst; exact I).
    - apply trace_initing in T. inversion T.
    - apply trace_planning in T. inversion T.
    - enough (G : forall p a b, trace false TEnable p a b ->
                match p with Run (Lift _) => False | Run (Wait _ _ _) => False | Run (Look _) => False
                | Run (Send _ k) => k = Done | Ready _ k _ => k = Done | Try _ _ k => k = Done | _ => True end)
        by exact (G _ _ _ T).
      clear. intros p a b H; induction H; cbn; auto; try easy; try (subst; exact I).
    - enough (G : forall p a b, trace false (TVelocity v) p a b ->
                match p with Run (Lift _) => False | Run (Wait _ _ _) => False | Run (Look _) => False
                | Run (Send _ k) => k = Done | Ready _ k _ => k = Done | Try _ _ k => k = Done | _ => True end)
        by exact (G _ _ _ T).
      clear. intros p a b H; induction H; cbn; auto; try easy; try (subst; exact I).
    - enough (G : forall p a b, trace false (TAuto module enable) p a b ->
                match p with Run (Lift _) => False | Run (Wait _ _ _) => False | Run (Look _) => False
                | Run (Send _ k) => k = Done | Ready _ k _ => k = Done | Try _ _ k => k = Done | _ => True end)
        by exact (G _ _ _ T).
      clear. intros p a b H; induction H; cbn; auto; try easy; try (subst; exact I).
      destruct module; cbn; auto.
    - enough (G : forall p a b, trace false (TCooperate command) p a b ->
                match p with Run (Lift _) => False | Run (Wait _ _ _) => False | Run (Look _) => False
                | Run (Send _ k) => k = Done | Ready _ k _ => k = Done | Try _ _ k => k = Done | _ => True end)
        by exact (G _ _ _ T).
      clear. intros p a b H; induction H; cbn; auto; try easy; try (subst; exact I). }
  subst t. split; [exact R|].
  pose proof (trace_sending _ _ _ _ _ T) as S. apply trace_engaging in T.
  inversion T; subst. split.
  - destruct S as [(E & _)|[(B & _)|[(_ & (r & n & P & _ & ->))|(E & _)]]]; try discriminate;
      [destruct B|]. cbn in P. subst r. apply in_or_app. right. now left.
  - match goal with K : seen_last _ _ _ |- _ => destruct K as (b0 & s & E & Q & _) end. exists s. split; [exists b0; exact E|exact Q].
Qed.

(** A task that waits fails at its next look once the limit has passed. *)
Theorem C101_expires d es a b k o :
  let s := run (start d) es in
  ~ destroyed es -> thread s = Run (Wait a b k) -> rank a <= rank (seen s) < rank b ->
  (d <= elapsed es)%Z -> ~ In Lifted (log s) ->
  exists t, running (log s) t /\ record_of d (es ++ [Disp o]) = log s ++ [Saw (seen s); TimeUp; Failed t].
Proof.
  intros s N T R E L. pose proof (timed_reach d es) as [C B _ _ _ _]. fold s in C, B.
  destruct B as [B|[_ B]]; [|easy].
  pose proof (i_spot _ (reach_inv d es)) as S. fold s in S. unfold spot in S. rewrite T in S.
  destruct S as (_ & t & q & Q & Ru & _). exists t. split; [exact Ru|].
  unfold record_of, run. rewrite fold_left_app. cbn [fold_left step].
  change (fold_left step es (start d)) with s. unfold dispatch. rewrite T.
  replace (a_final s) with false by (symmetry; apply not_destroyed; [exact N|reflexivity|exact I]).
  replace (not_to_be a b (seen s)) with true.
  2:{ symmetry. unfold not_to_be. apply andb_true_iff. rewrite Nat.leb_le, Nat.ltb_lt. lia. }
  unfold time_is_up. rewrite B, C. apply Z.leb_le in E. rewrite E. cbn [log die]. rewrite Q. reflexivity.
Qed.

(** After the limit has been lifted a task can wait for ever. *)
Definition waiting : list event :=
  journey ++ [See WaitingForRoute; Demand (DAssign 8 5)] ++ mains 7 ++ steps 15.
Definition second : N := 1000000000.

Lemma waits n : forall s, thread s = Run (Wait WaitingForRoute Planning (Wait Planning WaitingForEngage Done)) ->
  seen s = WaitingForRoute -> a_final s = false -> limit s = None -> running (log s) (TPlan 5) ->
  running (log (run s (concat (repeat [Tick second; Disp Yes] n)))) (TPlan 5).
Proof.
  induction n; intros s T S A L R; [exact R|]. cbn [repeat concat app]. 
  change (run s (Tick second :: Disp Yes :: concat (repeat [Tick second; Disp Yes] n))) with
    (run (step (step s (Tick second)) (Disp Yes)) (concat (repeat [Tick second; Disp Yes] n))).
  assert (E : step (step s (Tick second)) (Disp Yes) =
    set_thread (step s (Tick second)) (thread s) [Saw WaitingForRoute]).
  { cbn [step]. unfold dispatch. cbn [thread a_final seen]. rewrite T, A, S. cbn.
    unfold time_is_up. cbn [limit]. rewrite L. reflexivity. }
  rewrite E. apply IHn; auto. now apply working_running.
Qed.

Theorem C101_unlimited_refuted n :
  let es := waiting ++ concat (repeat [Tick second; Disp Yes] n) in
  elapsed es = (1000000000 * Z.of_nat n)%Z /\
  running (record_of 100 es) (TPlan 5) /\ ~ destroyed es.
Proof.
  cbn zeta. split; [|split].
  - assert (H : elapsed (concat (repeat [Tick second; Disp Yes] n)) = (1000000000 * Z.of_nat n)%Z).
    { induction n; [reflexivity|]. cbn [repeat concat app]. unfold elapsed in *. cbn [fold_right].
      rewrite IHn. rewrite Nat2Z.inj_succ. unfold second. lia. }
    rewrite <- H. unfold elapsed. rewrite fold_right_app. fold (elapsed (concat (repeat [Tick second; Disp Yes] n))).
    generalize (elapsed (concat (repeat [Tick second; Disp Yes] n))). intros z. reflexivity.
  - unfold record_of, run. rewrite fold_left_app. apply waits; try reflexivity.
    split; [|vm_compute; reflexivity]. intros t H. vm_compute in H. intuition discriminate.
  - intros H. apply in_app_or in H. destruct H as [H|H]; [vm_compute in H; intuition discriminate|].
    apply in_concat in H. destruct H as (x & I & K). apply repeat_spec in I. subst x.
    cbn in K. intuition discriminate.
Qed.

(** An Autoware that already drives when it is engaged does not lift the limit. *)
Theorem C101_driving_refuted : exists es l,
  says (record_of 100 es) l TimeUp /\ In (Finished TEngage) l /\ In (Answered Driving true) l /\
  ~ destroyed es.
Proof.
  set (es := steps 9 ++ [See Driving; Demand DEngage] ++ mains 2 ++ steps 9 ++ [Demand DEngaged] ++ mains 3 ++
    [See WaitingForRoute; Demand (DReplan 4)] ++ mains 8 ++ steps 16 ++ [Tick 100] ++ steps 1).
  exists es, (firstn 21 (record_of 100 es)). split; [|split; [|split]].
  - exists [Failed (TPlan 4)]. vm_compute. reflexivity.
  - vm_compute. tauto.
  - vm_compute. tauto.
  - vm_compute. intuition discriminate.
Qed.

Example C101_example :
  record_of 100 (steps 9 ++ [Demand DEngage] ++ mains 2 ++ steps 4 ++ [Tick 99; Disp Yes; Tick 1; Disp Yes; Disp Yes]) =
  [Accepted TStop; Began TStop; Sent ChangeToStop true; Finished TStop; Accepted TEngage; Began TEngage;
   Saw Initializing; Saw Initializing; Saw Initializing; Saw Initializing; TimeUp; Failed TEngage].
Proof. vm_compute. reflexivity. Qed.

(** ** C102: the end *)

(** The destructor has set both flags and waits for the dispatcher. *)
Theorem C102_joins d es es' :
  let s := run (start d) es in
  main s = Joining -> 45 <= working es' ->
  main (run s (es' ++ [Main])) = Gone.
Proof.
  intros s M W.
  pose proof (joining_ending d es M) as E. fold s in E.
  pose proof (reach_inv d es) as HI. fold s in HI.
  pose proof (pcost_bound s HI) as B.
  assert (Z : thread (run s es') = Ended \/ thread (run s es') = Died).
  { apply pcost_zero. destruct (ending_run es' s HI E) as [H|H]; [|exact H]. lia. }
  assert (E' : ending (run s es')).
  { clear - E. clearbody s. revert s E. induction es'; intros s E; [exact E|].
    apply IHes'. now apply ending_step. }
  unfold run. rewrite fold_left_app. cbn [fold_left step]. change (fold_left step es' s) with (run s es').
  unfold proceed. destruct E' as (_ & _ & [K|K]); rewrite K; [|exact K].
  destruct Z as [-> | ->]; reflexivity.
Qed.

(** Of the tasks not yet begun at most one is begun, none if one is being carried out. *)
Theorem C102_no_new_task d es es' :
  let s := run (start d) es in
  main s = Joining ->
  length (begun (log (run s es'))) <= length (begun (log s)) + 1 /\
  ((exists t, running (log s) t) -> begun (log (run s es')) = begun (log s)).
Proof.
  intros s M. pose proof (joining_ending d es M) as E. fold s in E.
  pose proof (reach_inv d es) as HI. fold s in HI.
  pose proof (ending_begun es' s HI E) as L. split.
  - eapply Nat.le_trans; [exact L|]. destruct (thread s); lia.
  - intros [t [U R]]. destruct (log_run es' s) as [x X]. rewrite X in *. rewrite begun_app in *.
    assert (Z : match thread s with Test | Front => 1 | _ => 0 end = 0).
    { destruct HI as [_ _ S _ _]. unfold spot in S.
      destruct (thread s); try reflexivity; destruct S as [[_ K] _]; rewrite K in R;
        apply (f_equal (@length task)) in R; rewrite app_length in R; cbn in R; lia. }
    rewrite Z, app_length in L. destruct (begun x); [apply app_nil_r|cbn in L; lia].
Qed.

(** Requests that were accepted but not begun are dropped. *)
Example C102_example :
  let es := steps 3 ++ [Demand (DAssign 7 3)] ++ mains 7 ++ [Destroy] ++ mains 2 in
  main (run (start 100) es) = Joining /\
  accepted (record_of 100 (es ++ steps 6 ++ [Main])) = [TStop; TClear; TInit 7; TPlan 3] /\
  finished (record_of 100 (es ++ steps 6 ++ [Main])) = [TStop] /\
  main (run (start 100) (es ++ steps 6 ++ [Main])) = Gone.
Proof. vm_compute. repeat split. Qed.

(** ** C103: the initial pose comes first, once *)

Definition replans (es : list event) : Prop := exists r, In (Demand (DReplan r)) es.

Theorem C103_once d es : length (filter is_init (accepted (record_of d es))) <= 1.
Proof.
  pose proof (prepared_run False es (start d) (fun z => match z with end) (prepared_start False d)) as P.
  destruct P as [_ B _ _ _ _ _]. rewrite inits_app in B. unfold inits in B. unfold record_of. lia.
Qed.

Theorem C103_pose_first d es l r : ~ replans es -> says (record_of d es) l (Began (TPlan r)) ->
  exists p, In (Finished (TInit p)) l.
Proof.
  intros N H. destruct (C97_begins d es l (TPlan r) H) as (_ & _ & rest & E).
  assert (F : Forall no_replan es).
  { apply Forall_forall. intros e I r' ->. apply N. exists r'. exact I. }
  pose proof (prepared_run True es (start d) (fun _ => F) (prepared_start True d)) as P.
  pose proof (p_order _ _ P I) as O.
  destruct H as [after H]. unfold record_of in H. rewrite H in O.
  rewrite accepted_app, E, <- app_assoc in O. cbn [app] in O.
  destruct (O _ _ _ eq_refl) as [p K]. exists p. unfold finished in K.
  apply in_flat_map in K. destruct K as (e & I & K). destruct e; try (destruct K; fail).
  destruct K as [->|[]]. exact I.
Qed.

Theorem C103_pose_before_route d es l r b : ~ replans es ->
  says (record_of d es) l (Sent (SetRoute r) b) -> exists p, In (InitialPose p, true) (sent l).
Proof.
  intros N H. pose proof H as [after E].
  destruct (C99_sent d es l _ b H) as (t & n & R & P & _). apply purpose_route in P. subst t.
  assert (B : In (Began (TPlan r)) l).
  { destruct R as [_ R]. assert (K : In (TPlan r) (begun l)) by (rewrite R; apply in_or_app; right; now left).
    apply in_flat_map in K. destruct K as (e & I & K). destruct e; try (destruct K; fail).
    destruct K as [->|[]]. exact I. }
  apply in_split in B. destruct B as (l1 & l2 & ->).
  assert (S : says (record_of d es) l1 (Began (TPlan r))).
  { exists (l2 ++ Sent (SetRoute r) b :: after). rewrite E, <- app_assoc. reflexivity. }
  destruct (C103_pose_first d es l1 r N S) as [p I]. exists p.
  apply in_split in I. destruct I as (m1 & m2 & ->).
  assert (S' : says (record_of d es) m1 (Finished (TInit p))).
  { destruct S as [x X]. exists (m2 ++ Began (TPlan r) :: x). rewrite X, <- app_assoc. reflexivity. }
  destruct (C99_finished d es m1 _ S') as [(q & k & Q & _ & Z)|(Q & _)]; [|discriminate].
  cbn in Q. subst q.
  assert (G : forall l acc, incl (sent (since_begun l acc)) (sent (acc ++ l))).
  { clear. induction l as [|e l IH]; intros acc x I; [now rewrite app_nil_r|].
    destruct e; cbn [since_begun] in I; apply IH in I;
      try (rewrite <- app_assoc in I; exact I).
    cbn [app] in I. rewrite sent_app. apply in_or_app. right. exact I. }
  rewrite !sent_app. apply in_or_app. left. apply in_or_app. left. apply (G m1 []).
  fold (recent m1). rewrite Z. apply in_or_app. right. now left.
Qed.

(** Replanning does not care: a route is set without any initial pose. *)
Theorem C103_replan_refuted : exists es l,
  says (record_of 100 es) l (Sent (SetRoute 4) true) /\ forall p, ~ In (TInit p) (accepted (record_of 100 es)).
Proof.
  set (es := steps 9 ++ [See WaitingForRoute; Demand (DReplan 4)] ++ mains 8 ++ steps 14).
  exists es, (firstn 13 (record_of 100 es)). split.
  - exists []. vm_compute. reflexivity.
  - intros p. vm_compute. intuition discriminate.
Qed.

Example C103_example : ~ replans journey /\ exists l, says (record_of 100 journey) l (Sent (SetRoute 3) true).
Proof.
  split; [intros [r H]; vm_compute in H; intuition discriminate|].
  exists (firstn 33 (record_of 100 journey)), (skipn 34 (record_of 100 journey)).
  vm_compute. reflexivity.
Qed.

Print Assumptions C97_in_order.
Print Assumptions C97_begins.
Print Assumptions C97_ends.
Print Assumptions C97_question.
Print Assumptions C97_acts.
Print Assumptions C97_answer.
Print Assumptions C97_answer_state.
Print Assumptions C98_nothing_after.
Print Assumptions C98_every_request_throws.
Print Assumptions C98_nothing_more.
Print Assumptions C98_cause.
Print Assumptions C98_accepted_after_failure_refuted.
Print Assumptions C99_sent.
Print Assumptions C99_finished.
Print Assumptions C100_engage.
Print Assumptions C100_engaged.
Print Assumptions C100_route.
Print Assumptions C100_planned.
Print Assumptions C100_pose.
Print Assumptions C100_localized.
Print Assumptions C100_engage_refuted.
Print Assumptions C100_arrived_refuted.
Print Assumptions C101_not_before.
Print Assumptions C101_lifted.
Print Assumptions C101_lifted_by_engagement.
Print Assumptions C101_expires.
Print Assumptions C101_unlimited_refuted.
Print Assumptions C101_driving_refuted.
Print Assumptions C102_joins.
Print Assumptions C102_no_new_task.
Print Assumptions C103_once.
Print Assumptions C103_pose_first.
Print Assumptions C103_pose_before_route.
Print Assumptions C103_replan_refuted.
