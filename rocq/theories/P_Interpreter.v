(** * Proofs about the interpreter node *)

From Coq Require Import String Bool Arith ZArith List Lia.
From Verif Require Import M_Interpreter S_Interpreter.
Import ListNotations.
Open Scope list_scope.

(** ** Reasoning about endings *)
Definition wp {A} (m : ending A) (Q : node -> A -> Prop) (R : node -> exn -> Prop)
    (W : node -> stop -> Prop) : Prop :=
  match m with
  | Fine s x => Q s x
  | Raises s e => R s e
  | Stops s w => W s w
  end.

Lemma wp_then {A B} (m : ending A) (f : node -> A -> ending B) Q R W :
  wp m (fun s x => wp (f s x) Q R W) R W -> wp (andthen m f) Q R W.
Proof. destruct m; auto. Qed.

Lemma wp_mono {A} (m : ending A) (Q Q' : node -> A -> Prop) (R R' : node -> exn -> Prop)
    (W W' : node -> stop -> Prop) :
  wp m Q R W ->
  (forall s x, Q s x -> Q' s x) -> (forall s e, R s e -> R' s e) ->
  (forall s w, W s w -> W' s w) -> wp m Q' R' W'.
Proof. destruct m; simpl; auto. Qed.

Lemma wp_handler {A} (h : node -> ending A) (m : ending A) Q R W :
  wp m Q (fun s e => wp (h (report (caught e) s)) Q R W) W -> wp (with_handler h m) Q R W.
Proof. destruct m; auto. Qed.

(** ** What most code leaves alone *)
Record keeps (s s' : node) : Prop := Keeps {
  k_ph : ph s' = ph s;
  k_pp : par_path s' = par_path s;
  k_po : par_out s' = par_out s;
  k_pr : par_record s' = par_record s;
  k_op : osc_path s' = osc_path s;
  k_od : out_dir s' = out_dir s;
  k_rf : rec_flag s' = rec_flag s;
  k_sc : script s' = script s;
  k_rr : results s' = results s;
  k_fl : files s' = files s }.

(** Events of which all are of a kind are added. *)
Definition adds (P : event -> bool) (s s' : node) : Prop :=
  exists l, trace s' = l ++ trace s /\ forallb P l = true.

Lemma keeps_refl s : keeps s s.
Proof. constructor; reflexivity. Qed.

Lemma keeps_trans a b c : keeps a b -> keeps b c -> keeps a c.
Proof. intros [] []; constructor; congruence. Qed.

Lemma adds_refl P s : adds P s s.
Proof. exists []; auto. Qed.

Lemma adds_trans P a b c : adds P a b -> adds P b c -> adds P a c.
Proof.
  intros (l & E & F) (m & E' & F'). exists (m ++ l). rewrite E', E, app_assoc. split; auto.
  rewrite forallb_app, F, F'. reflexivity.
Qed.

Lemma adds_weaken (P Q : event -> bool) a b :
  (forall e, P e = true -> Q e = true) -> adds P a b -> adds Q a b.
Proof.
  intros H (l & E & F). exists l. split; auto. rewrite forallb_forall in *. auto.
Qed.

Lemma adds_one (P : event -> bool) e s : P e = true -> adds P s (emit e s).
Proof. intros. exists [e]. simpl. rewrite H. auto. Qed.

Lemma adds_same P s s' : trace s' = trace s -> adds P s s'.
Proof. intros. exists []. auto. Qed.

(** ** Leaving a run *)
Definition tidies (e : event) : bool :=
  match e with CoreDown | RecorderDown _ => true | _ => false end.

Lemma core_deactivate_spec o s :
  wp (core_deactivate o s)
    (fun s' _ => keeps s s' /\ adds tidies s s' /\ core s' = false /\ timer s' = timer s /\
                 context_pub s' = context_pub s /\ scenarios s' = scenarios s /\
                 process_id s' = process_id s /\ recorders s' = recorders s)
    (fun s' e => s' = s /\ o = Some e /\ core s = true)
    (fun _ _ => False).
Proof.
  unfold core_deactivate. destruct (core s) eqn:C; [destruct o|]; simpl.
  - auto.
  - repeat split; auto. exists [CoreDown]. auto.
  - repeat split; auto. exists []. auto.
Qed.

Lemma record_stop_spec s :
  wp (record_stop s)
    (fun s' _ => keeps s s' /\ adds tidies s s' /\ core s' = core s /\ timer s' = timer s /\
                 context_pub s' = context_pub s /\ scenarios s' = scenarios s /\
                 process_id s' = process_id s /\
                 (process_id s = 0%Z /\ recorders s' = recorders s \/
                  recorders s' = filter (fun p => negb (p =? process_id s)%Z) (recorders s)))
    (fun _ _ => False)
    (fun s' w => s' = s /\ (w = SignalsEverybody /\ process_id s = (-1)%Z \/
                            w = ExitsProcess /\ ~ In (process_id s) (recorders s))).
Proof.
  unfold record_stop. destruct (process_id s =? 0)%Z eqn:A.
  - apply Z.eqb_eq in A. simpl. repeat split; auto using adds_refl.
  - destruct (process_id s =? -1)%Z eqn:B.
    + apply Z.eqb_eq in B. simpl. auto.
    + destruct (existsb (Z.eqb (process_id s)) (recorders s)) eqn:C; simpl.
      * repeat split; auto. exists [RecorderDown (process_id s)]. auto.
      * split; auto. right. split; auto. intros I. assert (existsb (Z.eqb (process_id s)) (recorders s) = true).
        { apply existsb_exists. exists (process_id s). split; auto. apply Z.eqb_refl. }
        congruence.
Qed.

Record left (s s' : node) : Prop := Left {
  l_keeps : keeps s s';
  l_adds : adds tidies s s';
  l_timer : timer s' = false;
  l_pub : context_pub s' = false }.

Lemma reset_spec o s :
  wp (reset o s)
    (fun s' _ => left s s' /\ core s' = false /\ scenarios s = S (scenarios s') /\
                 process_id s' = process_id s /\
                 (rec_flag s = false /\ recorders s' = recorders s \/
                  process_id s = 0%Z /\ recorders s' = recorders s \/
                  recorders s' = filter (fun p => negb (p =? process_id s)%Z) (recorders s)))
    (fun s' e => left s s' /\ o = Some e /\ core s = true /\ core s' = true /\
                 scenarios s' = scenarios s /\ process_id s' = process_id s /\
                 recorders s' = recorders s)
    (fun s' w => left s s' /\
                 (w = PopsEmptyList /\ scenarios s = 0 \/
                  w = SignalsEverybody /\ rec_flag s = true /\ process_id s = (-1)%Z \/
                  w = ExitsProcess /\ rec_flag s = true /\ ~ In (process_id s) (recorders s))).
Proof.
  unfold reset. apply wp_then.
  set (s1 := set_pub false (set_timer false s)).
  assert (K1 : keeps s s1) by (constructor; reflexivity).
  eapply wp_mono; [apply (core_deactivate_spec o s1)| | |]; simpl.
  - intros s2 _ (K & A & C & T & P & N & PI & RE).
    assert (K2 : keeps s s2) by (eapply keeps_trans; eauto).
    assert (A2 : adds tidies s s2) by (destruct A as (l & E & F); exists l; auto).
    destruct (scenarios s2) as [|n] eqn:En; simpl.
    + split; [|left; split; auto; simpl in N; congruence].
      constructor; auto; simpl in *; congruence.
    + change (rec_flag (set_scenarios n s2)) with (rec_flag s2).
      destruct (rec_flag s2) eqn:RF.
      * eapply wp_mono; [apply record_stop_spec| | |]; simpl.
        -- intros s3 _ (K' & A' & C' & T' & P' & N' & PI' & RE').
           split; [constructor; simpl in *; try congruence|].
           ++ eapply keeps_trans; [exact K2|]. destruct K'. constructor; simpl in *; auto.
           ++ destruct A2 as (l & E & F), A' as (m & E' & F'). exists (m ++ l).
              simpl in E'. rewrite E', E, app_assoc. split; auto.
              rewrite forallb_app, F, F'. reflexivity.
           ++ simpl in *. repeat split; try congruence.
              rewrite PI, RE in RE'. destruct RE' as [[X Y]|Y]; auto.
        -- contradiction.
        -- intros s3 w (-> & H). split.
           ++ constructor; simpl in *; auto; try congruence.
              destruct K2; constructor; simpl; auto.
           ++ right. destruct K2. rewrite k_rf0 in RF. simpl in *.
              rewrite PI, RE in H. destruct H as [[-> H]|[-> H]]; auto.
      * simpl. split; [constructor; simpl in *; auto; try congruence|].
        -- destruct K2; constructor; simpl; auto.
        -- simpl in *. repeat split; try congruence. left. split; auto.
           destruct K2. congruence.
  - intros s2 e (-> & O & C). split; [|simpl in *; auto 10].
    constructor; auto. exists []. auto.
  - contradiction.
Qed.

(** ** Bounded counting of verdicts *)

(** The verdicts since the last attempt; the history is newest first. *)
Fixpoint since (l : list event) : nat :=
  match l with
  | [] => 0
  | e :: r => if is_attempt e then 0 else (if is_report e then 1 else 0) + since r
  end.

(** A run has begun, and no verdict and no other attempt came since. *)
Fixpoint running (l : list event) : Prop :=
  match l with
  | [] => False
  | Began :: _ => True
  | Loading _ :: _ | Reported _ :: _ => False
  | _ :: r => running r
  end.

Lemma running_since l : running l -> since l = 0.
Proof. induction l as [|e l IH]; simpl; auto. destruct e; simpl; auto; contradiction. Qed.

(** At every moment at most one verdict since the last attempt, and the scenario plays only during
    a run. *)
Fixpoint well (l : list event) : Prop :=
  match l with
  | [] => True
  | e :: r => since l <= 1 /\ (is_play e = true -> running r) /\ well r
  end.

(** The scenario loaded last, and the verdicts so far; newest first. *)
Fixpoint last_loaded (l : list event) : path :=
  match l with
  | [] => Path "" "" ""
  | Loading p :: _ => p
  | _ :: r => last_loaded r
  end.

Fixpoint filed_rev (l : list event) : list (path * verdict) :=
  match l with
  | [] => []
  | Reported v :: r => filed_rev r ++ [(last_loaded r, v)]
  | _ :: r => filed_rev r
  end.

(** Neither a verdict nor an attempt nor play. *)
Definition idle (e : event) : bool := negb (is_report e) && negb (is_attempt e) && negb (is_play e).
(** Neither a verdict nor an attempt. *)
Definition ordinary (e : event) : bool := negb (is_report e) && negb (is_attempt e).

Lemma since_ordinary l r : forallb ordinary l = true -> since (l ++ r) = since r.
Proof.
  induction l as [|e l IH]; simpl; auto. rewrite andb_true_iff. intros [H1 H2].
  unfold ordinary in H1. destruct (is_attempt e), (is_report e); try discriminate. simpl. auto.
Qed.

Lemma well_idle l r : forallb idle l = true -> well r -> since r <= 1 -> well (l ++ r).
Proof.
  intros H W S. induction l as [|e l IH]; simpl; auto. simpl in H. apply andb_true_iff in H.
  destruct H as [H1 H2]. specialize (IH H2).
  assert (O : forallb ordinary l = true).
  { rewrite forallb_forall in *. intros x Hx. specialize (H2 x Hx). unfold idle, ordinary in *.
    destruct (is_report x), (is_attempt x); auto. }
  pose proof (since_ordinary l r O) as E. unfold idle in H1.
  destruct (is_attempt e), (is_report e), (is_play e); try discriminate. simpl.
  repeat split; auto; try lia; discriminate.
Qed.

Lemma running_ordinary l r : forallb ordinary l = true -> running r -> running (l ++ r).
Proof.
  induction l as [|e l IH]; simpl; auto. rewrite andb_true_iff. intros [H1 H2] R.
  destruct e; simpl in *; auto; discriminate.
Qed.

Lemma well_ordinary l r : forallb ordinary l = true -> well r -> running r -> well (l ++ r).
Proof.
  intros H W S. induction l as [|e l IH]; simpl; auto. simpl in H. apply andb_true_iff in H.
  destruct H as [H1 H2]. specialize (IH H2). pose proof (since_ordinary l r H2) as E.
  pose proof (running_ordinary l r H2 S). pose proof (running_since r S).
  unfold ordinary in H1. destruct (is_attempt e), (is_report e); try discriminate. simpl.
  repeat split; auto; lia.
Qed.

Lemma filed_ordinary l r : forallb ordinary l = true ->
  filed_rev (l ++ r) = filed_rev r /\ last_loaded (l ++ r) = last_loaded r.
Proof.
  induction l as [|e l IH]; simpl; auto. rewrite andb_true_iff. intros [H1 H2].
  destruct (IH H2) as [A B]. destruct e; simpl in *; auto; discriminate.
Qed.

(** ** The report as a function of the verdicts filed *)
Definition file_one (l : list test_suite) (pv : path * verdict) : list test_suite :=
  at_suite (p_suite (fst pv)) (at_case (p_case (fst pv)) (push (snd pv))) l.

Definition build (l : list (path * verdict)) : list test_suite := fold_left file_one l [].

Lemma build_snoc l pv : build (l ++ [pv]) = file_one (build l) pv.
Proof. unfold build. rewrite fold_left_app. reflexivity. Qed.

(** ** The invariant *)
Record inv (s : node) : Prop := Inv {
  i_timer : timer s = true -> ph s = Active;
  i_active : ph s = Active -> timer s = true /\ scenarios s = 1 /\ script s = true /\
                              core s = true /\ context_pub s = true;
  i_inactive : ph s = Inactive -> scenarios s <> 0 -> script s = true;
  i_unconf : ph s = Unconfigured -> scenarios s = 0;
  i_one : scenarios s <= 1;
  i_well : well (trace s);
  i_since : since (trace s) <= 1;
  i_running : ph s = Active -> running (trace s);
  i_path : osc_path s = last_loaded (trace s);
  i_results : suites (results s) = build (filed_rev (trace s));
  i_files : match files s with
            | [] => filed_rev (trace s) = []
            | (_, d) :: _ => d = write_suites (results s)
            end }.

Lemma inv_fresh : inv fresh.
Proof. constructor; simpl; auto; try discriminate. Qed.

(** The part of the invariant about the history. *)
Record told (s : node) : Prop := Told {
  t_well : well (trace s);
  t_since : since (trace s) <= 1;
  t_path : osc_path s = last_loaded (trace s);
  t_results : suites (results s) = build (filed_rev (trace s));
  t_files : match files s with
            | [] => filed_rev (trace s) = []
            | (_, d) :: _ => d = write_suites (results s)
            end }.

Lemma idle_ordinary e : idle e = true -> ordinary e = true.
Proof. unfold idle, ordinary. destruct (is_report e), (is_attempt e); auto. Qed.

Lemma told_kept s s' : told s -> osc_path s' = osc_path s -> results s' = results s ->
  files s' = files s -> adds idle s s' -> told s' /\ since (trace s') = since (trace s).
Proof.
  intros [W S P R F] E1 E2 E3 (l & El & I).
  assert (O : forallb ordinary l = true).
  { rewrite forallb_forall in *. auto using idle_ordinary. }
  destruct (filed_ordinary l (trace s) O) as [A B]. pose proof (since_ordinary l (trace s) O) as C.
  split; [|congruence].
  constructor; rewrite ?El, ?E1, ?E2, ?E3, ?A, ?B, ?C; auto.
  apply well_idle; auto.
Qed.

Lemma told_played s s' : told s -> running (trace s) -> osc_path s' = osc_path s ->
  results s' = results s ->
  files s' = files s -> adds ordinary s s' -> told s' /\ running (trace s').
Proof.
  intros [W S P R F] Z E1 E2 E3 (l & El & O).
  destruct (filed_ordinary l (trace s) O) as [A B]. pose proof (since_ordinary l (trace s) O) as C.
  split; [|rewrite El; apply running_ordinary; auto].
  constructor; rewrite ?El, ?E1, ?E2, ?E3, ?A, ?B, ?C; auto.
  apply well_ordinary; auto.
Qed.

Lemma report_told v s : told s -> since (trace s) = 0 -> told (report v s) /\ since (trace (report v s)) = 1.
Proof.
  intros [W S P R F] Z. split; [|simpl; lia].
  constructor; simpl; auto; try lia.
  - repeat split; auto; try lia; discriminate.
  - rewrite build_snoc, <- R, <- P. reflexivity.
Qed.

(** ** The requests *)
Lemma publish_spec s :
  wp (publish s)
    (fun s' _ => keeps s s' /\ (trace s' = trace s \/ trace s' = Published :: trace s) /\
                 timer s' = timer s /\
                 context_pub s' = context_pub s /\ core s' = core s /\ scenarios s' = scenarios s /\
                 process_id s' = process_id s /\ recorders s' = recorders s)
    (fun _ _ => False)
    (fun s' w => s' = s /\ script s = false).
Proof.
  unfold publish. destruct (script s) eqn:E; simpl; auto.
  destruct (context_pub s) eqn:F; simpl; repeat split; auto.
Qed.

Lemma tidies_idle e : tidies e = true -> idle e = true.
Proof. destruct e; simpl; auto; discriminate. Qed.

(** Leaving [Active] on request or after a verdict. *)
Record gone (s s' : node) : Prop := Gone {
  g_path : osc_path s' = osc_path s;
  g_results : results s' = results s;
  g_files : files s' = files s;
  g_adds : adds tidies s s';
  g_timer : timer s' = false;
  g_ph : ph s' <> Active;
  g_unconf : ph s' = Unconfigured -> scenarios s' = 0;
  g_inactive : ph s' = Inactive -> scenarios s' = 0;
  g_one : scenarios s' <= 1 }.

Lemma deactivate_spec t s : ph s = Active -> scenarios s = 1 ->
  wp (deactivate t s)
    (fun s' _ => gone s s')
    (fun _ _ => False)
    (fun s' w => osc_path s' = osc_path s /\ results s' = results s /\ files s' = files s /\
                 adds tidies s s' /\ (w = SignalsEverybody \/ w = ExitsProcess)).
Proof.
  intros HP HN. unfold deactivate. rewrite HP. unfold transition, on_deactivate.
  pose proof (reset_spec (te_first t) s) as R1.
  destruct (reset (te_first t) s) as [s1 []|s1 e1|s1 w1]; simpl in *.
  - destruct R1 as ([[] A T P] & C & N & PI & RE).
    constructor; simpl; auto; try congruence; try lia; discriminate.
  - destruct R1 as ([K1 A1 T1 P1] & O & C & C' & N & PI & RE). unfold on_error.
    pose proof (reset_spec (te_second t) s1) as R2.
    destruct (reset (te_second t) s1) as [s2 []|s2 e2|s2 w2]; simpl in *.
    + destruct R2 as ([K2 A2 T2 P2] & C2 & N2 & PI2 & RE2).
      pose proof (keeps_trans _ _ _ K1 K2) as []. pose proof (adds_trans _ _ _ _ A1 A2).
      constructor; simpl; auto; try congruence; try lia; discriminate.
    + destruct R2 as ([K2 A2 T2 P2] & C2 & N2 & PI2 & RE2 & _ & _).
      pose proof (keeps_trans _ _ _ K1 K2) as []. pose proof (adds_trans _ _ _ _ A1 A2).
      constructor; simpl; auto; try congruence; try lia; discriminate.
    + destruct R2 as ([K2 A2 T2 P2] & D).
      pose proof (keeps_trans _ _ _ K1 K2) as []. pose proof (adds_trans _ _ _ _ A1 A2).
      repeat split; auto. destruct D as [[-> ?]|[[-> ?]|[-> ?]]]; auto. lia.
  - destruct R1 as ([[] A T P] & D). repeat split; auto.
    destruct D as [[-> ?]|[[-> ?]|[-> ?]]]; auto. lia.
Qed.

Definition lawful_stop (w : stop) : Prop := w = SignalsEverybody \/ w = ExitsProcess.

Lemma gone_inv s s' : told s -> gone s s' -> inv s'.
Proof.
  intros T [P R F A TM PH U I O].
  destruct (told_kept s s' T P R F (adds_weaken _ _ _ _ tidies_idle A)) as [[] S].
  constructor; auto; try congruence; intros; exfalso; auto.
Qed.

Definition staging (e : event) : bool :=
  match e with CoreUp | InitActions | Advanced | RecorderUp _ => true | _ => false end.

Definition playing (e : event) : bool :=
  match e with Controllers | Evaluated | Advanced | Published => true | _ => false end.

Lemma staging_ordinary e : staging e = true -> ordinary e = true.
Proof. destruct e; simpl; auto; discriminate. Qed.
Lemma playing_ordinary e : playing e = true -> ordinary e = true.
Proof. destruct e; simpl; auto; discriminate. Qed.

(** The work of one frame, without the handler. *)
Definition frame_work (v : frame_env) (s : node) : ending unit :=
  andthen
    (match scenarios s with
     | 0 => Stops s DerefsNull
     | S _ =>
         if fe_unknown_time v then
           if fe_engaged v then
             andthen (outside (fe_controllers v) s) (fun s _ => Fine (emit Controllers s) tt)
           else Fine s tt
         else outside (fe_evaluate v) (emit Evaluated s)
     end)
    (fun s _ => andthen (core_update (fe_update v) s) (fun s _ => publish s)).

Lemma frame_work_spec v s : scenarios s = 1 -> core s = true -> script s = true ->
  wp (frame_work v s)
    (fun s' _ => keeps s s' /\ adds playing s s' /\ timer s' = timer s /\
                 context_pub s' = context_pub s /\ core s' = core s /\ scenarios s' = scenarios s /\
                 process_id s' = process_id s /\ recorders s' = recorders s /\
                 forall e, ~ frame_fails v e)
    (fun s' e => keeps s s' /\ adds playing s s' /\ timer s' = timer s /\
                 context_pub s' = context_pub s /\ core s' = core s /\ scenarios s' = scenarios s /\
                 process_id s' = process_id s /\ recorders s' = recorders s /\ frame_fails v e)
    (fun _ _ => False).
Proof.
  intros N C SC. unfold frame_work, andthen, core_update, outside, publish. rewrite N.
  destruct v as [u en fc fe fu]; simpl.
  destruct u; [destruct en; [destruct fc as [e|]|]|destruct fe as [e|]]; simpl;
    try (rewrite ?C; destruct fu as [e|]; simpl); rewrite ?SC; simpl;
    try (destruct (context_pub s) eqn:?; simpl).
  all: split; [constructor; reflexivity|];
    split; [(eexists (_ :: _ :: _ :: nil); split; [reflexivity|reflexivity]) ||
            (eexists (_ :: _ :: nil); split; [reflexivity|reflexivity]) ||
            (eexists (_ :: nil); split; [reflexivity|reflexivity]) ||
            (eexists nil; split; reflexivity)|];
    simpl; repeat split; auto.
  all: try (intros x F; inversion F; simpl in *; subst; congruence).
  all: try (apply ff_update; simpl; congruence).
  all: try (apply ff_controllers; simpl; congruence).
  all: try (apply ff_evaluate; simpl; congruence).
Qed.

(** The work of an activation, without the handler. *)
Definition start_work (v : start_env) (s : node) : ending answer :=
  let s := emit Began s in
  andthen (if rec_flag s then record_start (se_recorder v) s else Fine s tt) (fun s _ =>
  andthen (outside (se_configuration v) s) (fun s _ =>
  andthen (core_activate (se_construct v) s) (fun s _ =>
  andthen (core_update (se_update v) s) (fun s _ =>
  let s := set_pub true s in
  let s := emit InitActions s in
  andthen (outside (se_init v) s) (fun s _ =>
  andthen (outside (se_engage v) s) (fun s _ =>
  Fine (set_timer true s) SUCCESS)))))).

Definition recorder_moved (v : start_env) (s s' : node) : Prop :=
  match rec_flag s, se_recorder v with
  | true, Launched pid => process_id s' = pid /\ recorders s' = pid :: recorders s
  | true, ForkFails => process_id s' = (-1)%Z /\ recorders s' = recorders s
  | true, NoProgram _ | false, _ => process_id s' = process_id s /\ recorders s' = recorders s
  end.

Record staged (s0 s s' : node) : Prop := Staged {
  st_keeps : keeps s s';
  st_adds : adds staging s0 s';
  st_timer : timer s' = timer s;
  st_scen : scenarios s' = scenarios s }.

Lemma staged_emit s0 s s' e : staging e = true -> staged s0 s s' -> staged s0 s (emit e s').
Proof.
  intros H [[] (l & E & F) T N]. constructor; auto.
  - constructor; auto.
  - exists (e :: l). simpl. rewrite E, H, F. auto.
Qed.

Lemma staged_core s0 s s' b : staged s0 s s' -> staged s0 s (set_core b s').
Proof. intros [[] (l & E & F) T N]. constructor; auto; [constructor; auto|exists l; auto]. Qed.

Lemma staged_pub s0 s s' b : staged s0 s s' -> staged s0 s (set_pub b s').
Proof. intros [[] (l & E & F) T N]. constructor; auto; [constructor; auto|exists l; auto]. Qed.

Lemma staged_process s0 s s' a b : staged s0 s s' -> staged s0 s (set_process a b s').
Proof. intros [[] (l & E & F) T N]. constructor; auto; [constructor; auto|exists l; auto]. Qed.

Lemma fails_later l e : fails_first l e -> fails_first (None :: l) e.
Proof. intros (b & a & -> & F). exists (None :: b), a. split; auto. Qed.

Lemma fails_now l e : fails_first (Some e :: l) e.
Proof. exists [], l. auto. Qed.

Lemma moved_same v s s1 s2 : recorder_moved v s s1 -> process_id s2 = process_id s1 ->
  recorders s2 = recorders s1 -> recorder_moved v s s2.
Proof.
  unfold recorder_moved. intros H -> ->. exact H.
Qed.

Definition start_tail (v : start_env) (s : node) : ending answer :=
  andthen (outside (se_configuration v) s) (fun s _ =>
  andthen (core_activate (se_construct v) s) (fun s _ =>
  andthen (core_update (se_update v) s) (fun s _ =>
  let s := set_pub true s in
  let s := emit InitActions s in
  andthen (outside (se_init v) s) (fun s _ =>
  andthen (outside (se_engage v) s) (fun s _ =>
  Fine (set_timer true s) SUCCESS))))).

Definition tail_stages (v : start_env) : list (option exn) :=
  [se_configuration v; se_construct v; se_update v; se_init v; se_engage v].

Lemma start_tail_spec v s0 s s1 : staged s0 s s1 -> core s1 = core s ->
  wp (start_tail v s1)
    (fun s' a => a = SUCCESS /\ keeps s s' /\ adds staging s0 s' /\ timer s' = true /\
                 context_pub s' = true /\ core s' = true /\ scenarios s' = scenarios s /\
                 process_id s' = process_id s1 /\ recorders s' = recorders s1 /\ core s = false /\
                 Forall (fun o => o = None) (tail_stages v))
    (fun s' e => staged s0 s s' /\ process_id s' = process_id s1 /\ recorders s' = recorders s1 /\
                 (core s = false -> fails_first (tail_stages v) e))
    (fun _ _ => False).
Proof.
  intros H C. unfold start_tail, tail_stages. rewrite <- C. clear C.
  apply wp_then. destruct (se_configuration v) as [e|]; simpl.
  { auto using fails_now. }
  apply wp_then. unfold core_activate. destruct (core s1) eqn:C.
  { simpl. repeat split; auto; try apply H. discriminate. }
  apply wp_then. destruct (se_construct v) as [e|]; simpl.
  { auto using fails_now, fails_later. }
  apply wp_then. unfold core_update.
  change (core (emit CoreUp (set_core true s1))) with true. cbv iota.
  assert (H2 : staged s0 s (emit CoreUp (set_core true s1))).
  { apply staged_emit; auto. apply staged_core; auto. }
  apply wp_then. destruct (se_update v) as [e|]; simpl.
  { auto 10 using fails_now, fails_later. }
  match goal with |- context [emit InitActions ?y] => set (z := y) end.
  assert (H3 : staged s0 s (emit InitActions z)).
  { apply staged_emit; auto. apply staged_pub, staged_emit; auto. }
  assert (H4 : staged s0 s z).
  { apply staged_pub, staged_emit; auto. }
  assert (P1 : process_id z = process_id s1) by reflexivity.
  assert (P2 : recorders z = recorders s1) by reflexivity.
  assert (P3 : core z = true) by reflexivity.
  assert (P4 : context_pub z = true) by reflexivity.
  clearbody z. clear H2.
  apply wp_then. destruct (se_init v) as [e|]; simpl.
  { auto 10 using fails_now, fails_later. }
  apply wp_then. destruct (se_engage v) as [e|]; simpl.
  { auto 10 using fails_now, fails_later. }
  destruct H3 as [[] A T N]. split; auto. split; [constructor; simpl in *; auto|].
  destruct A as (l & E & F). split; [exists l; auto|]. simpl in *. repeat split; auto 10.
Qed.

Lemma start_work_spec v s :
  wp (start_work v s)
    (fun s' a => a = SUCCESS /\ keeps s s' /\ adds staging (emit Began s) s' /\ timer s' = true /\
                 context_pub s' = true /\ core s' = true /\ scenarios s' = scenarios s /\
                 recorder_moved v s s' /\ core s = false /\
                 Forall (fun o => o = None) (stages (rec_flag s) v))
    (fun s' e => keeps s s' /\ adds staging (emit Began s) s' /\ timer s' = timer s /\
                 scenarios s' = scenarios s /\ recorder_moved v s s' /\
                 (core s = false -> fails_first (stages (rec_flag s) v) e))
    (fun _ _ => False).
Proof.
  assert (H0 : staged (emit Began s) s (emit Began s)).
  { constructor; auto using adds_refl. constructor; reflexivity. }
  unfold start_work. cbv zeta. change (rec_flag (emit Began s)) with (rec_flag s).
  apply wp_then. unfold stages, recorder_moved.
  destruct (rec_flag s) eqn:RF.
  - unfold record_start. destruct (se_recorder v) as [e| |pid] eqn:L; simpl wp; cbv beta.
    + repeat (split; [apply H0|]). split; [auto|]. intros _. simpl. apply fails_now.
    + destruct (staged_process _ _ _ (-1)%Z (recorders s) H0).
      repeat (split; [assumption|]). split; [auto|]. intros _. simpl. apply fails_now.
    + fold (start_tail v (emit (RecorderUp pid) (set_process pid (pid :: recorders (emit Began s)) (emit Began s)))).
      eapply wp_mono; [apply (start_tail_spec v (emit Began s) s)| | |]; cbv beta; auto.
      * apply staged_emit; auto. apply staged_process; auto.
      * intros s' a (-> & K & A & T & P & C & N & PI & RE & C0 & F). simpl in *.
        repeat (split; [now auto|]). constructor; auto.
      * intros s' e ([K A T N] & PI & RE & F). simpl in *.
        repeat (split; [assumption|]). split; auto. intros X. apply fails_later; auto.
  - simpl wp; cbv beta. fold (start_tail v (emit Began s)).
    eapply wp_mono; [apply (start_tail_spec v (emit Began s) s)| | |]; cbv beta; auto.
    + intros s' a (-> & K & A & T & P & C & N & PI & RE & C0 & F). simpl in *.
      repeat (split; [now auto|]). destruct (se_recorder v); now auto.
    + intros s' e ([K A T N] & PI & RE & F). simpl in *.
      repeat (split; [now auto|]). destruct (se_recorder v); now auto.
Qed.

Lemma keeps_report v s : 
  ph (report v s) = ph s /\ osc_path (report v s) = osc_path s /\ script (report v s) = script s /\
  scenarios (report v s) = scenarios s /\ core (report v s) = core s /\
  timer (report v s) = timer s /\ context_pub (report v s) = context_pub s /\
  rec_flag (report v s) = rec_flag s /\ process_id (report v s) = process_id s /\
  recorders (report v s) = recorders s.
Proof. repeat split. Qed.

Lemma told_of_inv s : inv s -> told s.
Proof. intros []; constructor; auto. Qed.

Lemma publish_told s s' : told s -> keeps s s' ->
  (trace s' = trace s \/ trace s' = Published :: trace s) ->
  told s' /\ since (trace s') = since (trace s).
Proof.
  intros T [] H. apply told_kept; auto.
  destruct H as [H|H]; [exists []|exists [Published]]; auto.
Qed.

Lemma frame_inv v t s : inv s -> ph s = Active ->
  wp (evaluate_storyboard v t s)
    (fun s' _ => inv s')
    (fun _ _ => False)
    (fun s' w => told s' /\ lawful_stop w).
Proof.
  intros I HP. destruct (i_active s I HP) as (TM & N & SC & CO & PB).
  change (evaluate_storyboard v t s) with
    (with_handler (fun s => andthen (publish s) (fun s _ => deactivate t s)) (frame_work v s)).
  apply wp_handler.
  eapply wp_mono; [apply frame_work_spec; auto| | |]; simpl.
  - intros s' _ (K & A & T & P & C & N' & PI & RE & _).
    destruct K. destruct (told_played s s') as [[] Z]; auto using told_of_inv.
    { apply i_running; auto. } { eapply adds_weaken; [apply playing_ordinary|auto]. }
    constructor; rewrite ?k_ph0, ?T, ?C, ?N', ?P, ?Z; auto; try congruence; try lia.
    intros _. repeat split; congruence.
  - intros s' e (K & A & T & P & C & N' & PI & RE & _).
    destruct K. destruct (told_played s s') as [T1 Z]; auto using told_of_inv.
    { apply i_running; auto. } { eapply adds_weaken; [apply playing_ordinary|auto]. }
    destruct (report_told (caught e) s' T1 (running_since _ Z)) as [T2 Z2].
    set (s2 := report (caught e) s') in *.
    assert (E1 : ph s2 = Active) by (simpl; congruence).
    assert (E2 : scenarios s2 = 1) by (simpl; congruence).
    assert (E3 : script s2 = true) by (simpl; congruence).
    clearbody s2. apply wp_then. eapply wp_mono; [apply publish_spec| | |]; simpl.
    + intros s3 _ (K3 & A3 & T3 & P3 & C3 & N3 & _).
      destruct (publish_told s2 s3 T2 K3 A3) as [T4 _]. destruct K3.
      eapply wp_mono; [apply (deactivate_spec t s3)| | |]; try congruence; simpl; auto.
      * intros s4 _ G. eapply gone_inv; eauto.
      * intros s4 w (O1 & O2 & O3 & O4 & O5). split; auto.
        apply (told_kept s3 s4 T4 O1 O2 O3). eapply adds_weaken; [apply tidies_idle|auto].
    + contradiction.
    + intros s3 w [-> X]. congruence.
  - contradiction.
Qed.

Lemma began_told s : told s -> told (emit Began s) /\ running (trace (emit Began s)).
Proof.
  intros [W S P R F]. split; [|exact I]. constructor; simpl; auto. repeat split; auto. discriminate.
Qed.

Lemma activate_inv v t s : inv s -> ph s = Inactive ->
  wp (transition Active Inactive (te_second t) (on_activate v (te_first t) s))
    (fun s' _ => inv s')
    (fun _ _ => False)
    (fun s' w => told s' /\ lawful_stop w).
Proof.
  intros I HP. pose proof (told_of_inv s I) as T0.
  unfold on_activate.
  destruct (scenarios s) as [|n] eqn:N.
  { simpl. destruct I. constructor; simpl; auto; try congruence.
    intros X. specialize (i_timer0 X). congruence. }
  assert (n = 0) by (pose proof (i_one s I); lia). subst n.
  assert (SC : script s = true) by (apply i_inactive; auto; lia).
  fold (start_work v s). pose proof (start_work_spec v s) as W.
  destruct (began_told s T0) as [T1 Z1].
  destruct (start_work v s) as [s1 a|s1 e|s1 w]; simpl in W.
  - destruct W as (-> & K & A & T & P & C & N1 & RM & C0 & _). simpl.
    destruct K. destruct (told_played (emit Began s) s1) as [[] Z]; auto.
    { eapply adds_weaken; [apply staging_ordinary|auto]. }
    constructor; simpl; auto; try congruence; try lia; try discriminate.
    intros _. repeat split; congruence.
  - destruct W as (K & A & T & N1 & RM & FF). destruct K.
    destruct (told_played (emit Began s) s1) as [T2 Z2]; auto.
    { eapply adds_weaken; [apply staging_ordinary|auto]. }
    destruct (report_told (caught e) s1 T2 (running_since _ Z2)) as [T3 Z3].
    unfold with_handler.
    set (s2 := report (caught e) s1) in *.
    assert (E2 : scenarios s2 = 1) by (simpl; congruence).
    assert (E3 : script s2 = true) by (simpl; congruence).
    assert (E4 : ph s2 = Inactive) by (simpl; congruence).
    clearbody s2. pose proof (publish_spec s2) as PS.
    destruct (publish s2) as [s3 []|s3 e3|s3 w3]; simpl in PS;
      [|contradiction|destruct PS; congruence].
    destruct PS as (K3 & A3 & T3' & P3 & C3 & N3 & _).
    destruct (publish_told s2 s3 T3 K3 A3) as [T4 _]. destruct K3.
    simpl. pose proof (reset_spec (te_first t) s3) as R1.
    destruct (reset (te_first t) s3) as [s4 []|s4 e4|s4 w4]; simpl in *.
    + destruct R1 as ([[] A4 T5 P4] & C4 & N4 & PI4 & RE4).
      destruct (told_kept s3 s4 T4) as [[] _]; auto.
      { eapply adds_weaken; [apply tidies_idle|auto]. }
      constructor; simpl; auto; try congruence; try lia; try discriminate.
    + destruct R1 as ([K4 A4 T5 P4] & O4 & C4 & C4' & N4 & PI4 & RE4).
      pose proof (reset_spec (te_second t) s4) as R2. unfold on_error.
      destruct (reset (te_second t) s4) as [s5 []|s5 e5|s5 w5]; simpl in *.
      * destruct R2 as ([K5 A5 T6 P5] & C5 & N5 & PI5 & RE5).
        pose proof (keeps_trans _ _ _ K4 K5) as []. pose proof (adds_trans _ _ _ _ A4 A5) as AA.
        destruct (told_kept s3 s5 T4) as [[] _]; auto.
        { eapply adds_weaken; [apply tidies_idle|auto]. }
        constructor; simpl; auto; try congruence; try lia; try discriminate.
      * destruct R2 as ([K5 A5 T6 P5] & C5 & N5 & PI5 & RE5 & _ & _).
        pose proof (keeps_trans _ _ _ K4 K5) as []. pose proof (adds_trans _ _ _ _ A4 A5) as AA.
        destruct (told_kept s3 s5 T4) as [[] _]; auto.
        { eapply adds_weaken; [apply tidies_idle|auto]. }
        constructor; simpl; auto; try congruence; try lia; try discriminate.
      * destruct R2 as ([K5 A5 T6 P5] & D5).
        pose proof (keeps_trans _ _ _ K4 K5) as []. pose proof (adds_trans _ _ _ _ A4 A5) as AA.
        destruct (told_kept s3 s5 T4) as [TT _]; auto.
        { eapply adds_weaken; [apply tidies_idle|auto]. }
        split; auto. destruct D5 as [[-> ?]|[[-> ?]|[-> ?]]]; unfold lawful_stop; auto. lia.
    + destruct R1 as ([[] A4 T5 P4] & D4).
      destruct (told_kept s3 s4 T4) as [TT _]; auto.
      { eapply adds_weaken; [apply tidies_idle|auto]. }
      split; auto. destruct D4 as [[-> ?]|[[-> ?]|[-> ?]]]; unfold lawful_stop; auto. lia.
  - contradiction.
Qed.

Lemma refused_inv v x : told x -> since (trace x) = 0 -> timer x = false -> scenarios x = 0 ->
  inv (set_ph Unconfigured (report v x)).
Proof.
  intros T Z TM N. destruct (report_told v x T Z) as [[] Z'].
  assert (E1 : timer (report v x) = false) by exact TM.
  assert (E2 : scenarios (report v x) = 0) by exact N.
  revert t_well0 t_since0 t_path0 t_results0 t_files0 Z' E1 E2.
  generalize (report v x). intros y. intros.
  constructor; simpl; auto; try congruence; try lia; try discriminate.
Qed.

Lemma configure_inv v s : inv s -> ph s = Unconfigured ->
  wp (transition Inactive Unconfigured None (on_configure v s))
    (fun s' _ => inv s') (fun _ _ => False) (fun _ _ => False).
Proof.
  intros I HP. pose proof (i_unconf s I HP) as N.
  assert (TM : timer s = false).
  { destruct (timer s) eqn:E; auto. pose proof (i_timer s I E). congruence. }
  unfold on_configure. cbv zeta.
  match goal with |- context [set_result ?x s] => generalize x; intros v0 end.
  set (s1 := emit _ _).
  assert (T1 : told s1 /\ since (trace s1) = 0 /\ timer s1 = false /\ scenarios s1 = 0 /\ ph s1 = Unconfigured).
  { destruct I. repeat split; simpl; auto. discriminate. }
  clearbody s1. destruct T1 as (T1 & Z1 & TM1 & N1 & HP1).
  assert (T2 : told (set_script true s1)) by (destruct T1; constructor; auto).
  destruct (le_read v) as [e|c].
  - apply (refused_inv (caught e) s1); auto.
  - unfold andthen, outside. destruct (le_threshold v) as [e|].
    + apply (refused_inv (caught e) (set_script true s1)); auto.
    + destruct c.
      * simpl. destruct T2. constructor; simpl in *; auto; try congruence; try lia; try discriminate.
      * unfold with_handler. simpl wp. apply refused_inv; auto.
      * unfold with_handler. simpl wp. apply refused_inv; auto.
Qed.

Lemma handle_inv r s : inv s -> shuts_calmly r ->
  wp (handle r s)
    (fun s' _ => inv s') (fun _ _ => False) (fun s' w => told s' /\ lawful_stop w).
Proof.
  intros I HC. destruct r as [a b c|v|v t|v t|t| |t]; simpl.
  - destruct I. constructor; simpl; auto.
  - destruct (ph s) eqn:HP; simpl; auto.
    eapply wp_mono; [apply configure_inv; auto| | |]; simpl; auto; contradiction.
  - destruct (ph s) eqn:HP; simpl; auto. apply activate_inv; auto.
  - destruct (timer s) eqn:TM; simpl; auto. apply frame_inv; auto. apply i_timer; auto.
  - destruct (ph s) eqn:HP; unfold deactivate; rewrite HP; simpl; auto.
    fold (deactivate t s). change (match ph s with Active => _ | _ => _ end) with (deactivate t s).
    destruct (i_active s I HP) as (TM & N & SC & CO & PB).
    pose proof (deactivate_spec t s HP N) as D. unfold deactivate in D. rewrite HP in D.
    eapply wp_mono; [exact D| | |]; simpl; auto.
    + intros s' _ G. eapply gone_inv; eauto using told_of_inv.
    + intros s' w (O1 & O2 & O3 & O4 & O5). split; auto.
      apply (told_kept s s' (told_of_inv s I) O1 O2 O3). eapply adds_weaken; [apply tidies_idle|auto].
  - destruct (ph s) eqn:HP; simpl; auto.
    destruct I. constructor; simpl; auto; try congruence; try lia; try discriminate.
    intros X. specialize (i_timer0 X). congruence.
  - assert (G : wp (transition Finalized (ph s) (te_second t) (on_shutdown (te_first t) s))
             (fun s' _ => inv s') (fun _ _ => False) (fun s' w => told s' /\ lawful_stop w)).
    { unfold on_shutdown. simpl in HC. rewrite HC. unfold core_deactivate, andthen.
      simpl. destruct (core s); simpl; destruct I; constructor; simpl; auto;
        try congruence; try lia; try discriminate.
      repeat split; auto. discriminate. }
    destruct (ph s) eqn:HP; simpl; auto.
Qed.

Lemma serve_inv rs : forall s, inv s -> Forall shuts_calmly rs ->
  wp (serve rs s)
    (fun s' _ => inv s') (fun _ _ => False) (fun s' w => told s' /\ lawful_stop w).
Proof.
  induction rs as [|r rs IH]; simpl; auto.
  intros s I H. inversion H; subst. apply wp_then.
  eapply wp_mono; [apply handle_inv; auto| | |]; simpl; auto.
Qed.

(** ** Oldest first and newest first *)
Lemma filed_app a : forall here b,
  filed here (a ++ b) = filed here a ++ filed (fold_left (fun h e => match e with Loading p => p | _ => h end) a here) b.
Proof.
  induction a as [|e a IH]; simpl; auto. intros. destruct e; simpl; rewrite IH; reflexivity.
Qed.

Lemma last_loaded_rev l :
  fold_left (fun h e => match e with Loading p => p | _ => h end) (rev l) (Path "" "" "") = last_loaded l.
Proof.
  induction l as [|e l IH]; simpl; auto. rewrite fold_left_app. simpl. destruct e; auto.
Qed.

Lemma filed_rev_eq l : filed (Path "" "" "") (rev l) = filed_rev l.
Proof.
  induction l as [|e l IH]; simpl; auto. rewrite filed_app, IH, last_loaded_rev.
  destruct e; simpl; rewrite ?app_nil_r; auto.
Qed.

Lemma well_app a b : well (a ++ b) -> well b.
Proof. induction a; simpl; auto. intros (_ & _ & H). auto. Qed.

Lemma since_reports b c : forallb (fun e => negb (is_attempt e)) b = true ->
  since (b ++ c) = reports b + since c.
Proof.
  unfold reports. induction b as [|e b IH]; simpl; auto. rewrite andb_true_iff. intros [H1 H2].
  destruct (is_attempt e); [discriminate|]. destruct (is_report e); simpl; rewrite IH; auto.
Qed.

Lemma well_counts a b c : well (a ++ b ++ c) -> forallb (fun e => negb (is_attempt e)) b = true ->
  reports b <= 1.
Proof.
  intros W H. apply well_app in W. destruct b as [|e b]; [simpl; auto|].
  pose proof (since_reports _ c H). destruct W as [W _]. simpl app in *. lia.
Qed.

Lemma reports_rev b : reports (rev b) = reports b.
Proof.
  unfold reports. induction b as [|e b IH]; simpl; auto.
  rewrite filter_app, app_length, IH. simpl. destruct (is_report e); simpl; lia.
Qed.

Lemma forallb_rev {A} (f : A -> bool) l : forallb f (rev l) = forallb f l.
Proof.
  induction l; simpl; auto. rewrite forallb_app, IHl. simpl. rewrite andb_true_r, andb_comm. reflexivity.
Qed.

Lemma running_needs_began l : running l ->
  exists a b, l = a ++ Began :: b /\ forallb (fun e => negb (is_report e)) a = true.
Proof.
  induction l as [|e l IH]; simpl; [contradiction|]. intros H.
  destruct e; try contradiction;
    try (destruct (IH H) as (a & b & -> & F); eexists (_ :: a), b; split; [reflexivity|auto]; fail).
  exists [], l. auto.
Qed.

(** ** What the report holds *)
Definition case_at (l : list test_suite) (suite case : string) : option test_case :=
  match find (fun s => String.eqb (suite_name s) suite) l with
  | None => None
  | Some s => find (fun c => String.eqb (case_name c) case) (suite_cases s)
  end.

Lemma push_name v c : case_name (push v c) = case_name c.
Proof. destruct v; reflexivity. Qed.

Lemma at_case_same n v l :
  find (fun c => String.eqb (case_name c) n) (at_case n (push v) l) =
  Some (push v (match find (fun c => String.eqb (case_name c) n) l with
                | Some c => c | None => Case n 0 [] [] end)).
Proof.
  induction l as [|c l IH]; simpl.
  - rewrite push_name. simpl. rewrite String.eqb_refl. reflexivity.
  - destruct (String.eqb (case_name c) n) eqn:E; simpl; rewrite ?push_name, ?E; auto.
Qed.

Lemma at_case_other n v m l : String.eqb n m = false ->
  find (fun c => String.eqb (case_name c) m) (at_case n (push v) l) =
  find (fun c => String.eqb (case_name c) m) l.
Proof.
  intros H. induction l as [|c l IH]; simpl.
  - rewrite push_name. simpl. rewrite H. reflexivity.
  - destruct (String.eqb (case_name c) n) eqn:E; simpl; rewrite ?push_name.
    + apply String.eqb_eq in E. rewrite E, H. reflexivity.
    + destruct (String.eqb (case_name c) m); auto.
Qed.

Lemma at_suite_same n f l :
  find (fun s => String.eqb (suite_name s) n) (at_suite n f l) =
  Some (Suite n (f (match find (fun s => String.eqb (suite_name s) n) l with
                | Some s => suite_cases s | None => [] end))).
Proof.
  induction l as [|c l IH]; simpl.
  - rewrite String.eqb_refl. reflexivity.
  - destruct (String.eqb (suite_name c) n) eqn:E; simpl; rewrite ?String.eqb_refl, ?E; auto.
Qed.

Lemma at_suite_other n f m l : String.eqb n m = false ->
  find (fun s => String.eqb (suite_name s) m) (at_suite n f l) =
  find (fun s => String.eqb (suite_name s) m) l.
Proof.
  intros H. induction l as [|c l IH]; simpl.
  - rewrite H. reflexivity.
  - destruct (String.eqb (suite_name c) n) eqn:E; simpl.
    + apply String.eqb_eq in E. rewrite E, H. reflexivity.
    + destruct (String.eqb (suite_name c) m); auto.
Qed.

Lemma case_at_file l p v suite case :
  case_at (file_one l (p, v)) suite case =
  if String.eqb (p_suite p) suite && String.eqb (p_case p) case then
    Some (push v (match case_at l suite case with Some c => c | None => Case case 0 [] [] end))
  else case_at l suite case.
Proof.
  unfold case_at, file_one. simpl.
  destruct (String.eqb (p_suite p) suite) eqn:E; simpl.
  - apply String.eqb_eq in E. subst suite. rewrite at_suite_same. simpl.
    destruct (String.eqb (p_case p) case) eqn:F.
    + apply String.eqb_eq in F. subst case. rewrite at_case_same.
      destruct (find _ l); reflexivity.
    + rewrite at_case_other by auto. destruct (find _ l); reflexivity.
  - rewrite at_suite_other by auto. reflexivity.
Qed.

Definition hits (suite case : string) (l : list (path * verdict)) : bool :=
  existsb (fun pv => String.eqb (p_suite (fst pv)) suite && String.eqb (p_case (fst pv)) case) l.

Lemma case_at_build suite case : forall l,
  match case_at (build l) suite case with
  | None => hits suite case l = false
  | Some c => hits suite case l = true /\ case_failure c = failures_of suite case l /\
              case_error c = errors_of suite case l
  end.
Proof.
  intros l. induction l as [|[p v] l IH] using rev_ind; [reflexivity|].
  rewrite build_snoc, case_at_file. unfold hits, failures_of, errors_of in *.
  rewrite existsb_app, !flat_map_app. simpl. 
  destruct (String.eqb (p_suite p) suite && String.eqb (p_case p) case) eqn:E; simpl.
  - rewrite !orb_true_r. split; auto.
    destruct (case_at (build l) suite case) as [c|].
    + destruct IH as (_ & A & B). destruct v; simpl; rewrite ?A, ?B, ?app_nil_r; auto.
    + assert (X : failures_of suite case l = [] /\ errors_of suite case l = []).
      { unfold failures_of, errors_of. clear -IH. induction l as [|[q w] l IHl]; simpl; auto.
        simpl in IH. apply orb_false_iff in IH. destruct IH as [I1 I2]. rewrite I1.
        destruct (IHl I2) as [A B]. rewrite A, B. destruct w; auto. }
      unfold failures_of, errors_of in X. destruct X as [A B]. rewrite A, B.
      destruct v; simpl; auto.
  - rewrite !orb_false_r.
    assert (Y : match v with Failure t m => [] | _ => [] end = ([] : list (string * string))) by (destruct v; auto).
    destruct (case_at (build l) suite case) as [c|]; auto.
    destruct IH as (A & B & C). repeat split; auto; rewrite ?B, ?C; destruct v; rewrite app_nil_r; auto.
Qed.

Lemma find_map {A B} (f : A -> B) (g : B -> bool) l :
  find g (map f l) = option_map f (find (fun x => g (f x)) l).
Proof. induction l; simpl; auto. destruct (g (f a)); auto. Qed.

Lemma look_up_write r suite case :
  look_up (write_suites r) suite case =
  option_map (fun c => (case_failure c, case_error c)) (case_at (suites r) suite case).
Proof.
  unfold look_up, case_at. simpl. rewrite find_map. simpl.
  destruct (find _ (suites r)) as [s|]; simpl; auto. rewrite find_map. simpl.
  destruct (find _ (suite_cases s)); reflexivity.
Qed.

Lemma sum_at_case (g : test_case -> nat) n v l d :
  (forall c, g (push v c) = d + g c) -> g (Case n 0 [] []) = 0 ->
  sum (map g (at_case n (push v) l)) = d + sum (map g l).
Proof.
  intros H Z. induction l as [|c l IH]; simpl.
  - rewrite H, Z. lia.
  - destruct (String.eqb (case_name c) n); simpl; rewrite ?H, ?IH; lia.
Qed.

Lemma sum_at_suite (g : test_case -> nat) n f l d :
  (forall cs, sum (map g (f cs)) = d + sum (map g cs)) ->
  sum (map (fun s => sum (map g (suite_cases s))) (at_suite n f l)) =
  d + sum (map (fun s => sum (map g (suite_cases s))) l).
Proof.
  intros H. induction l as [|c l IH]; simpl.
  - rewrite H. simpl. lia.
  - destruct (String.eqb (suite_name c) n); simpl; rewrite ?H, ?IH; simpl; lia.
Qed.

Lemma sums_build (g : test_case -> nat) (w : verdict -> nat) :
  (forall v c, g (push v c) = w v + g c) -> (forall n, g (Case n 0 [] []) = 0) ->
  forall l, sum (map (fun s => sum (map g (suite_cases s))) (build l)) = sum (map (fun pv => w (snd pv)) l).
Proof.
  intros H Z l. induction l as [|[p v] l IH] using rev_ind; [reflexivity|].
  rewrite build_snoc, map_app. unfold file_one. simpl.
  rewrite (sum_at_suite g _ _ _ (w v)).
  - rewrite IH. clear. induction l; simpl; lia.
  - intros. apply sum_at_case; auto.
Qed.

Lemma count_filter (f : verdict -> bool) (l : list (path * verdict)) :
  sum (map (fun pv => if f (snd pv) then 1 else 0) l) = length (filter (fun pv => f (snd pv)) l).
Proof. induction l as [|pv l IH]; simpl; auto. destruct (f (snd pv)); simpl; lia. Qed.

Lemma totals r l : suites r = build l ->
  d_failures (write_suites r) = length (filter (fun pv => is_failure (snd pv)) l) /\
  d_errors (write_suites r) = length (filter (fun pv => is_error (snd pv)) l) /\
  d_tests (write_suites r) = length l.
Proof.
  intros E. simpl. rewrite E.
  rewrite (sums_build (fun c => length (case_failure c)) (fun v => if is_failure v then 1 else 0));
    [|intros [] ?; simpl; rewrite ?app_length; simpl; lia|auto].
  rewrite (sums_build (fun c => length (case_error c)) (fun v => if is_error v then 1 else 0));
    [|intros [] ?; simpl; rewrite ?app_length; simpl; lia|auto].
  rewrite (sums_build case_pass (fun v => if is_failure v || is_error v then 0 else 1));
    [|intros [] ?; simpl; lia|auto].
  rewrite !count_filter. repeat split; auto.
  clear. induction l as [|[p v] l IH]; simpl; auto.
  destruct v; simpl; lia.
Qed.

(** ** One suite of the report *)
Definition tally (g : test_case -> nat) (n : string) (l : list test_suite) : nat :=
  match find (fun s => String.eqb (suite_name s) n) l with
  | Some s => sum (map g (suite_cases s)) | None => 0 end.

Lemma tally_build (g : test_case -> nat) (w : verdict -> nat) n :
  (forall v c, g (push v c) = w v + g c) -> (forall n, g (Case n 0 [] []) = 0) ->
  forall l, tally g n (build l) =
    sum (map (fun pv => w (snd pv)) (filter (fun pv => String.eqb (p_suite (fst pv)) n) l)).
Proof.
  intros H Z l. induction l as [|[p v] l IH] using rev_ind; [reflexivity|].
  rewrite build_snoc, filter_app, map_app. unfold file_one, tally. simpl.
  destruct (String.eqb (p_suite p) n) eqn:E; simpl.
  - apply String.eqb_eq in E. subst n. rewrite at_suite_same. simpl.
    rewrite (sum_at_case g _ _ _ (w v)) by auto.
    transitivity (w v + tally g (p_suite p) (build l)).
    { unfold tally. destruct (find _ (build l)); reflexivity. }
    rewrite IH. clear. induction (filter _ l); simpl; lia.
  - rewrite at_suite_other by auto. rewrite app_nil_r. exact IH.
Qed.

Lemma at_suite_names n f l :
  map suite_name (at_suite n f l) = map suite_name l \/
  (~ In n (map suite_name l) /\ map suite_name (at_suite n f l) = map suite_name l ++ [n]).
Proof.
  induction l as [|s l IH]; simpl; auto.
  destruct (String.eqb (suite_name s) n) eqn:E; simpl.
  - apply String.eqb_eq in E. subst n. auto.
  - apply String.eqb_neq in E. destruct IH as [->|[A ->]]; [now left|].
    right. split; auto. intros [?|?]; auto.
Qed.

Lemma NoDup_snoc {A} (l : list A) x : NoDup l -> ~ In x l -> NoDup (l ++ [x]).
Proof.
  induction 1 as [|y l N _ IH]; simpl; intros H; repeat constructor; auto.
  intros I. apply in_app_iff in I. destruct I as [I|[I|[]]]; subst; intuition.
Qed.

Lemma build_names l : NoDup (map suite_name (build l)).
Proof.
  induction l as [|[p v] l IH] using rev_ind; [constructor|].
  rewrite build_snoc. unfold file_one. simpl.
  destruct (at_suite_names (p_suite p) (at_case (p_case p) (push v)) (build l)) as [->|[N ->]]; auto.
  apply NoDup_snoc; auto.
Qed.

Lemma find_named l s : NoDup (map suite_name l) -> In s l ->
  find (fun s' => String.eqb (suite_name s') (suite_name s)) l = Some s.
Proof.
  induction l as [|x l IH]; simpl; [contradiction|]. intros N [->|I].
  - rewrite String.eqb_refl. reflexivity.
  - inversion N as [|? ? N1 N2]; subst.
    destruct (String.eqb (suite_name x) (suite_name s)) eqn:E; auto.
    apply String.eqb_eq in E. exfalso. apply N1. rewrite E. apply in_map. exact I.
Qed.

Lemma suite_totals r l : suites r = build l ->
  NoDup (map sn_name (d_suites (write_suites r))) /\
  forall x, In x (d_suites (write_suites r)) ->
  let of_it := filter (fun pv => String.eqb (p_suite (fst pv)) (sn_name x)) l in
  sn_failures x = length (filter (fun pv => is_failure (snd pv)) of_it) /\
  sn_errors x = length (filter (fun pv => is_error (snd pv)) of_it) /\
  sn_tests x = length of_it.
Proof.
  intros E. simpl. rewrite E, map_map. split.
  { exact (build_names l). }
  intros x I. apply in_map_iff in I. destruct I as (s & <- & I). simpl.
  pose proof (find_named _ s (build_names l) I) as F.
  assert (T : forall g, sum (map g (suite_cases s)) = tally g (suite_name s) (build l)).
  { intros g. unfold tally. rewrite F. reflexivity. }
  rewrite !T.
  rewrite (tally_build (fun c => length (case_failure c)) (fun v => if is_failure v then 1 else 0));
    [|intros [] ?; simpl; rewrite ?app_length; simpl; lia|auto].
  rewrite (tally_build (fun c => length (case_error c)) (fun v => if is_error v then 1 else 0));
    [|intros [] ?; simpl; rewrite ?app_length; simpl; lia|auto].
  rewrite (tally_build case_pass (fun v => if is_failure v || is_error v then 0 else 1));
    [|intros [] ?; simpl; lia|auto].
  rewrite !count_filter. repeat split; auto.
  set (k := filter _ l). clearbody k. clear. induction k as [|[p v] k IH]; simpl; auto.
  destruct v; simpl; lia.
Qed.
