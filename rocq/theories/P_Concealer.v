(** * Invariants of the connection to Autoware. *)
From Coq Require Import ZArith List Bool Arith Lia.
From Verif Require Import M_Concealer S_Concealer.
Import ListNotations.

(** ** Reading records *)

Lemma accepted_app a b : accepted (a ++ b) = accepted a ++ accepted b.
Proof. apply flat_map_app. Qed.
Lemma begun_app a b : begun (a ++ b) = begun a ++ begun b.
Proof. apply flat_map_app. Qed.
Lemma finished_app a b : finished (a ++ b) = finished a ++ finished b.
Proof. apply flat_map_app. Qed.
Lemma sent_app a b : sent (a ++ b) = sent a ++ sent b.
Proof. apply flat_map_app. Qed.
Lemma states_app a b : states (a ++ b) = states a ++ states b.
Proof. apply flat_map_app. Qed.

Lemma since_snoc l e acc :
  since_begun (l ++ [e]) acc
  = match e with Began _ => [] | _ => since_begun l acc ++ [e] end.
Proof.
  revert acc. induction l as [|x l IH]; intros acc; [destruct e; reflexivity|].
  destruct x; cbn [app since_begun]; apply IH.
Qed.
Lemma recent_snoc l e :
  recent (l ++ [e]) = match e with Began _ => [] | _ => recent l ++ [e] end.
Proof. apply since_snoc. Qed.

(** ** The steps of a task *)

Inductive trace (fin : bool) (t : task) : pc -> list (request * bool) -> list astate -> Prop :=
| T_begin : trace fin t (Run (body t)) [] []
| T_done a b : trace fin t (Run Done) a b -> trace fin t Pop a b
| T_send r k d a b : trace fin t (Run (Send r k)) a b -> trace fin t (Ready r k d) a b
| T_look f s a b : trace fin t (Run (Look f)) a b -> trace fin t (Run (f s)) a (b ++ [s])
| T_lift k a b : trace fin t (Run (Lift k)) a b -> trace fin t (Run k) a b
| T_skip x y k a b : fin = true -> trace fin t (Run (Wait x y k)) a b -> trace fin t (Run k) a b
| T_stay x y k s a b :
    not_to_be x y s = true -> trace fin t (Run (Wait x y k)) a b ->
    trace fin t (Run (Wait x y k)) a (b ++ [s])
| T_exit x y k s a b :
    not_to_be x y s = false -> trace fin t (Run (Wait x y k)) a b ->
    trace fin t (Run k) a (b ++ [s])
| T_ready r k d a b : trace fin t (Ready r k d) a b -> trace fin t (Try r attempts k) a b
| T_yes r n k a b : trace fin t (Try r (S n) k) a b -> trace fin t (Run k) (a ++ [(r, true)]) b
| T_no r n k a b : trace fin t (Try r (S n) k) a b -> trace fin t (Try r n k) (a ++ [(r, false)]) b.

Definition here fin t p (l : list entry) : Prop := trace fin t p (sent (recent l)) (states (recent l)).

Lemma trace_fin f t p a b : trace false t p a b -> trace f t p a b.
Proof.
  induction 1; try discriminate;
    [apply T_begin|apply T_done|apply T_send|apply T_look|apply T_lift|apply T_stay|eapply T_exit
    |eapply T_ready|eapply T_yes|apply T_no]; eauto.
Qed.

Definition cause (e : entry) : Prop :=
  match e with TimeUp | Unavailable _ | Refused _ | Unexpected => True | _ => False end.

(** What holds when an entry is written. *)
Definition ok (fin : bool) (l : list entry) (e : entry) : Prop :=
  match e with
  | Began t => resting l /\ exists rest, accepted l = begun l ++ t :: rest
  | Finished t => running l t /\ here fin t Pop l
  | Failed t => running l t /\ exists l0 c, l = l0 ++ [c] /\ cause c
  | Sent r b => exists t n k, running l t /\ here fin t (Try r (S n) k) l
  | Saw _ => exists t, running l t
  | Lifted => exists t k, running l t /\ here fin t (Run (Lift k)) l
  | TimeUp => (exists t, running l t) /\ ~ In Lifted l
  | Unavailable r => exists t k d, running l t /\ here fin t (Ready r k d) l
  | Refused r => exists t k, running l t /\ here fin t (Try r 0 k) l
  | Unexpected => exists t, running l t /\ here fin t (Run Fail) l
  | Answered w true => accepted l = finished l
  | Accepted _ | Threw | Answered _ false => True
  end.

Definition good (fin : bool) (l : list entry) : Prop := forall l1 e, says l l1 e -> ok fin l1 e.

Lemma good_nil fin : good fin [].
Proof. intros l1 e [l2 H]. destruct l1; discriminate. Qed.

Lemma says_snoc l x l1 e : says (l ++ [x]) l1 e -> (l1 = l /\ e = x) \/ says l l1 e.
Proof.
  intros [l2 H]. destruct (exists_last (l := e :: l2)) as [m [y Hm]]; [discriminate|].
  destruct l2 as [|z l2].
  - apply app_inj_tail in H. destruct H as [-> ->]. left; auto.
  - right. destruct (exists_last (l := z :: l2)) as [m' [y' Hm']]; [discriminate|].
    rewrite Hm' in H. change (l1 ++ e :: m' ++ [y']) with (l1 ++ (e :: m') ++ [y']) in H.
    rewrite app_assoc in H. apply app_inj_tail in H. destruct H as [-> _]. exists m'. reflexivity.
Qed.

Lemma good_snoc fin l e : good fin l -> ok fin l e -> good fin (l ++ [e]).
Proof.
  intros Hl He l1 x H. apply says_snoc in H. destruct H as [[-> ->]|H]; auto.
Qed.

Lemma ok_fin f l e : ok false l e -> ok f l e.
Proof.
  destruct e; simpl; auto; unfold here.
  - intros [H K]; eauto using trace_fin.
  - intros (t & n & k & H & K). exists t, n, k. eauto using trace_fin.
  - intros (t & k & H & K). exists t, k. eauto using trace_fin.
  - intros (t & k & d & H & K). exists t, k, d. eauto using trace_fin.
  - intros (t & k & H & K). exists t, k. eauto using trace_fin.
  - intros (t & H & K). exists t. eauto using trace_fin.
Qed.
Lemma good_fin l : good false l -> good true l.
Proof. intros H l1 e K. apply ok_fin. auto. Qed.

(** ** The invariant *)

Definition busy (p : pc) : Prop :=
  match p with Run _ | Ready _ _ _ | Try _ _ _ | Pop => True | _ => False end.

Definition spot (s : state) : Prop :=
  match thread s with
  | Head | Test | Ended => resting (log s) /\ thrown s = false
  | Front => resting (log s) /\ thrown s = false /\ queue s <> []
  | Died => thrown s = true /\
      exists t q, queue s = t :: q /\ In (Failed t) (log s) /\ begun (log s) = finished (log s) ++ [t]
  | p => thrown s = false /\
      exists t q, queue s = t :: q /\ running (log s) t /\ here (a_final s) t p (log s)
  end.

Record inv (s : state) : Prop := {
  i_tasks : accepted (log s) = finished (log s) ++ queue s;
  i_good : good (a_final s) (log s);
  i_spot : spot s;
  i_reading : match main s with Reading _ => queue s = [] | _ => True end;
  i_limit : limit s <> None -> ~ In Lifted (log s)
}.

(** Entries of the caller change nothing of that. *)
Definition callers (e : entry) : Prop :=
  match e with Threw | Answered _ _ | Accepted _ => True | _ => False end.

Lemma callers_begun l e : callers e -> begun (l ++ [e]) = begun l.
Proof. intros H. rewrite begun_app. destruct e; try easy; apply app_nil_r. Qed.
Lemma callers_finished l e : callers e -> finished (l ++ [e]) = finished l.
Proof. intros H. rewrite finished_app. destruct e; try easy; apply app_nil_r. Qed.
Lemma callers_failed l e : callers e -> unfailed l -> unfailed (l ++ [e]).
Proof.
  intros H K t I. apply in_app_or in I. destruct I as [I|[->|[]]]; [exact (K t I)|easy].
Qed.
Lemma callers_running l e t : callers e -> running l t -> running (l ++ [e]) t.
Proof.
  intros H [K L]. split; [apply callers_failed; auto|].
  rewrite callers_begun, callers_finished; auto.
Qed.
Lemma callers_resting l e : callers e -> resting l -> resting (l ++ [e]).
Proof.
  intros H [K L]. split; [apply callers_failed; auto|].
  rewrite callers_begun, callers_finished; auto.
Qed.
Lemma callers_here f t p l e : callers e -> here f t p l -> here f t p (l ++ [e]).
Proof.
  intros H. unfold here. rewrite recent_snoc.
  destruct e; try easy; rewrite sent_app, states_app; cbn; rewrite !app_nil_r; auto.
Qed.
Lemma callers_lifted l e : callers e -> In Lifted (l ++ [e]) -> In Lifted l.
Proof. intros H I. apply in_app_or in I. destruct I as [I|[->|[]]]; easy. Qed.

(** Entries of the dispatcher while a task runs. *)
Definition working_entry (e : entry) : Prop :=
  match e with
  | Sent _ _ | Saw _ | Lifted | TimeUp | Unavailable _ | Refused _ | Unexpected => True
  | _ => False
  end.
Lemma working_begun l e : working_entry e -> begun (l ++ [e]) = begun l.
Proof. intros H. rewrite begun_app. destruct e; try easy; apply app_nil_r. Qed.
Lemma working_finished l e : working_entry e -> finished (l ++ [e]) = finished l.
Proof. intros H. rewrite finished_app. destruct e; try easy; apply app_nil_r. Qed.
Lemma working_accepted l e : working_entry e -> accepted (l ++ [e]) = accepted l.
Proof. intros H. rewrite accepted_app. destruct e; try easy; apply app_nil_r. Qed.
Lemma working_running l e t : working_entry e -> running l t -> running (l ++ [e]) t.
Proof.
  intros H [K L]. split.
  - intros u I. apply in_app_or in I. destruct I as [I|[->|[]]]; [exact (K u I)|easy].
  - rewrite working_begun, working_finished; auto.
Qed.

Lemma app_nil_log (l : list entry) : l ++ [] = l. Proof. apply app_nil_r. Qed.

(** Only the caller's state or the environment changed. *)
Lemma inv_same s s' :
  inv s -> queue s' = queue s -> thread s' = thread s -> thrown s' = thrown s ->
  a_final s' = a_final s -> limit s' = limit s ->
  log s' = log s -> match main s' with Reading _ => queue s = [] | _ => True end -> inv s'.
Proof.
  intros [A B C D E] H1 H2 H3 H4 H5 H6 H7. constructor.
  - rewrite H1, H6. exact A.
  - rewrite H4, H6. exact B.
  - unfold spot in *. rewrite H1, H2, H3, H4, H6. exact C.
  - rewrite H1. exact H7.
  - rewrite H5, H6. exact E.
Qed.

(** The caller writes one entry. *)
Lemma inv_says s s' e :
  inv s -> callers e -> ok (a_final s) (log s) e ->
  thread s' = thread s -> thrown s' = thrown s -> a_final s' = a_final s -> limit s' = limit s ->
  log s' = log s ++ [e] -> main s' = Free ->
  queue s' = queue s ++ accepted [e] -> inv s'.
Proof.
  intros [A B C D E] He Hok H2 H3 H4 H5 H6 H7 H1. constructor.
  - rewrite H1, H6, accepted_app, callers_finished, A by assumption. apply app_assoc_reverse.
  - rewrite H4, H6. apply good_snoc; assumption.
  - unfold spot in *. rewrite H2, H3, H4, H6. destruct (thread s).
    + destruct C; split; [apply callers_resting|]; auto.
    + destruct C; split; [apply callers_resting|]; auto.
    + destruct C as (C1 & C2 & C3); split; [apply callers_resting; auto|]. split; [auto|].
      rewrite H1. destruct (queue s); [easy|discriminate].
    + destruct C as (C0 & t & q & C1 & C2 & C3). split; [auto|]. exists t, (q ++ accepted [e]).
      rewrite H1, C1. split; [reflexivity|]. split; [apply callers_running|apply callers_here]; auto.
    + destruct C as (C0 & t & q & C1 & C2 & C3). split; [auto|]. exists t, (q ++ accepted [e]).
      rewrite H1, C1. split; [reflexivity|]. split; [apply callers_running|apply callers_here]; auto.
    + destruct C as (C0 & t & q & C1 & C2 & C3). split; [auto|]. exists t, (q ++ accepted [e]).
      rewrite H1, C1. split; [reflexivity|]. split; [apply callers_running|apply callers_here]; auto.
    + destruct C as (C0 & t & q & C1 & C2 & C3). split; [auto|]. exists t, (q ++ accepted [e]).
      rewrite H1, C1. split; [reflexivity|]. split; [apply callers_running|apply callers_here]; auto.
    + destruct C; split; [apply callers_resting|]; auto.
    + destruct C as (C0 & t & q & C1 & C2 & C3). split; [auto|]. exists t, (q ++ accepted [e]).
      rewrite H1, C1. split; [reflexivity|]. split; [apply in_or_app; auto|].
      rewrite callers_begun, callers_finished; auto.
  - rewrite H7. exact I.
  - rewrite H5, H6. intros L K. apply callers_lifted in K; [|assumption]. exact (E L K).
Qed.

(** The dispatcher moves within a task, writing at most one entry. *)
Lemma inv_moves s s' p es t q :
  inv s -> thread s' = p -> busy p -> thrown s = false -> queue s = t :: q ->
  running (log s) t ->
  thrown s' = false -> a_final s' = a_final s -> queue s' = queue s -> main s' = main s ->
  log s' = log s ++ es ->
  (es = [] \/ exists e, es = [e] /\ working_entry e /\ ok (a_final s) (log s) e) ->
  (limit s' = limit s /\ ~ In Lifted es \/ limit s' = None) ->
  here (a_final s) t p (log s ++ es) -> inv s'.
Proof.
  intros [A B C D E] Hp Hb Ht Hq Hr H3 H4 H1 H7 H6 Hes Hl Hh.
  assert (HR : running (log s ++ es) t).
  { destruct Hes as [->|(e & -> & W & _)]; [now rewrite app_nil_r|now apply working_running]. }
  constructor.
  - rewrite H1, H6. destruct Hes as [->|(e & -> & W & _)]; [now rewrite app_nil_r|].
    rewrite working_accepted, working_finished; auto.
  - rewrite H4, H6. destruct Hes as [->|(e & -> & W & K)]; [now rewrite app_nil_r|].
    apply good_snoc; assumption.
  - unfold spot. rewrite Hp, H3, H4, H1, Hq, H6.
    destruct p; try easy; (split; [reflexivity|]; exists t, q; auto).
  - rewrite H7, H1. exact D.
  - intros L K. rewrite H6 in K. destruct Hl as [[Hl N]|Hl].
    + rewrite Hl in L. apply in_app_or in K. destruct K as [K|K]; [exact (E L K)|exact (N K)].
    + congruence.
Qed.

(** The dispatcher dies. *)
Lemma inv_dies s es c t q :
  inv s -> queue s = t :: q -> running (log s) t -> cause c ->
  (es = [] \/ exists x, es = [Saw x]) ->
  (forall l, l = log s ++ es -> ok (a_final s) l c) ->
  inv (die s (es ++ [c])).
Proof.
  intros [A B C D E] Hq Hr Hc Hes Hok.
  set (l := log s ++ es).
  assert (Hl : log (die s (es ++ [c])) = (l ++ [c]) ++ [Failed t]).
  { cbn. rewrite Hq. unfold l. now rewrite !app_assoc. }
  assert (W : working_entry c) by (destruct c; easy).
  assert (HR : running l t).
  { unfold l. destruct Hes as [->|(x & ->)]; [now rewrite app_nil_r|]. now apply working_running. }
  assert (HG : good (a_final s) l).
  { unfold l. destruct Hes as [->|(x & ->)]; [now rewrite app_nil_r|].
    apply good_snoc; [assumption|]. exists t. assumption. }
  assert (HA : accepted l = finished l ++ queue s).
  { unfold l. destruct Hes as [->|(x & ->)]; [now rewrite app_nil_r|].
    rewrite working_accepted, working_finished by exact I. exact A. }
  assert (HR' : running (l ++ [c]) t) by now apply working_running.
  constructor.
  - rewrite Hl, !accepted_app, !finished_app, HA.
    destruct c; try easy; cbn; rewrite !app_nil_r; reflexivity.
  - rewrite Hl. cbn [a_final die]. apply good_snoc; [apply good_snoc; auto|].
    split; [assumption|]. exists l, c. auto.
  - unfold spot. cbn [thread die thrown queue]. split; [reflexivity|]. exists t, q. rewrite Hl.
    split; [assumption|]. split; [apply in_or_app; right; now left|].
    destruct HR' as [_ K]. rewrite begun_app, finished_app, K. cbn. now rewrite !app_nil_r.
  - exact D.
  - rewrite Hl. cbn [limit die]. intros L K. apply in_app_or in K. destruct K as [K|[K|[]]]; [|discriminate].
    apply in_app_or in K. destruct K as [K|[K|[]]].
    + apply in_app_or in K. destruct K as [K|K]; [exact (E L K)|].
      destruct Hes as [->|(x & ->)]; [destruct K|]. destruct K as [K|[]]; discriminate.
    + subst c. easy.
Qed.

Lemma here_working f t p l e a :
  working_entry e -> sent (recent l ++ [e]) = fst a -> states (recent l ++ [e]) = snd a ->
  trace f t p (fst a) (snd a) -> here f t p (l ++ [e]).
Proof.
  intros W H1 H2 H. unfold here. rewrite recent_snoc. destruct e; try easy; rewrite H1, H2; exact H.
Qed.

Lemma here_saw f t p l x :
  trace f t p (sent (recent l)) (states (recent l) ++ [x]) -> here f t p (l ++ [Saw x]).
Proof.
  intros H. unfold here. rewrite recent_snoc, sent_app, states_app. cbn. rewrite app_nil_r. exact H.
Qed.
Lemma here_sent f t p l r b :
  trace f t p (sent (recent l) ++ [(r, b)]) (states (recent l)) -> here f t p (l ++ [Sent r b]).
Proof.
  intros H. unfold here. rewrite recent_snoc, sent_app, states_app. cbn. rewrite app_nil_r. exact H.
Qed.
Lemma here_lifted f t p l : here f t p l -> here f t p (l ++ [Lifted]).
Proof.
  intros H. unfold here. rewrite recent_snoc, sent_app, states_app. cbn. rewrite !app_nil_r. exact H.
Qed.

Lemma start_inv d : inv (start d).
Proof.
  constructor; cbn; auto.
  - intros l1 e [l2 H]. destruct l1 as [|x l1]; [|destruct l1; discriminate].
    injection H as <- <-. exact I.
  - split; [split; [intros t [H|[]]; discriminate|reflexivity]|reflexivity].
  - intros _ [H|[]]. discriminate.
Qed.

Lemma dispatch_inv s o : inv s -> inv (dispatch s o).
Proof.
  intros HI. pose proof HI as [A B C D E]. unfold spot in C. unfold dispatch.
  destruct (thread s) as [| | |p|r k d|r n k| | |] eqn:Et.
  - (* Head *)
    destruct (alive s && negb (q_final s)); (constructor; cbn; rewrite ?app_nil_r; auto;
      unfold spot; cbn; rewrite ?app_nil_r; auto).
  - (* Test *)
    destruct (queue s) as [|t q] eqn:Eq; (constructor; cbn; rewrite ?app_nil_r, ?Eq; auto;
      unfold spot; cbn; rewrite ?app_nil_r, ?Eq; auto).
    destruct C as [C1 C2]. repeat split; auto; try apply C1. discriminate.
  - (* Front *)
    destruct C as (C1 & C2 & C3). destruct (queue s) as [|t q] eqn:Eq; [easy|].
    assert (Hb : begun (log s ++ [Began t]) = begun (log s) ++ [t]) by now rewrite begun_app.
    assert (Hf : finished (log s ++ [Began t]) = finished (log s))
      by (rewrite finished_app; cbn; now rewrite app_nil_r).
    destruct C1 as [U R].
    constructor.
    + cbn [log queue set_thread]. rewrite Hf, accepted_app, A, Eq. cbn. now rewrite app_nil_r.
    + cbn. apply good_snoc; [assumption|]. split; [split; assumption|].
      exists q. now rewrite R.
    + unfold spot. cbn. split; [assumption|]. exists t, q. split; [assumption|]. split.
      * split; [|now rewrite Hb, Hf, R].
        intros u K. apply in_app_or in K. destruct K as [K|[K|[]]]; [exact (U u K)|discriminate].
      * unfold here. rewrite recent_snoc. apply T_begin.
    + cbn. destruct (main s); auto. congruence.
    + cbn. intros L K. apply in_app_or in K. destruct K as [K|[K|[]]]; [exact (E L K)|discriminate].
  - (* Run *)
    destruct C as (C0 & t & q & C1 & C2 & C3).
    destruct p as [| |r k|x y k|f|k].
    + (* Done *)
      eapply inv_moves with (s := s) (p := Pop) (es := []) (t := t) (q := q); cbn; auto.
      rewrite app_nil_r. apply T_done. exact C3.
    + (* Fail *)
      apply (inv_dies s [] Unexpected t q); auto; [exact I|].
      intros l ->. exists t. rewrite app_nil_r. auto.
    + (* Send *)
      eapply inv_moves with (s := s) (p := Ready r k (clock s + availability)) (es := []) (t := t) (q := q);
        cbn; auto.
      rewrite app_nil_r. apply T_send. exact C3.
    + (* Wait *)
      destruct (a_final s) eqn:Ef.
      { eapply inv_moves with (s := s) (p := Run k) (es := []) (t := t) (q := q); cbn; auto.
        rewrite app_nil_r, Ef. eapply T_skip; [reflexivity|exact C3]. }
      destruct (not_to_be x y (seen s)) eqn:En; [destruct (time_is_up s) eqn:Eu|].
      * apply (inv_dies s [Saw (seen s)] TimeUp t q); auto; [exact I|eauto|].
        intros l ->. split; [exists t; now apply working_running|].
        intros K. apply in_app_or in K. destruct K as [K|[K|[]]]; [|discriminate].
        refine (E _ K). unfold time_is_up in Eu. destruct (limit s); discriminate.
      * eapply inv_moves with (s := s) (p := Run (Wait x y k)) (es := [Saw (seen s)]) (t := t) (q := q);
          cbn; auto.
        { right. exists (Saw (seen s)). split; [reflexivity|]. split; [exact I|]. exists t. auto. }
        { left. split; [reflexivity|]. intros [K|[]]. discriminate. }
        rewrite Ef. apply here_saw. apply T_stay; [exact En|exact C3].
      * eapply inv_moves with (s := s) (p := Run k) (es := [Saw (seen s)]) (t := t) (q := q);
          cbn; auto.
        { right. exists (Saw (seen s)). split; [reflexivity|]. split; [exact I|]. exists t. auto. }
        { left. split; [reflexivity|]. intros [K|[]]. discriminate. }
        rewrite Ef. apply here_saw. eapply T_exit; [exact En|exact C3].
    + (* Look *)
      eapply inv_moves with (s := s) (p := Run (f (seen s))) (es := [Saw (seen s)]) (t := t) (q := q);
        cbn; auto.
      { right. exists (Saw (seen s)). split; [reflexivity|]. split; [exact I|]. exists t. auto. }
      { left. split; [reflexivity|]. intros [K|[]]. discriminate. }
      apply here_saw. apply T_look. exact C3.
    + (* Lift *)
      eapply inv_moves with (s := s) (p := Run k) (es := [Lifted]) (t := t) (q := q); cbn; auto.
      { right. exists Lifted. split; [reflexivity|]. split; [exact I|]. exists t, k. auto. }
      apply here_lifted. apply T_lift. exact C3.
  - (* Ready *)
    destruct C as (C0 & t & q & C1 & C2 & C3).
    assert (G : inv (set_thread s (Try r attempts k) [])).
    { eapply inv_moves with (s := s) (p := Try r attempts k) (es := []) (t := t) (q := q); cbn; auto.
      rewrite app_nil_r. eapply T_ready. exact C3. }
    destruct o; [exact G|exact G|]. destruct (alive s); [|exact G].
    destruct (d <? clock s)%Z; [|exact HI].
    apply (inv_dies s [] (Unavailable r) t q); auto; [exact I|].
    intros l ->. exists t, k, d. rewrite app_nil_r. auto.
  - (* Try *)
    destruct C as (C0 & t & q & C1 & C2 & C3). destruct n as [|n].
    { apply (inv_dies s [] (Refused r) t q); auto; [exact I|].
      intros l ->. exists t, k. rewrite app_nil_r. auto. }
    assert (G : inv (set_thread s (Try r n k) [Sent r false])).
    { eapply inv_moves with (s := s) (p := Try r n k) (es := [Sent r false]) (t := t) (q := q); cbn; auto.
      { right. exists (Sent r false). split; [reflexivity|]. split; [exact I|]. exists t, n, k. auto. }
      { left. split; [reflexivity|]. intros [K|[]]. discriminate. }
      apply here_sent. apply T_no. exact C3. }
    destruct o; [|exact G|exact G].
    eapply inv_moves with (s := s) (p := Run k) (es := [Sent r true]) (t := t) (q := q); cbn; auto.
    { right. exists (Sent r true). split; [reflexivity|]. split; [exact I|]. exists t, n, k. auto. }
    { left. split; [reflexivity|]. intros [K|[]]. discriminate. }
    apply here_sent. eapply T_yes. exact C3.
  - (* Pop *)
    destruct C as (C0 & t & q & C1 & C2 & C3). rewrite C1. destruct C2 as [U R].
    constructor.
    + cbn [log queue set_thread set_queue]. rewrite accepted_app, finished_app, A, C1. cbn.
      rewrite ?app_nil_r, <- ?app_assoc.
      reflexivity.
    + cbn. apply good_snoc; [assumption|]. repeat split; assumption.
    + unfold spot. cbn. split; [|assumption]. split.
      * intros u K. apply in_app_or in K. destruct K as [K|[K|[]]]; [exact (U u K)|discriminate].
      * rewrite begun_app, finished_app, R. cbn. now rewrite app_nil_r.
    + cbn. destruct (main s); auto. congruence.
    + cbn. intros L K. apply in_app_or in K. destruct K as [K|[K|[]]]; [exact (E L K)|discriminate].
  - exact HI.
  - exact HI.
Qed.

Lemma proceed_inv s : inv s -> inv (proceed s).
Proof.
  intros HI. pose proof HI as [A B C D E]. unfold proceed.
  destruct (main s) eqn:Em.
  - destruct (todo s) as [|c cs]; [exact HI|].
    assert (Q : forall m cs', (match m with Reading _ => False | _ => True end) ->
                inv (set_main s m cs' [])).
    { intros m cs' Hm. apply (inv_same s); auto; cbn; [apply app_nil_r|]. destruct m; easy. }
    assert (Q' : forall m cs', (match m with Reading _ => False | _ => True end) ->
                inv (set_main (set_initialized s) m cs' [])).
    { intros m cs' Hm. apply (inv_same s); auto; cbn; [apply app_nil_r|]. destruct m; easy. }
    assert (R : inv (set_main s Free [] [Threw])).
    { apply (inv_says s _ Threw); auto; cbn; auto. now rewrite app_nil_r. }
    destruct c; cbn [enter].
    + destruct (thrown s); [exact R|now apply Q].
    + destruct (initialized s); [now apply Q|]. cbn [thrown set_initialized].
      destruct (thrown s); [|now apply Q'].
      apply (inv_says s _ Threw); auto; cbn; auto. now rewrite app_nil_r.
    + destruct (thrown s); [exact R|now apply Q].
    + destruct (thrown s); [exact R|now apply Q].
    + destruct (thrown s); [exact R|now apply Q].
  - apply (inv_says s _ (Accepted t)); auto; cbn; auto.
  - destruct (queue s) eqn:Eq.
    + apply (inv_same s); auto; cbn. apply app_nil_r.
    + apply (inv_says s _ (Answered want false)); auto; cbn; auto. now rewrite app_nil_r.
  - apply (inv_says s _ (Answered want (astate_eqb (seen s) want))); auto; cbn; auto.
    + destruct (astate_eqb _ _); [|exact I]. rewrite A, D. apply app_nil_r.
    + now rewrite app_nil_r.
  - assert (K : forall f, a_final s = f -> inv
      {| queue := queue s; thread := thread s; thrown := thrown s; q_final := q_final s;
         a_final := true; alive := alive s; seen := seen s; clock := clock s; limit := limit s;
         main := Finalizing2; todo := []; initialized := initialized s; log := log s |}).
    { intros f Hf. constructor; cbn; auto.
      - destruct f; rewrite Hf in B; [exact B|now apply good_fin].
      - unfold spot in *. cbn. destruct (thread s); auto; destruct C as (C0 & t & q & C1 & C2 & C3);
        (split; [auto|]; exists t, q; split; [auto|]; split; [auto|];
         destruct f; rewrite Hf in C3; [exact C3|now apply trace_fin]). }
    exact (K _ eq_refl).
  - apply (inv_same s); auto.
  - destruct (thread s) eqn:Et; try exact HI;
      (apply (inv_same s); auto; cbn; apply app_nil_r).
  - exact HI.
Qed.

Lemma step_inv s e : inv s -> inv (step s e).
Proof.
  intros HI. pose proof HI as [A B C D E]. destruct e; cbn [step].
  - destruct (idle s); [|exact HI]. apply (inv_same s); auto; cbn; [apply app_nil_r|exact I].
  - now apply proceed_inv.
  - now apply dispatch_inv.
  - destruct (idle s); [|exact HI]. apply (inv_same s); auto; cbn; [apply app_nil_r|exact I].
  - apply (inv_same s); auto.
  - apply (inv_same s); auto.
  - apply (inv_same s); auto.
Qed.

Lemma run_inv es : forall s, inv s -> inv (run s es).
Proof. induction es; intros s H; [exact H|]. apply IHes. now apply step_inv. Qed.

Lemma reach_inv d es : inv (run (start d) es).
Proof. apply run_inv, start_inv. Qed.
