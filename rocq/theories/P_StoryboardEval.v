(** A normal evaluation as a derivation tree: every step of [evaluate] with the facts that hold
    there, so that further properties are proved by induction on the tree. *)
From Coq Require Import List Arith Bool Lia.
From Verif Require Import M_Storyboard S_Storyboard P_Storyboard P_StoryboardInv.
Import ListNotations.

Lemma composite_dec p : {composite p} + {kind_of p = KAction \/ kind_of p = KInit}.
Proof. unfold composite. destruct (kind_of p); auto; left; split; discriminate. Qed.

Section Derive.
Variable c : config.
Variable env : nat -> bool.

Definition HL (w : world) : Prop := forall q, seen (log w) q = st (heap w q).

(** Every element above [p] is executing or being stopped. *)
Definition Anc (w : world) (p : path) : Prop :=
  forall y, sbelow y p -> st (heap w y) = Running \/ st (heap w y) = StopT.

Definition GE (p : path) (w : world) : Prop :=
  CountInv c (w, None) /\ Settled w /\ parent_ok w p /\ Anc w p /\ HL w.

Definition GD (p : path) (w : world) : Prop :=
  CountInv c (w, None) /\ SettledX p w /\ parent_ok w p /\ StartPre c p w /\ Anc w p /\ HL w /\
  (st (heap w p) = EndT -> composite p -> forall q, In q (children c p) -> st (heap w q) = Complete).

(** override of one element, of several *)
Definition Ov (q : path) (w w' : world) : Prop :=
  ((st (heap w q) = Standby \/ st (heap w q) = StopT) /\ w' = w) \/
  (st (heap w q) <> Standby /\ st (heap w q) <> StopT /\ w' = w_set q StopT w).

Inductive OvL : list path -> world -> world -> Prop :=
| OvL_nil w : OvL [] w w
| OvL_cons q l w w1 w' : Ov q w w1 -> OvL l w1 w' -> OvL (q :: l) w w'.

Definition Force (l : list path) (w : world) : world := fold_left (fun w q => w_set q StartT w) l w.

Inductive StartH (p : path) : world -> bool -> world -> Prop :=
| SH_action w b : kind_of p = KAction \/ kind_of p = KInit ->
    StartH p w (negb b) (w_ask (QStartThrows p) b (w_emit (ActionStart p) w))
| SH_group w : kind_of p = KGroup -> StartH p w true (Force (children c p) w)
| SH_event w w1 : kind_of p = KEvent ->
    (prio c p = Override -> OvL (children c (tl p)) w w1) -> (prio c p <> Override -> w1 = w) ->
    StartH p w true (Force (children c p) w1)
| SH_none w : kind_of p <> KAction -> kind_of p <> KInit -> kind_of p <> KGroup -> kind_of p <> KEvent ->
    StartH p w true w.

Inductive Acc (p : path) : world -> bool -> world -> Prop :=
| Acc_action w b : kind_of p = KAction \/ kind_of p = KInit -> Acc p w b (w_ask (QAccomplished p) b w)
| Acc_all w : composite p -> (forall q, In q (children c p) -> st (heap w q) = Complete) -> Acc p w true w
| Acc_some w q : composite p -> In q (children c p) -> st (heap w q) <> Complete -> Acc p w false w.

Inductive StopQ (p : path) : world -> bool -> world -> Prop :=
| SQ_ask w b : kind_of p = KStoryboard \/ kind_of p = KAct -> StopQ p w b (w_ask (QStopTrigger p) b w)
| SQ_none w : kind_of p <> KStoryboard -> kind_of p <> KAct -> StopQ p w false w.

Inductive StartQ (p : path) : world -> bool -> world -> Prop :=
| RQ_ask w b : kind_of p = KAct \/ kind_of p = KEvent -> StartQ p w b (w_ask (QStartTrigger p) b w)
| RQ_none w : kind_of p <> KAct -> kind_of p <> KEvent -> StartQ p w true w.

Inductive Eval : path -> world -> bool -> world -> Prop :=
| E_eval p w b w1 w2 ok w' : GE p w -> StopQ p w b w1 ->
    (b = true -> Ov p w1 w2) -> (b = false -> w2 = w1) ->
    Disp p w2 ok w' ->
    (ok = true -> EPost p (st (heap w p)) w') -> fr (region p) w w' -> HL w' ->
    Eval p w ok w'
with Disp : path -> world -> bool -> world -> Prop :=
| D_wait p w w1 : GD p w -> st (heap w p) = Standby -> StartQ p w false w1 -> Disp p w true w1
| D_skip p w w1 r : GD p w -> st (heap w p) = Standby -> StartQ p w true w1 ->
    kind_of p = KEvent -> prio c p = Skip -> In r (children c (tl p)) -> r <> p -> st (heap w r) = Running ->
    Disp p w true (w_set p Standby (w_set p StartT w1))
| D_start p w w1 ok w' : GD p w -> st (heap w p) = Standby -> StartQ p w true w1 ->
    Disp p (w_set p StartT w1) ok w' -> Disp p w ok w'
| D_begin p w w1 ok w' : GD p w -> st (heap w p) = StartT -> StartH p w true w1 ->
    Disp p (w_inc p (w_set p Running w1)) ok w' -> Disp p w ok w'
| D_throw p w w1 : GD p w -> st (heap w p) = StartT -> StartH p w false w1 -> Disp p w false w1
| D_runx p w w1 : GD p w -> st (heap w p) = Running -> RunH p w false w1 -> Disp p w false w1
| D_stay p w w1 w2 : GD p w -> st (heap w p) = Running -> RunH p w true w1 -> st (heap w1 p) = Running ->
    Acc p w1 false w2 -> Disp p w true w2
| D_end p w w1 w2 ok w' : GD p w -> st (heap w p) = Running -> RunH p w true w1 -> st (heap w1 p) = Running ->
    Acc p w1 true w2 -> Disp p (w_set p EndT w2) ok w' -> Disp p w ok w'
| D_next p w ok w' : GD p w -> st (heap w p) = EndT ->
    Disp p (w_set p (if Nat.ltb (cnt (heap w p)) (maxc c p) then Standby else Complete) w) ok w' ->
    Disp p w ok w'
| D_done p w : GD p w -> st (heap w p) = Complete -> Disp p w true w
| D_skipT p w : GD p w -> st (heap w p) = SkipT -> Disp p w false w
| D_stopped p w w1 ok w' : GD p w -> st (heap w p) = StopT -> Acc p w true w1 ->
    Disp p (w_set p Complete w1) ok w' -> Disp p w ok w'
| D_stop p w w1 w2 ok w' : GD p w -> st (heap w p) = StopT -> Acc p w false w1 ->
    StopH p w1 true w2 -> (kind_of p <> KAction -> st (heap w2 p) = StopT) ->
    Disp p (w_set p Complete w2) ok w' -> Disp p w ok w'
| D_stopx p w w1 w2 : GD p w -> st (heap w p) = StopT -> Acc p w false w1 ->
    StopH p w1 false w2 -> Disp p w false w2
with RunH : path -> world -> bool -> world -> Prop :=
| R_action p w b : kind_of p = KAction \/ kind_of p = KInit ->
    RunH p w (negb b) (w_ask (QRunThrows p) b (w_emit (ActionRun p) w))
| R_all p w ok w' : composite p -> Runs p (children c p) w ok w' -> RunH p w ok w'
with Runs : path -> list path -> world -> bool -> world -> Prop :=
| Rs_nil p w : Runs p [] w true w
| Rs_exit p q l w w1 : In q (children c p) -> Eval q w false w1 -> Runs p (q :: l) w false w1
| Rs_cons p q l w w1 ok w' : In q (children c p) -> Eval q w true w1 -> Runs p l w1 ok w' -> Runs p (q :: l) w ok w'
with StopH : path -> world -> bool -> world -> Prop :=
| S_action p w : kind_of p = KAction -> StopH p w true (w_astop p w)
| S_init p w : kind_of p = KInit -> StopH p w true w
| S_all p w ok w' : composite p -> Stops p (children c p) w ok w' -> StopH p w ok w'
with Stops : path -> list path -> world -> bool -> world -> Prop :=
| Ss_nil p w : Stops p [] w true w
| Ss_exit p q l w w0 w1 : In q (children c p) -> st (heap w p) = StopT -> Ov q w w0 -> Eval q w0 false w1 ->
    Stops p (q :: l) w false w1
| Ss_cons p q l w w0 w1 ok w' : In q (children c p) -> st (heap w p) = StopT -> Ov q w w0 -> Eval q w0 true w1 ->
    Stops p l w1 ok w' -> Stops p (q :: l) w ok w'.

(** ** Facts used to build the tree *)
Lemma Anc_fr p w w' : fr (region p) w w' -> Anc w p -> Anc w' p.
Proof.
  intros Hf H y Hy. rewrite Hf; [apply H; exact Hy|].
  intros [Hb|(_ & i & ->)].
  - apply sbelow_length in Hy. apply below_length in Hb. lia.
  - apply sbelow_length in Hy. destruct p; simpl in Hy; lia.
Qed.

Lemma Anc_child i p w : Anc w p -> st (heap w p) = Running \/ st (heap w p) = StopT -> Anc w (i :: p).
Proof.
  intros H Hp y (j & l & E). destruct l as [|k l]; cbn in E.
  - injection E as _ <-. exact Hp.
  - injection E as _ E. apply H. exists j, l. exact E.
Qed.

Lemma HL_star w w' g g' : star c (w, g) (w', g') -> HL w -> HL w'.
Proof.
  intros H. assert (X := star_inv c (fun x => HL (fst x))). cbn in X.
  intros H0. refine (X _ (w, g) (w', g') H H0). intros x y Hp. exact (HL_prim c x y Hp).
Qed.

Lemma override_Ov q w : exists w', override c q w = Ok tt w' /\ Ov q w w'.
Proof.
  unfold override, bind, get, Ov.
  destruct (st (heap w q)) eqn:E;
    try (exists w; split; [reflexivity|left; split; [auto|reflexivity]]; fail);
    (exists (w_set q StopT w); rewrite (transition_to_plain c q StopT w) by (right; discriminate);
     split; [reflexivity|right; split; [discriminate|split; [discriminate|reflexivity]]]).
Qed.

Lemma overrides_OvL l : forall w, exists w', mapM (override c) l w = Ok tt w' /\ OvL l w w'.
Proof.
  induction l as [|q l IH]; intros w; cbn [mapM].
  - exists w; split; [reflexivity|constructor].
  - destruct (override_Ov q w) as (w1 & E1 & H1). destruct (IH w1) as (w' & E2 & H2).
    exists w'; split; [unfold seqm, bind; rewrite E1; exact E2|econstructor; eassumption].
Qed.

Lemma mapM_force l : (forall q, In q l -> kind_of q <> KEvent) ->
  forall w, mapM (fun q => _ <- transition_to c q StartT ;; ret tt) l w = Ok tt (Force l w).
Proof.
  induction l as [|q l IH]; intros Hl w; cbn [mapM]; [reflexivity|].
  unfold seqm, bind at 1. unfold bind at 1. rewrite (transition_to_plain c q StartT w) by (left; apply Hl; left; reflexivity).
  cbn [ret]. rewrite IH by (intros r Hr; apply Hl; right; exact Hr). reflexivity.
Qed.

Lemma start_hook_H p w :
  match start_hook c env p w with Ok _ w' => StartH p w true w' | Exit w' => StartH p w false w' | NoFuel => False end.
Proof.
  assert (HA : kind_of p = KAction \/ kind_of p = KInit ->
    match action_start env p w with Ok _ w' => StartH p w true w' | Exit w' => StartH p w false w' | NoFuel => False end).
  { intros K. unfold action_start, seqm, bind, emit, ask.
    assert (X := SH_action p w (env (tick w)) K). unfold w_ask, w_emit in X. cbn in X |- *.
    destruct (env (tick w)); cbn in *; exact X. }
  unfold start_hook. destruct (kind_of p) eqn:K; try (apply HA; auto; fail);
    try (cbn; apply SH_none; rewrite K; discriminate).
  - rewrite mapM_force; [apply SH_group; exact K|].
    intros q Hq. apply children_child in Hq. destruct Hq as [i ->]. intros Kq. apply kind_len_event in Kq.
    apply kind_len_group in K. simpl in Kq; lia.
  - assert (HF : forall q, In q (children c p) -> kind_of q <> KEvent).
    { intros q Hq. apply children_child in Hq. destruct Hq as [i ->]. intros Kq. apply kind_len_event in Kq.
      apply kind_len_event in K. simpl in Kq; lia. }
    destruct (prio c p) eqn:P.
    + destruct (overrides_OvL (children c (tl p)) w) as (w1 & E & H).
      unfold seqm, bind at 1. rewrite E, mapM_force by exact HF.
      apply SH_event; [exact K|intros _; exact H|congruence].
    + unfold seqm, bind at 1, ret at 1. rewrite mapM_force by exact HF.
      apply SH_event; [exact K|congruence|reflexivity].
    + unfold seqm, bind at 1, ret at 1. rewrite mapM_force by exact HF.
      apply SH_event; [exact K|congruence|reflexivity].
Qed.

Lemma accomplished_Acc p w : exists b w', accomplished c env p w = Ok b w' /\ Acc p w b w' /\ heap w' = heap w.
Proof.
  unfold accomplished. destruct (composite_dec p) as [K|K].
  - assert (X : exists b, (fun w => Ok (forallb (fun q => state_eqb (st (heap w q)) Complete) (children c p)) w) w = Ok b w /\ Acc p w b w).
    { eexists; split; [reflexivity|]. destruct (forallb _ _) eqn:E.
      - apply Acc_all; [exact K|]. intros q Hq. rewrite forallb_forall in E. apply state_eqb_spec, E, Hq.
      - assert (exists q, In q (children c p) /\ state_eqb (st (heap w q)) Complete = false) as (q & Hq & Eq).
        { revert E. induction (children c p) as [|q l IH]; cbn; [discriminate|].
          destruct (state_eqb (st (heap w q)) Complete) eqn:Eq; cbn.
          - intros H. destruct (IH H) as (r & Hr & Er). exists r; auto.
          - intros _. exists q; auto. }
        apply Acc_some with q; [exact K|exact Hq|]. intros H; rewrite H in Eq; discriminate. }
    destruct X as (b & E & H). exists b, w. destruct K as [K1 K2]. destruct (kind_of p); try congruence; auto.
  - exists (env (tick w)), (w_ask (QAccomplished p) (env (tick w)) w).
    split; [destruct K as [K|K]; rewrite K; reflexivity|split; [apply Acc_action; exact K|reflexivity]].
Qed.

Lemma stop_trigger_Q p w : exists b w', stop_trigger env p w = Ok b w' /\ StopQ p w b w' /\ heap w' = heap w.
Proof.
  unfold stop_trigger. destruct (kind_of p) eqn:K;
    try (exists false, w; split; [reflexivity|split; [apply SQ_none; rewrite K; discriminate|reflexivity]]);
    (exists (env (tick w)), (w_ask (QStopTrigger p) (env (tick w)) w); split; [reflexivity|split; [apply SQ_ask; auto|reflexivity]]).
Qed.

Lemma start_trigger_Q p w : exists b w', start_trigger env p w = Ok b w' /\ StartQ p w b w' /\ heap w' = heap w.
Proof.
  unfold start_trigger. destruct (kind_of p) eqn:K;
    try (exists true, w; split; [reflexivity|split; [apply RQ_none; rewrite K; discriminate|reflexivity]]);
    (exists (env (tick w)), (w_ask (QStartTrigger p) (env (tick w)) w); split; [reflexivity|split; [apply RQ_ask; auto|reflexivity]]).
Qed.

Definition EvalDer (evalc : path -> M unit) (q : path) : Prop :=
  forall w, GE q w ->
    match evalc q w with Ok _ w' => Eval q w true w' | Exit w' => Eval q w false w' | NoFuel => False end.

Definition LoopInv (s : state) (p : path) (w : world) : Prop :=
  CountInv c (w, None) /\ Settled w /\ st (heap w p) = s /\ Anc w p /\ HL w.

Lemma region_sib p i r : region (i :: p) r -> r <> p /\ ~ sbelow r p.
Proof.
  intros H. apply region_child in H. split.
  - intros ->. apply sbelow_irrefl in H; exact H.
  - intros H2. apply sbelow_length in H. apply sbelow_length in H2. lia.
Qed.

Lemma LoopInv_eval evalc s p q w w1 : s = Running \/ s = StopT -> In q (children c p) -> LoopInv s p w ->
  EvalOK c evalc q -> evalc q w = Ok tt w1 -> LoopInv s p w1.
Proof.
  intros Hs Hq (HC & HS & E & HA & HH) HE Ev.
  destruct (children_child _ _ _ Hq) as [i Hi].
  assert (HP : parent_ok w q) by (right; subst q; cbn [tl]; destruct Hs; subst s; auto).
  assert (X := HE w HC HS HP). rewrite Ev in X. cbn [res] in X. destruct X as (St & Fr & EP & _).
  split; [eapply CountInv_star; eassumption|]. split; [exact EP|].
  assert (Fp : forall r, r = p \/ sbelow r p -> heap w1 r = heap w r).
  { intros r Hr. apply Fr. intros Hreg. subst q. apply region_sib in Hreg. destruct Hreg as [N1 N2]. destruct Hr; auto. }
  split; [rewrite Fp by auto; exact E|]. split; [|eapply HL_star; eassumption].
  intros y Hy. rewrite Fp by auto. apply HA; exact Hy.
Qed.

Lemma LoopInv_GE s p q w : s = Running \/ s = StopT -> In q (children c p) -> LoopInv s p w -> GE q w.
Proof.
  intros Hs Hq (HC & HS & E & HA & HH). destruct (children_child _ _ _ Hq) as [i Hi]. subst q.
  split; [exact HC|split; [exact HS|split; [right; cbn [tl]; destruct Hs; subst s; auto|split; [|exact HH]]]].
  apply Anc_child; [exact HA|]. destruct Hs; subst s; auto.
Qed.

Lemma runs_der evalc p : (forall q, In q (children c p) -> EvalOK c evalc q) ->
  (forall q, In q (children c p) -> EvalDer evalc q) ->
  forall l, (forall q, In q l -> In q (children c p)) -> forall w, LoopInv Running p w ->
  match mapM evalc l w with
  | Ok _ w' => Runs p l w true w' /\ LoopInv Running p w'
  | Exit w' => Runs p l w false w'
  | NoFuel => False
  end.
Proof.
  intros HO HD l; induction l as [|q l IH]; intros Hl w HI; cbn [mapM].
  - cbn. split; [constructor|exact HI].
  - assert (Hq := Hl q (or_introl eq_refl)).
    assert (X := HD q Hq w (LoopInv_GE Running p q w (or_introl eq_refl) Hq HI)).
    unfold seqm, bind. destruct (evalc q w) as [[] w1|w1|] eqn:Ev; [|apply Rs_exit; assumption|exact X].
    assert (HI1 := LoopInv_eval evalc Running p q w w1 (or_introl eq_refl) Hq HI (HO q Hq) Ev).
    specialize (IH (fun r Hr => Hl r (or_intror Hr)) w1 HI1).
    destruct (mapM evalc l w1) as [[] w'|w'|]; [|eapply Rs_cons; eassumption|exact IH].
    destruct IH as [IH1 IH2]. split; [eapply Rs_cons; eassumption|exact IH2].
Qed.

Lemma LoopInv_Ov p q w w0 : In q (children c p) -> LoopInv StopT p w -> Ov q w w0 -> LoopInv StopT p w0.
Proof.
  intros Hq (HC & HS & E & HA & HH) HO. destruct (children_child _ _ _ Hq) as [i Hi].
  destruct HO as [[_ ->]|(N1 & N2 & ->)]; [exact (conj HC (conj HS (conj E (conj HA HH))))|].
  assert (Hn : forall r, r = p \/ sbelow r p -> r <> q).
  { intros r [->|Hr]; subst q; intros X; [symmetry in X; apply child_neq in X; exact X|].
    subst r. apply sbelow_length in Hr. simpl in Hr. lia. }
  assert (St : star c (w, None) (w_set q StopT w, None)).
  { apply star_one, P_override; [exact N1|exact N2|discriminate|apply HS|].
    right; left. split; [reflexivity|]. subst q. split; [discriminate|exact E]. }
  split; [eapply CountInv_star; eassumption|].
  split. { intros r. destruct (path_dec r q) as [->|Hr]; [rewrite st_w_set; apply settled_other; discriminate|rewrite heap_w_set_other by exact Hr; apply HS]. }
  split; [rewrite heap_w_set_other by (apply Hn; auto); exact E|].
  split; [|eapply HL_star; eassumption].
  intros y Hy. rewrite heap_w_set_other by (apply Hn; auto). apply HA; exact Hy.
Qed.

Lemma stops_der evalc p : (forall q, In q (children c p) -> EvalOK c evalc q) ->
  (forall q, In q (children c p) -> EvalDer evalc q) ->
  forall l, (forall q, In q l -> In q (children c p)) -> forall w, LoopInv StopT p w ->
  match mapM (fun q => override c q ;;; evalc q) l w with
  | Ok _ w' => Stops p l w true w' /\ LoopInv StopT p w'
  | Exit w' => Stops p l w false w'
  | NoFuel => False
  end.
Proof.
  intros HO HD l; induction l as [|q l IH]; intros Hl w HI; cbn [mapM].
  - cbn. split; [constructor|exact HI].
  - assert (Hq := Hl q (or_introl eq_refl)).
    destruct (override_Ov q w) as (w0 & E0 & H0).
    assert (HI0 := LoopInv_Ov p q w w0 Hq HI H0).
    assert (X := HD q Hq w0 (LoopInv_GE StopT p q w0 (or_intror eq_refl) Hq HI0)).
    assert (Ep : st (heap w p) = StopT) by apply HI.
    unfold seqm, bind. rewrite E0. destruct (evalc q w0) as [[] w1|w1|] eqn:Ev; [|eapply Ss_exit; eassumption|exact X].
    assert (HI1 := LoopInv_eval evalc StopT p q w0 w1 (or_intror eq_refl) Hq HI0 (HO q Hq) Ev).
    specialize (IH (fun r Hr => Hl r (or_intror Hr)) w1 HI1). unfold seqm, bind in IH.
    destruct (mapM _ l w1) as [[] w'|w'|]; [|eapply Ss_cons; eassumption|exact IH].
    destruct IH as [IH1 IH2]. split; [eapply Ss_cons; eassumption|exact IH2].
Qed.

(** Steps inside one element keep [GD]. *)
Lemma GD_step p w w' s : GD p w -> star c (w, None) (w', None) -> fr (region p) w w' -> SettledX p w' ->
  st (heap w' p) = s -> StartPre c p w' ->
  (s = EndT -> composite p -> forall q, In q (children c p) -> st (heap w' q) = Complete) -> GD p w'.
Proof.
  intros (HC & HX & HP & HSP & HA & HH & HE) St Fr HX' E HSP' HE'.
  split; [eapply CountInv_star; eassumption|]. split; [exact HX'|]. split; [eapply parent_ok_fr; eassumption|].
  split; [exact HSP'|]. split; [eapply Anc_fr; eassumption|]. split; [eapply HL_star; eassumption|].
  rewrite E. exact HE'.
Qed.

Lemma StartPre_no p w : st (heap w p) <> StartT -> StartPre c p w.
Proof. intros H _ _ X; contradiction. Qed.

Lemma dispatch_der evalc p : 
  (composite p -> forall q, In q (children c p) -> EvalOK c evalc q) ->
  (composite p -> forall q, In q (children c p) -> EvalDer evalc q) ->
  forall n w, need c p (heap w p) <= n -> GD p w ->
  match dispatch c env evalc n p w with Ok _ w' => Disp p w true w' | Exit w' => Disp p w false w' | NoFuel => False end.
Proof.
  intros HO HD; induction n as [|n IH]; intros w Hn HG.
  { assert (H := need_pos c p (heap w p)); lia. }
  assert (HG' := HG). destruct HG' as (HC & HX & HPO & HSP & HA & HH & HEnd).
  cbn [dispatch]. unfold bind at 1, get at 1.
  destruct (st (heap w p)) eqn:E.
  - (* Standby *)
    destruct (start_trigger_Q p w) as (b & w1 & Eq & HQ & Hh). unfold bind at 1. rewrite Eq.
    assert (St1 : star c (w, None) (w1, None)) by (inversion HQ; subst; [apply star_one, P_ask|apply star_refl]).
    assert (Fr1 : fr (region p) w w1) by (intros r _; rewrite Hh; reflexivity).
    destruct b; [|apply D_wait; assumption].
    assert (HT : trig_ok w1 p).
    { intros K. inversion HQ; subst; [eexists; reflexivity|destruct K; contradiction]. }
    assert (E1 : st (heap w1 p) = Standby) by (rewrite Hh; exact E).
    assert (HX1 : SettledX p w1) by (intros r Hr; rewrite Hh; apply HX; exact Hr).
    assert (HP1 := parent_ok_fr _ _ _ Fr1 HPO).
    assert (TS := transition_start_res c p w1 HP1 E1 HT HX1).
    unfold bind. destruct (transition_to c p StartT w1) as [t w2|w2|] eqn:ET; cbn [res] in TS; [| |exact TS].
    2:{ exfalso. destruct (kind_eqb (kind_of p) KEvent) eqn:KE.
        - assert (K : kind_of p = KEvent) by (destruct (kind_of p); try discriminate; reflexivity).
          rewrite (transition_to_event_start c p w1 K E1) in ET. destruct (_ && _); discriminate.
        - assert (K : kind_of p <> KEvent) by (intros K; rewrite K in KE; discriminate).
          rewrite transition_to_plain in ET by (left; exact K). discriminate. }
    destruct TS as (St2 & Fr2 & [(-> & -> & HSP2)|(-> & -> & K)]).
    + eapply (fun X => match dispatch c env evalc n p (w_set p StartT w1) as o return
        (match o with Ok _ w' => Disp p (w_set p StartT w1) true w' | Exit w' => Disp p (w_set p StartT w1) false w' | NoFuel => False end ->
         match o with Ok _ w' => Disp p w true w' | Exit w' => Disp p w false w' | NoFuel => False end) with
        | Ok _ w' => fun H => D_start p w w1 true w' HG E HQ H
        | Exit w' => fun H => D_start p w w1 false w' HG E HQ H
        | NoFuel => fun H => H end X).
      apply IH.
      * unfold need in Hn |- *. rewrite E in Hn. rewrite st_w_set, cnt_w_set, Hh. lia.
      * apply (GD_step p w _ StartT HG); [eapply star_trans; eassumption|eapply fr_trans; eassumption|apply SettledX_set; exact HX1|apply st_w_set|exact HSP2|discriminate].
    + cbn [ret]. rewrite (transition_to_event_start c p w1 K E1) in ET.
      destruct (_ && _) eqn:B; [|discriminate]. apply andb_true_iff in B. destruct B as [B1 B2].
      assert (Pr : prio c p = Skip) by (destruct (prio c p); try discriminate; reflexivity).
      apply Nat.ltb_lt in B2. unfold running_events in B2.
      destruct (filter _ (children c (tl p))) as [|r l] eqn:Fl; [simpl in B2; lia|].
      assert (Hr : In r (filter (fun e => state_eqb (st (heap w1 e)) Running) (children c (tl p)))) by (rewrite Fl; left; reflexivity).
      apply filter_In in Hr. destruct Hr as [Hr1 Hr2]. apply state_eqb_spec in Hr2. rewrite Hh in Hr2.
      apply D_skip with r; try assumption. intros ->. congruence.
  - (* StartT *)
    assert (SH := start_hook_H p w). assert (SR := start_hook_res c env p w HPO E HX).
    unfold seqm at 1, bind at 1. destruct (start_hook c env p w) as [[] w1|w1|]; [|apply D_throw; assumption|exact SH].
    cbn [res] in SR. destruct SR as (St1 & Fr1 & Hcnt & HX1 & Hgs & Hch & Hsib).
    assert (HP1 := parent_ok_fr _ _ _ Fr1 HPO).
    assert (HCO : count_ok c w1 p).
    { unfold count_ok; rewrite Hcnt. apply (CountInv_fresh c p w None HC E). }
    assert (HR : star c (w1, start_ghost c p) (w_inc p (w_set p Running w1), None)).
    { apply star_one, P_run; [exact HP1| |exact HCO|exact Hch|].
      2:{ intros K Hsk q Hq Hn'. rewrite (Hsib K); [apply (HSP K Hsk E q Hq Hn')|congruence|].
          apply children_child in Hq; destruct Hq as [i ->]. apply kind_len_event. apply kind_len_event in K. destruct p; simpl in *; lia. }
      destruct Hgs as [[H1 H2]|(H1 & H2 & H3)].
      - left. split; [exact H1|split; [exact H2|intros K; eapply start_ghost_none; eassumption]].
      - right. destruct (start_ghost_some _ _ _ H1) as (_ & K & Pr). split; [exact H1|split; [exact H2|split; [exact K|split; [exact Pr|exact H3]]]]. }
    unfold bind at 1. rewrite transition_to_plain by (right; discriminate). unfold seqm, bind at 1, inc_count.
    match goal with |- context [dispatch c env evalc n p ?X] => change X with (w_inc p (w_set p Running w1)) end.
    assert (X := IH (w_inc p (w_set p Running w1))).
    destruct (dispatch c env evalc n p (w_inc p (w_set p Running w1))) as [[] w'|w'|];
      [eapply D_begin; [exact HG|exact E|exact SH|]|eapply D_begin; [exact HG|exact E|exact SH|]|].
    all: apply X.
    all: try (unfold need in Hn |- *; rewrite E in Hn; cbn; rewrite !upd_same; cbn; rewrite Hcnt; lia).
    all: apply (GD_step p w _ Running HG); [eapply star_trans; eassumption
         |eapply fr_trans; [exact Fr1|]; eapply fr_trans; [apply fr_w_set, region_self|apply fr_w_inc, region_self]
         |intros q Hq; cbn; rewrite !upd_other by exact Hq; apply HX1; assumption
         |cbn; rewrite !upd_same; reflexivity
         |apply StartPre_no; cbn; rewrite !upd_same; discriminate|discriminate].
  - (* Running *)
    assert (HSt : Settled w) by (eapply Settled_X; [rewrite E; apply settled_other; discriminate|exact HX]).
    assert (HR : match run_hook c env evalc p w with
      | Ok _ w1 => RunH p w true w1 /\ star c (w, None) (w1, None) /\ fr (region p) w w1 /\ SettledX p w1 /\ heap w1 p = heap w p
      | Exit w1 => RunH p w false w1 | NoFuel => False end).
    { assert (RR := run_hook_res c env evalc p w HPO HC HSt E (fun K1 K2 => HO (conj K1 K2))).
      assert (Y : match run_hook c env evalc p w with
          | Ok _ w1 => RunH p w true w1 | Exit w1 => RunH p w false w1 | NoFuel => False end).
      { destruct (composite_dec p) as [K|K].
        - assert (LI : LoopInv Running p w) by (exact (conj HC (conj HSt (conj E (conj HA HH))))).
          assert (Z := runs_der evalc p (HO K) (HD K) (children c p) (fun q H => H) w LI).
          assert (EQ : run_hook c env evalc p w = mapM evalc (children c p) w).
          { unfold run_hook. destruct K as [K1 K2]. destruct (kind_of p); congruence. }
          rewrite EQ. destruct (mapM evalc (children c p) w) as [[] w1|w1|]; [apply R_all; [exact K|apply Z]|apply R_all; assumption|exact Z].
        - assert (EQ : run_hook c env evalc p w = action_run env p w).
          { unfold run_hook. destruct K as [K|K]; rewrite K; reflexivity. }
          rewrite EQ. unfold action_run, seqm, bind, emit, ask.
          assert (Z := R_action p w (env (tick w)) K). unfold w_ask, w_emit in Z. cbn in Z |- *.
          destruct (env (tick w)); cbn in *; exact Z. }
      destruct (run_hook c env evalc p w) as [[] w1|w1|]; [|exact Y|exact Y].
      cbn [res] in RR. destruct RR as (A & B & C). split; [exact Y|split; [exact A|split; [|split; [intros q _; apply C|apply B, sbelow_irrefl]]]].
      eapply fr_weaken; [|exact B]. intros q Hq; left; apply sbelow_below; exact Hq. }
    unfold seqm, bind at 1. destruct (run_hook c env evalc p w) as [[] w1|w1|]; [|apply D_runx; assumption|exact HR].
    destruct HR as (HR & St1 & Fr1 & HX1 & Hp1).
    destruct (accomplished_Acc p w1) as (b & w2 & Ea & HAcc & Hh2). unfold bind at 1. rewrite Ea.
    assert (E1 : st (heap w1 p) = Running) by (rewrite Hp1; exact E).
    assert (Fr2 : fr (region p) w1 w2) by (intros r _; rewrite Hh2; reflexivity).
    destruct b; [|eapply D_stay; eassumption].
    assert (Hdone : done_ok c w2 p).
    { unfold done_ok. inversion HAcc as [w3 b3 K|w3 K Hall|]; subst.
      - destruct K as [K|K]; rewrite K; eexists; reflexivity.
      - destruct K as [K1 K2]. destruct (kind_of p); try congruence; exact Hall. }
    assert (St2 : star c (w1, None) (w2, None)) by (inversion HAcc; subst; [apply star_one, P_ask|apply star_refl]).
    assert (HP2 := parent_ok_fr _ _ _ (fr_trans _ _ _ _ Fr1 Fr2) HPO).
    assert (St3 : star c (w2, None) (w_set p EndT w2, None)).
    { apply star_one, P_end; [exact HP2|rewrite Hh2; exact E1|exact Hdone]. }
    unfold bind. rewrite transition_to_plain by (right; discriminate).
    assert (X := IH (w_set p EndT w2)).
    destruct (dispatch c env evalc n p (w_set p EndT w2)) as [[] w'|w'|];
      [eapply D_end; [exact HG|exact E|exact HR|exact E1|exact HAcc|]|eapply D_end; [exact HG|exact E|exact HR|exact E1|exact HAcc|]|].
    all: apply X.
    all: try (unfold need in Hn |- *; rewrite E in Hn; rewrite st_w_set, cnt_w_set, Hh2, Hp1; lia).
    all: apply (GD_step p w _ EndT HG); [eapply star_trans; [exact St1|eapply star_trans; eassumption]
         |eapply fr_trans; [exact Fr1|]; eapply fr_trans; [exact Fr2|apply fr_w_set, region_self]
         |apply SettledX_set; intros q Hq; rewrite Hh2; apply HX1; exact Hq
         |apply st_w_set
         |apply StartPre_no; rewrite st_w_set; discriminate|].
    all: intros _ [K1 K2] q Hq; destruct (children_child _ _ _ Hq) as [i Hi];
         rewrite heap_w_set_other by (subst q; apply child_neq);
         unfold done_ok in Hdone; destruct (kind_of p); try congruence; apply Hdone; exact Hq.
  - (* EndT *)
    unfold bind, get. rewrite transition_to_plain by (right; destruct (Nat.ltb _ _); discriminate).
    set (s' := if Nat.ltb (cnt (heap w p)) (maxc c p) then Standby else Complete).
    assert (Hs' : s' = Standby \/ s' = Complete) by (unfold s'; destruct (Nat.ltb _ _); auto).
    assert (HR : star c (w, None) (w_set p s' w, None)) by (apply star_one; apply (P_next c w p HPO E)).
    assert (X := IH (w_set p s' w)).
    destruct (dispatch c env evalc n p (w_set p s' w)) as [[] w'|w'|];
      [eapply D_next; [exact HG|exact E|]|eapply D_next; [exact HG|exact E|]|].
    all: apply X.
    all: try (unfold need in Hn |- *; rewrite E in Hn; rewrite st_w_set, cnt_w_set; unfold s';
      destruct (Nat.ltb_spec (cnt (heap w p)) (maxc c p)); lia).
    all: apply (GD_step p w _ s' HG); [exact HR|apply fr_w_set, region_self|apply SettledX_set; exact HX|apply st_w_set
         |apply StartPre_no; rewrite st_w_set; destruct Hs' as [-> | ->]; discriminate
         |destruct Hs' as [-> | ->]; discriminate].
  - (* Complete *) apply D_done; assumption.
  - (* SkipT *) apply D_skipT; assumption.
  - (* StopT *)
    destruct (accomplished_Acc p w) as (b & w1 & Ea & HAcc & Hh). unfold bind at 1. rewrite Ea.
    assert (Fr1 : fr (region p) w w1) by (intros r _; rewrite Hh; reflexivity).
    assert (St1 : star c (w, None) (w1, None)) by (inversion HAcc; subst; [apply star_one, P_ask|apply star_refl|apply star_refl]).
    assert (HP1 := parent_ok_fr _ _ _ Fr1 HPO).
    assert (E1 : st (heap w1 p) = StopT) by (rewrite Hh; exact E).
    assert (HX1 : SettledX p w1) by (intros q Hq; rewrite Hh; apply HX; assumption).
    assert (HC1 := CountInv_star _ _ _ St1 HC).
    assert (HS1 : Settled w1) by (eapply Settled_X; [rewrite E1; apply settled_other; discriminate|exact HX1]).
    assert (FIN : forall w2, star c (w1, None) (w_set p Complete w2, None) -> fr (region p) w1 w2 -> SettledX p w2 ->
      match dispatch c env evalc n p (w_set p Complete w2) with
      | Ok _ w' => Disp p (w_set p Complete w2) true w' | Exit w' => Disp p (w_set p Complete w2) false w' | NoFuel => False end).
    { intros w2 St2 Fr2 HX2. apply IH.
      - unfold need in Hn |- *. rewrite E in Hn. rewrite st_w_set. lia.
      - apply (GD_step p w _ Complete HG); [eapply star_trans; eassumption
          |eapply fr_trans; [exact Fr1|]; eapply fr_trans; [exact Fr2|apply fr_w_set, region_self]
          |apply SettledX_set; exact HX2|apply st_w_set|apply StartPre_no; rewrite st_w_set; discriminate|discriminate]. }
    destruct b.
    + unfold seqm, bind, ret. rewrite transition_to_plain by (right; discriminate).
      assert (X := FIN w1 (star_one c _ _ (P_complete c w1 p HP1 E1)) (fr_refl _ _) HX1).
      destruct (dispatch c env evalc n p (w_set p Complete w1)) as [[] w'|w'|];
        [eapply D_stopped; eassumption|eapply D_stopped; eassumption|exact X].
    + assert (HSt : match stop_hook c evalc p w1 with
        | Ok _ w2 => StopH p w1 true w2 /\ (kind_of p <> KAction -> st (heap w2 p) = StopT) /\
            star c (w1, None) (w_set p Complete w2, None) /\ fr (region p) w1 w2 /\ SettledX p w2
        | Exit w2 => StopH p w1 false w2 | NoFuel => False end).
      { destruct (kind_eqb (kind_of p) KAction) eqn:KA.
        - assert (K : kind_of p = KAction) by (destruct (kind_of p); try discriminate; reflexivity).
          unfold stop_hook. rewrite K. unfold action_stop. change (match Ok tt (w_astop p w1) with
             | Ok _ w2 => StopH p w1 true w2 /\ (KAction <> KAction -> st (heap w2 p) = StopT) /\
                star c (w1, None) (w_set p Complete w2, None) /\ fr (region p) w1 w2 /\ SettledX p w2
             | Exit w2 => StopH p w1 false w2 | NoFuel => False end).
          split; [apply S_action; exact K|]. split; [congruence|]. split; [apply star_one, P_astop; assumption|].
          split; [apply fr_w_astop, region_self|].
          intros r Hr. cbn. rewrite upd_other by exact Hr. apply HS1.
        - assert (K : kind_of p <> KAction) by (intros K; rewrite K in KA; discriminate).
          assert (SR := stop_hook_res c evalc p w1 HP1 HC1 HS1 E1 K (fun K1 K2 => HO (conj K1 K2))).
          assert (Y : match stop_hook c evalc p w1 with
            | Ok _ w2 => StopH p w1 true w2 | Exit w2 => StopH p w1 false w2 | NoFuel => False end).
          { destruct (kind_eqb (kind_of p) KInit) eqn:KI.
            - assert (KI' : kind_of p = KInit) by (destruct (kind_of p); try discriminate; reflexivity).
              unfold stop_hook. rewrite KI'. cbn. apply S_init; exact KI'.
            - assert (KC : composite p) by (split; [exact K|intros KI'; rewrite KI' in KI; discriminate]).
              assert (LI : LoopInv StopT p w1).
              { split; [exact HC1|split; [exact HS1|split; [exact E1|split; [eapply Anc_fr; eassumption|eapply HL_star; eassumption]]]]. }
              assert (Z := stops_der evalc p (HO KC) (HD KC) (children c p) (fun q H => H) w1 LI).
              assert (EQ : stop_hook c evalc p w1 = mapM (fun q => override c q ;;; evalc q) (children c p) w1).
              { unfold stop_hook. destruct KC as [K1 K2]. destruct (kind_of p); congruence. }
              rewrite EQ. destruct (mapM _ (children c p) w1) as [[] w2|w2|]; [apply S_all; [exact KC|apply Z]|apply S_all; assumption|exact Z]. }
          destruct (stop_hook c evalc p w1) as [[] w2|w2|]; [|exact Y|exact Y].
          cbn [res] in SR. destruct SR as (St2 & Fr2 & HS2 & E2).
          assert (Fr2' : fr (region p) w1 w2) by (eapply fr_weaken; [|exact Fr2]; intros q Hq; left; exact Hq).
          split; [exact Y|]. split; [intros _; exact E2|]. split; [|split; [exact Fr2'|intros q _; apply HS2]].
          eapply star_step; [exact St2|]. apply P_complete; [exact (parent_ok_fr _ _ _ Fr2' HP1)|exact E2]. }
      unfold seqm, bind at 1. destruct (stop_hook c evalc p w1) as [[] w2|w2|]; [|eapply D_stopx; eassumption|exact HSt].
      destruct HSt as (SH & Ek & St2 & Fr2 & HX2). unfold bind. rewrite transition_to_plain by (right; discriminate).
      assert (X := FIN w2 St2 Fr2 HX2).
      destruct (dispatch c env evalc n p (w_set p Complete w2)) as [[] w'|w'|];
        [eapply D_stop; eassumption|eapply D_stop; eassumption|exact X].
Qed.

Lemma evaluate_der h : forall p, length p <= 6 -> 7 <= h + length p -> EvalDer (evaluate c env h) p.
Proof.
  induction h as [|h IH]; intros p Hl Hh w (HC & HS & HPO & HA & HH); [lia|].
  assert (ER := evaluate_res c env (S h) p Hl Hh w HC HS HPO).
  cbn [evaluate] in ER |- *.
  destruct (stop_trigger_Q p w) as (b & w1 & Eq & HQ & Hh1).
  assert (St1 : star c (w, None) (w1, None)) by (inversion HQ; subst; [apply star_one, P_ask|apply star_refl]).
  assert (Fr1 : fr (region p) w w1) by (intros r _; rewrite Hh1; reflexivity).
  assert (HS1 : Settled w1) by (intros q; rewrite Hh1; apply HS).
  assert (HO : exists w2, (if b : bool then override c p else ret tt) w1 = Ok tt w2 /\
     (b = true -> Ov p w1 w2) /\ (b = false -> w2 = w1) /\ star c (w1, None) (w2, None) /\
     fr (region p) w1 w2 /\ Settled w2).
  { destruct b.
    - destruct (override_Ov p w1) as (w2 & E2 & O2). exists w2. split; [exact E2|]. split; [intros _; exact O2|].
      split; [discriminate|]. destruct O2 as [[_ ->]|(N1 & N2 & ->)]; [split; [apply star_refl|split; [apply fr_refl|exact HS1]]|].
      split; [|split; [apply fr_w_set, region_self|]].
      + apply star_one, P_override; [exact N1|exact N2|discriminate|apply HS1|].
        left. split; [reflexivity|]. inversion HQ as [w3 b3 K|]; subst. eexists; split; [reflexivity|exact K].
      + intros q. destruct (path_dec q p) as [->|Hn]; [rewrite st_w_set; apply settled_other; discriminate|rewrite heap_w_set_other by exact Hn; apply HS1].
    - exists w1. split; [reflexivity|]. split; [discriminate|]. split; [reflexivity|].
      split; [apply star_refl|split; [apply fr_refl|exact HS1]]. }
  destruct HO as (w2 & E2 & HO1 & HO2 & St2 & Fr2 & HS2).
  unfold bind at 1 in ER; unfold bind at 1. rewrite Eq in *.
  unfold seqm, bind in ER; unfold seqm, bind. rewrite E2 in *.
  assert (HG : GD p w2).
  { assert (St := star_trans _ _ _ _ St1 St2). assert (Fr := fr_trans _ _ _ _ Fr1 Fr2).
    split; [eapply CountInv_star; eassumption|]. split; [intros q _; apply HS2|].
    split; [eapply parent_ok_fr; eassumption|].
    split. { intros Kp _ X. exfalso. apply (proj2 (HS2 p)); [intros [?|?]; congruence|exact X]. }
    split; [eapply Anc_fr; eassumption|]. split; [eapply HL_star; eassumption|].
    intros X. exfalso. apply (proj1 (HS2 p)). exact X. }
  assert (HL5 : composite p -> length p <= 5).
  { intros [K _]. destruct (le_lt_dec 6 (length p)) as [H|H]; [apply kind_len_action in H; contradiction|lia]. }
  assert (X := dispatch_der (evaluate c env h) p
    ltac:(intros K q Hq; destruct (children_child _ _ _ Hq) as [i ->]; specialize (HL5 K); apply evaluate_res; simpl; lia)
    ltac:(intros K q Hq; destruct (children_child _ _ _ Hq) as [i ->]; specialize (HL5 K); apply IH; simpl; lia)
    (fuel c p) w2 (need_fuel c p (heap w2 p)) HG).
  destruct (dispatch c env (evaluate c env h) (fuel c p) p w2) as [[] w'|w'|]; cbn [res] in ER.
  - destruct ER as (St & Fr & EP). assert (HH' := HL_star _ _ _ _ St HH).
    apply E_eval with (b := b) (w1 := w1) (w2 := w2);
      [exact (conj HC (conj HS (conj HPO (conj HA HH))))|exact HQ|exact HO1|exact HO2|exact X|intros _; exact EP|exact Fr|exact HH'].
  - destruct ER as ((gx & St) & Fr). assert (HH' := HL_star _ _ _ _ St HH).
    apply E_eval with (b := b) (w1 := w1) (w2 := w2);
      [exact (conj HC (conj HS (conj HPO (conj HA HH))))|exact HQ|exact HO1|exact HO2|exact X|discriminate|exact Fr|exact HH'].
  - exact X.
Qed.

Theorem frame_der w : CountInv c (w, None) -> Settled w -> HL w ->
  match frame c env w with Ok _ w' => Eval [] w true w' | Exit w' => Eval [] w false w' | NoFuel => False end.
Proof.
  intros HC HS HH. unfold frame. apply evaluate_der; [simpl; lia|simpl; lia|].
  split; [exact HC|split; [exact HS|split; [left; reflexivity|split; [|exact HH]]]].
  intros y Hy. apply sbelow_length in Hy. simpl in Hy; lia.
Qed.

End Derive.

Scheme Eval_m := Minimality for Eval Sort Prop
with Disp_m := Minimality for Disp Sort Prop
with RunH_m := Minimality for RunH Sort Prop
with Runs_m := Minimality for Runs Sort Prop
with StopH_m := Minimality for StopH Sort Prop
with Stops_m := Minimality for Stops Sort Prop.
Combined Scheme eval_induction from Eval_m, Disp_m, RunH_m, Runs_m, StopH_m, Stops_m.
