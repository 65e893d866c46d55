(** Progress of the storyboard: what a normally returned frame has done for every element, and that
    answers take effect at once.  Inductions over the derivation of an evaluation. *)
From Coq Require Import List Arith Bool Lia.
From Verif Require Import M_Storyboard S_Storyboard P_Storyboard P_StoryboardInv P_StoryboardEval P_StoryboardStop.
Import ListNotations.

Section Progress.
Variable c : config.

(** ** Logs grow; elsewhere in the tree only stops happen *)
Definition SideH (p : path) (w w' : world) : Prop :=
  forall r, ~ below p r -> heap w' r = heap w r \/ st (heap w' r) = StopT.

Definition Bas (p : path) (w w' : world) : Prop := ext (log w) (log w') /\ SideH p w w'.

Lemma Bas_refl p w : Bas p w w.
Proof. split; [apply ext_refl|intros r _; auto]. Qed.
Lemma Bas_trans p a b d : Bas p a b -> Bas p b d -> Bas p a d.
Proof.
  intros [A1 A2] [B1 B2]. split; [eapply ext_trans; eassumption|]. intros r Hr.
  destruct (B2 r Hr) as [E|E]; [rewrite E; apply A2; exact Hr|right; exact E].
Qed.
Lemma Bas_set p q s w : below p q \/ s = StopT -> Bas p w (w_set q s w).
Proof.
  intros H. split; [apply ext_cons|]. intros r Hr. destruct (path_dec r q) as [->|Hn].
  - destruct H as [H|H]; [contradiction|right; rewrite H; apply st_w_set].
  - left. apply heap_w_set_other; exact Hn.
Qed.
Lemma Bas_ask p q b w : Bas p w (w_ask q b w).
Proof. split; [apply ext_cons|intros r _; auto]. Qed.
Lemma Bas_emit p e w : Bas p w (w_emit e w).
Proof. split; [apply ext_cons|intros r _; auto]. Qed.
Lemma Bas_inc p w : Bas p w (w_inc p w).
Proof. split; [apply ext_refl|intros r Hr; left; cbn; apply upd_other; intros ->; apply Hr, below_self]. Qed.
Lemma Bas_astop p w : Bas p w (w_astop p w).
Proof. split; [apply ext_refl|intros r Hr; left; cbn; apply upd_other; intros ->; apply Hr, below_self]. Qed.
Lemma Bas_child i p w w' : Bas (i :: p) w w' -> Bas p w w'.
Proof. intros [A B]. split; [exact A|]. intros r Hr. apply B. intros Hb. apply Hr, sbelow_below. eapply below_child; exact Hb. Qed.
Lemma Bas_Ov p q w w' : Ov q w w' -> Bas p w w'.
Proof. intros [[_ ->]|(_ & _ & ->)]; [apply Bas_refl|apply Bas_set; auto]. Qed.
Lemma Bas_OvL p ch w w' : OvL ch w w' -> Bas p w w'.
Proof. induction 1 as [w|q l w w1 w' H _ IH]; [apply Bas_refl|eapply Bas_trans; [eapply Bas_Ov; exact H|exact IH]]. Qed.
Lemma Bas_Force p ch : (forall q, In q ch -> In q (children c p)) -> forall w, Bas p w (Force ch w).
Proof.
  induction ch as [|q ch IH]; intros Hl w; [apply Bas_refl|]. cbn [Force fold_left].
  eapply Bas_trans; [|apply IH; intros r Hr; apply Hl; right; exact Hr].
  apply Bas_set. left. destruct (children_child _ _ _ (Hl q (or_introl eq_refl))) as [i ->]. exists [i]; reflexivity.
Qed.
Lemma Bas_StartH p w ok w' : StartH c p w ok w' -> Bas p w w'.
Proof.
  destruct 1 as [w b K|w K|w w1 K Ho Hn|w K1 K2 K3 K4].
  - eapply Bas_trans; [apply Bas_emit|apply Bas_ask].
  - apply Bas_Force; auto.
  - eapply Bas_trans; [|apply Bas_Force; auto]. destruct (prio c p) eqn:P;
      [eapply Bas_OvL; apply Ho; reflexivity|rewrite Hn by discriminate; apply Bas_refl|rewrite Hn by discriminate; apply Bas_refl].
  - apply Bas_refl.
Qed.
Lemma Bas_StopQ p w b w' : StopQ p w b w' -> Bas p w w'.
Proof. destruct 1; [apply Bas_ask|apply Bas_refl]. Qed.
Lemma Bas_StartQ p w b w' : StartQ p w b w' -> Bas p w w'.
Proof. destruct 1; [apply Bas_ask|apply Bas_refl]. Qed.
Lemma Bas_Acc p w b w' : Acc c p w b w' -> Bas p w w'.
Proof. destruct 1; [apply Bas_ask|apply Bas_refl|apply Bas_refl]. Qed.

Lemma eval_Bas :
  (forall p w ok w', Eval c p w ok w' -> Bas p w w') /\
  (forall p w ok w', Disp c p w ok w' -> Bas p w w') /\
  (forall p w ok w', RunH c p w ok w' -> Bas p w w') /\
  (forall p ch w ok w', Runs c p ch w ok w' -> Bas p w w') /\
  (forall p w ok w', StopH c p w ok w' -> Bas p w w') /\
  (forall p ch w ok w', Stops c p ch w ok w' -> Bas p w w').
Proof.
  assert (SELF : forall p s w, Bas p w (w_set p s w)) by (intros; apply Bas_set; left; apply below_self).
  apply (eval_induction c (fun p w _ w' => Bas p w w') (fun p w _ w' => Bas p w w') (fun p w _ w' => Bas p w w')
    (fun p _ w _ w' => Bas p w w') (fun p w _ w' => Bas p w w') (fun p _ w _ w' => Bas p w w')).
  - intros p w b w1 w2 ok w' _ HQ H1 H2 _ IH _ _ _. eapply Bas_trans; [eapply Bas_StopQ; exact HQ|]. eapply Bas_trans; [|exact IH].
    destruct b; [eapply Bas_Ov; apply H1; reflexivity|rewrite H2 by reflexivity; apply Bas_refl].
  - intros p w w1 _ _ HQ. eapply Bas_StartQ; exact HQ.
  - intros p w w1 r _ _ HQ _ _ _ _ _. eapply Bas_trans; [eapply Bas_StartQ; exact HQ|]. eapply Bas_trans; apply SELF.
  - intros p w w1 ok w' _ _ HQ _ IH. eapply Bas_trans; [eapply Bas_StartQ; exact HQ|]. eapply Bas_trans; [apply SELF|exact IH].
  - intros p w w1 ok w' _ _ HS _ IH. eapply Bas_trans; [eapply Bas_StartH; exact HS|]. eapply Bas_trans; [apply SELF|].
    eapply Bas_trans; [apply Bas_inc|exact IH].
  - intros p w w1 _ _ HS. eapply Bas_StartH; exact HS.
  - intros p w w1 _ _ _ IH. exact IH.
  - intros p w w1 w2 _ _ _ IH _ HA. eapply Bas_trans; [exact IH|eapply Bas_Acc; exact HA].
  - intros p w w1 w2 ok w' _ _ _ IH _ HA _ IH2. eapply Bas_trans; [exact IH|]. eapply Bas_trans; [eapply Bas_Acc; exact HA|].
    eapply Bas_trans; [apply SELF|exact IH2].
  - intros p w ok w' _ _ _ IH. eapply Bas_trans; [apply SELF|exact IH].
  - intros; apply Bas_refl.
  - intros; apply Bas_refl.
  - intros p w w1 ok w' _ _ HA _ IH. eapply Bas_trans; [eapply Bas_Acc; exact HA|]. eapply Bas_trans; [apply SELF|exact IH].
  - intros p w w1 w2 ok w' _ _ HA _ IH _ _ IH2. eapply Bas_trans; [eapply Bas_Acc; exact HA|]. eapply Bas_trans; [exact IH|].
    eapply Bas_trans; [apply SELF|exact IH2].
  - intros p w w1 w2 _ _ HA _ IH. eapply Bas_trans; [eapply Bas_Acc; exact HA|exact IH].
  - intros p w b _. eapply Bas_trans; [apply Bas_emit|apply Bas_ask].
  - intros p w ok w' _ _ IH. exact IH.
  - intros; apply Bas_refl.
  - intros p q l w w1 Hq _ IH. destruct (children_child _ _ _ Hq) as [i ->]. eapply Bas_child; exact IH.
  - intros p q l w w1 ok w' Hq _ IH _ IH2. destruct (children_child _ _ _ Hq) as [i ->].
    eapply Bas_trans; [eapply Bas_child; exact IH|exact IH2].
  - intros; apply Bas_astop.
  - intros; apply Bas_refl.
  - intros p w ok w' _ _ IH. exact IH.
  - intros; apply Bas_refl.
  - intros p q l w w0 w1 Hq _ HO _ IH. destruct (children_child _ _ _ Hq) as [i ->].
    eapply Bas_trans; [eapply Bas_Ov; exact HO|eapply Bas_child; exact IH].
  - intros p q l w w0 w1 ok w' Hq _ HO _ IH _ IH2. destruct (children_child _ _ _ Hq) as [i ->].
    eapply Bas_trans; [eapply Bas_Ov; exact HO|]. eapply Bas_trans; [eapply Bas_child; exact IH|exact IH2].
Qed.

(** ** Running composites have unfinished children; only Events stay in stopTransition *)
Definition Unf (X : path -> Prop) (w : world) : Prop :=
  (forall q, ~ X q -> composite q -> st (heap w q) = Running -> exists r, In r (children c q) /\ st (heap w r) <> Complete) /\
  (forall q, ~ X q -> st (heap w q) = StopT -> kind_of q = KEvent).

Definition sup (p y : path) : Prop := sbelow y p.
Definition supeq (p y : path) : Prop := y = p \/ sbelow y p.

Lemma sup_child i p y : sup (i :: p) y <-> supeq p y.
Proof.
  unfold sup, supeq. split.
  - intros (j & l & E). destruct l as [|k l]; cbn in E; injection E as E1 E2; [left; congruence|right; exists j, l; exact E2].
  - intros [->|(j & l & ->)]; [exists i, []; reflexivity|exists j, (i :: l); reflexivity].
Qed.

Lemma Unf_ext (X Y : path -> Prop) w : (forall q, X q -> Y q) -> Unf X w -> Unf Y w.
Proof. intros H [A B]. split; intros q Hq; [apply A|apply B]; intros Hx; apply Hq, H, Hx. Qed.

Lemma Unf_heap X w w' : (forall q, st (heap w' q) = st (heap w q)) -> Unf X w -> Unf X w'.
Proof.
  intros H [A B]. split.
  - intros q Hq K E. rewrite H in E. destruct (A q Hq K E) as (r & Hr & Er). exists r. rewrite H. auto.
  - intros q Hq E. rewrite H in E. apply (B q Hq E).
Qed.

Lemma Unf_set (X : path -> Prop) x s w : (s = Complete -> x <> [] -> X (tl x)) -> (s = Running -> X x) ->
  (s = StopT -> X x \/ kind_of x = KEvent) -> Unf X w -> Unf X (w_set x s w).
Proof.
  intros H1 H2 H3 [A B]. split.
  - intros q Hq K E. destruct (path_dec q x) as [->|Hn].
    + rewrite st_w_set in E. exfalso. apply Hq, H2, E.
    + rewrite heap_w_set_other in E by exact Hn. destruct (A q Hq K E) as (r & Hr & Er).
      destruct (path_dec r x) as [->|Hx].
      * destruct (children_child _ _ _ Hr) as [i Hi]. exists x. split; [exact Hr|]. rewrite st_w_set. intros ->.
        apply Hq. replace q with (tl x) by (rewrite Hi; reflexivity). apply H1; [reflexivity|rewrite Hi; discriminate].
      * exists r. split; [exact Hr|]. rewrite heap_w_set_other by exact Hx. exact Er.
  - intros q Hq E. destruct (path_dec q x) as [->|Hn].
    + rewrite st_w_set in E. destruct (H3 E); [contradiction|assumption].
    + rewrite heap_w_set_other in E by exact Hn. apply (B q Hq E).
Qed.

Lemma Unf_Ov (X : path -> Prop) q w w' : (X q \/ kind_of q = KEvent) -> Ov q w w' -> Unf X w -> Unf X w'.
Proof. intros H [[_ ->]|(_ & _ & ->)] HU; [exact HU|]. apply Unf_set; auto; discriminate. Qed.

Lemma Unf_OvL (X : path -> Prop) ch w w' : (forall q, In q ch -> kind_of q = KEvent) -> OvL ch w w' -> Unf X w -> Unf X w'.
Proof.
  intros Hl H. induction H as [w|q l w w1 w' H _ IH]; intros HU; [exact HU|].
  apply IH; [intros r Hr; apply Hl; right; exact Hr|]. eapply Unf_Ov; [right; apply Hl; left; reflexivity|exact H|exact HU].
Qed.

Lemma Unf_Force (X : path -> Prop) ch : forall w, Unf X w -> Unf X (Force ch w).
Proof.
  induction ch as [|q ch IH]; intros w HU; [exact HU|]. cbn [Force fold_left]. apply IH.
  apply Unf_set; try discriminate. exact HU.
Qed.

Lemma Unf_StartH X p w ok w' : StartH c p w ok w' -> Unf X w -> Unf X w'.
Proof.
  destruct 1 as [w b K|w K|w w1 K Ho Hn|w K1 K2 K3 K4]; intros HU.
  - eapply Unf_heap; [|exact HU]. reflexivity.
  - apply Unf_Force; exact HU.
  - apply Unf_Force. destruct (prio c p) eqn:P;
      [|rewrite Hn by discriminate; exact HU|rewrite Hn by discriminate; exact HU].
    eapply Unf_OvL; [|apply Ho; reflexivity|exact HU]. intros q Hq. apply children_child in Hq; destruct Hq as [i ->].
    apply kind_len_event. apply kind_len_event in K. destruct p; simpl in *; lia.
  - exact HU.
Qed.

Lemma Unf_StopQ X p w b w' : StopQ p w b w' -> Unf X w -> Unf X w'.
Proof. destruct 1; intros HU; [eapply Unf_heap; [|exact HU]; reflexivity|exact HU]. Qed.
Lemma Unf_StartQ X p w b w' : StartQ p w b w' -> Unf X w -> Unf X w'.
Proof. destruct 1; intros HU; [eapply Unf_heap; [|exact HU]; reflexivity|exact HU]. Qed.
Lemma Unf_Acc X p w b w' : Acc c p w b w' -> Unf X w -> Unf X w'.
Proof. destruct 1; intros HU; [eapply Unf_heap; [|exact HU]; reflexivity|exact HU|exact HU]. Qed.

(** [p] has settled. *)
Lemma Unf_close p w : Unf (supeq p) w ->
  (composite p -> st (heap w p) = Running -> exists r, In r (children c p) /\ st (heap w r) <> Complete) ->
  (st (heap w p) = StopT -> kind_of p = KEvent) -> Unf (sup p) w.
Proof.
  intros [A B] H1 H2. split; intros q Hq; destruct (path_dec q p) as [->|Hn]; auto.
  - apply A. intros [?|?]; contradiction.
  - apply B. intros [?|?]; contradiction.
Qed.

Lemma supeq_tl p : p <> [] -> supeq p (tl p).
Proof. intros H. destruct p as [|i p]; [congruence|]. right. exists i, []; reflexivity. Qed.
Lemma supeq_self p : supeq p p. Proof. left; reflexivity. Qed.

Lemma Unf_self p s w : Unf (supeq p) w -> Unf (supeq p) (w_set p s w).
Proof. apply Unf_set; [intros _ H; apply supeq_tl; exact H|intros _; apply supeq_self|intros _; left; apply supeq_self]. Qed.

Lemma Unf_own (p : path) w w' : (forall q, q <> p -> heap w' q = heap w q) -> Unf (supeq p) w -> Unf (supeq p) w'.
Proof.
  intros H [A B]. split.
  - intros q Hq K E. assert (Hn : q <> p) by (intros ->; apply Hq, supeq_self). rewrite (H q Hn) in E.
    destruct (A q Hq K E) as (r & Hr & Er). assert (Hrp : r <> p).
    { intros ->. apply Hq. destruct (children_child _ _ _ Hr) as [i ->]. right. exists i, []; reflexivity. }
    exists r. split; [exact Hr|rewrite (H r Hrp); exact Er].
  - intros q Hq E. assert (Hn : q <> p) by (intros ->; apply Hq, supeq_self). rewrite (H q Hn) in E. exact (B q Hq E).
Qed.

Lemma eval_Unf :
  (forall p w ok w', Eval c p w ok w' -> ok = true -> Unf (supeq p) w -> Unf (sup p) w') /\
  (forall p w ok w', Disp c p w ok w' -> ok = true -> Unf (supeq p) w -> Unf (sup p) w') /\
  (forall p w ok w', RunH c p w ok w' -> ok = true -> Unf (supeq p) w -> Unf (supeq p) w') /\
  (forall p (ch : list path) w ok w', Runs c p ch w ok w' -> ok = true -> Unf (supeq p) w -> Unf (supeq p) w') /\
  (forall p w ok w', StopH c p w ok w' -> ok = true -> Unf (supeq p) w -> Unf (supeq p) w') /\
  (forall p (ch : list path) w ok w', Stops c p ch w ok w' -> ok = true -> Unf (supeq p) w -> Unf (supeq p) w').
Proof.
  apply (eval_induction c
    (fun p w ok w' => ok = true -> Unf (supeq p) w -> Unf (sup p) w')
    (fun p w ok w' => ok = true -> Unf (supeq p) w -> Unf (sup p) w')
    (fun p w ok w' => ok = true -> Unf (supeq p) w -> Unf (supeq p) w')
    (fun p _ w ok w' => ok = true -> Unf (supeq p) w -> Unf (supeq p) w')
    (fun p w ok w' => ok = true -> Unf (supeq p) w -> Unf (supeq p) w')
    (fun p _ w ok w' => ok = true -> Unf (supeq p) w -> Unf (supeq p) w')).
  - intros p w b w1 w2 ok w' _ HQ H1 H2 _ IH _ _ _ Hok HU. apply IH; [exact Hok|].
    assert (HU1 : Unf (supeq p) w1) by (eapply Unf_StopQ; eassumption).
    destruct b; [|rewrite H2 by reflexivity; exact HU1]. eapply Unf_Ov; [left; apply supeq_self|apply H1; reflexivity|exact HU1].
  - intros p w w1 _ E HQ _ HU. assert (HU1 := Unf_StartQ _ _ _ _ _ HQ HU).
    assert (E1 : st (heap w1 p) = Standby) by (inversion HQ; subst; exact E).
    apply Unf_close; [exact HU1|intros _ X; congruence|intros X; congruence].
  - intros p w w1 r _ E HQ _ _ _ _ _ _ HU. assert (HU1 := Unf_StartQ _ _ _ _ _ HQ HU).
    apply Unf_close; [apply Unf_self, Unf_self, HU1|intros _ X; rewrite st_w_set in X; discriminate|intros X; rewrite st_w_set in X; discriminate].
  - intros p w w1 ok w' _ _ HQ _ IH Hok HU. apply IH; [exact Hok|]. apply Unf_self. eapply Unf_StartQ; eassumption.
  - intros p w w1 ok w' _ _ HS _ IH Hok HU. apply IH; [exact Hok|].
    apply Unf_own with (w := w1); [intros q Hq; cbn; rewrite !upd_other by exact Hq; reflexivity|]. eapply Unf_StartH; eassumption.
  - discriminate.
  - discriminate.
  - intros p w w1 w2 _ _ _ IH E1 HA _ HU. assert (HU1 := IH eq_refl HU). assert (HU2 := Unf_Acc _ _ _ _ _ HA HU1).
    inversion HA as [? ? K|? K Hall|? q K Hq Hn]; subst.
    + apply Unf_close; [exact HU2|intros [K1 K2]; destruct K; contradiction|cbn; congruence].
    + apply Unf_close; [exact HU2| |congruence]. intros _ _. exists q; auto.
  - intros p w w1 w2 ok w' _ _ _ IH E1 HA _ IH2 Hok HU. apply IH2; [exact Hok|]. apply Unf_self. eapply Unf_Acc; [exact HA|]. apply IH; auto.
  - intros p w ok w' _ E _ IH Hok HU. apply IH; [exact Hok|]. apply Unf_self. exact HU.
  - intros p w _ E _ HU. apply Unf_close; [exact HU|intros _ X; congruence|congruence].
  - discriminate.
  - intros p w w1 ok w' _ _ HA _ IH Hok HU. apply IH; [exact Hok|]. apply Unf_self. eapply Unf_Acc; eassumption.
  - intros p w w1 w2 ok w' _ _ HA _ IHS _ _ IH Hok HU. apply IH; [exact Hok|]. apply Unf_self. apply IHS; [reflexivity|]. eapply Unf_Acc; eassumption.
  - discriminate.
  - intros p w b _ _ HU. eapply Unf_heap; [|exact HU]. reflexivity.
  - intros p w ok w' _ _ IH. exact IH.
  - intros; assumption.
  - discriminate.
  - intros p q l w w1 ok w' Hq _ IH _ IH2 Hok HU. destruct (children_child _ _ _ Hq) as [i ->]. apply IH2; [exact Hok|].
    eapply Unf_ext; [intros y Hy; apply (sup_child i p); exact Hy|]. apply IH; [reflexivity|].
    eapply Unf_ext; [|exact HU]. intros y Hy; right; apply sup_child; exact Hy.
  - intros p w K _ HU. apply Unf_own with (w := w); [|exact HU]. intros q Hq. cbn. apply upd_other; exact Hq.
  - intros; assumption.
  - intros p w ok w' _ _ IH. exact IH.
  - intros; assumption.
  - discriminate.
  - intros p q l w w0 w1 ok w' Hq _ HO _ IH _ IH2 Hok HU. destruct (children_child _ _ _ Hq) as [i ->]. apply IH2; [exact Hok|].
    eapply Unf_ext; [intros y Hy; apply (sup_child i p); exact Hy|]. apply IH; [reflexivity|].
    eapply Unf_Ov; [left; apply supeq_self|exact HO|].
    eapply Unf_ext; [|exact HU]. intros y Hy; right; apply sup_child; exact Hy.
Qed.

(** ** Every element that is due is served *)
Definition fresh (w w' : world) (e : entry) : Prop := exists new, log w' = new ++ log w /\ In e new.

Lemma fresh_ext w0 w w' e : ext (log w0) (log w) -> fresh w w' e -> fresh w0 w' e.
Proof. intros (n1 & E1) (n2 & E2 & H). exists (n2 ++ n1). rewrite E2, E1, app_assoc. split; [reflexivity|apply in_or_app; auto]. Qed.
Lemma fresh_later w w1 w' e : ext (log w1) (log w') -> fresh w w1 e -> fresh w w' e.
Proof. intros (n1 & E1) (n2 & E2 & H). exists (n1 ++ n2). rewrite E1, E2, app_assoc. split; [reflexivity|apply in_or_app; auto]. Qed.

Definition stat (w w' : world) (r : path) : Prop :=
  match st (heap w' r) with
  | Standby => (kind_of r = KAct \/ kind_of r = KEvent) /\
      (fresh w w' (Ask (QStartTrigger r) false) \/
       (prio c r = Skip /\ fresh w w' (Ask (QStartTrigger r) true) /\ fresh w w' (Trans r StartT Standby)))
  | Running => ~ composite r -> fresh w w' (ActionRun r) /\ fresh w w' (Ask (QAccomplished r) false)
  | Complete => True
  | StopT => kind_of r = KEvent
  | _ => False
  end.

Definition Prog (p : path) (w w' : world) : Prop :=
  forall r, within c r p -> (forall y, within c y p -> inside c r y -> st (heap w' y) = Running) -> stat w w' r.

Lemma stat_ext w0 w w' r : ext (log w0) (log w) -> stat w w' r -> stat w0 w' r.
Proof.
  intros He. unfold stat. destruct (st (heap w' r)); auto.
  - intros (K & [H|(P & H1 & H2)]); (split; [exact K|]); [left; eapply fresh_ext; eassumption|right].
    split; [exact P|split; eapply fresh_ext; eassumption].
  - intros H K. destruct (H K). split; eapply fresh_ext; eassumption.
Qed.
Lemma stat_later w w1 w' r : ext (log w1) (log w') -> st (heap w' r) = st (heap w1 r) -> stat w w1 r -> stat w w' r.
Proof.
  intros He Es. unfold stat. rewrite Es. destruct (st (heap w1 r)); auto.
  - intros (K & [H|(P & H1 & H2)]); (split; [exact K|]); [left; eapply fresh_later; eassumption|right].
    split; [exact P|split; eapply fresh_later; eassumption].
  - intros H K. destruct (H K). split; eapply fresh_later; eassumption.
Qed.
Lemma Prog_ext p w0 w w' : ext (log w0) (log w) -> Prog p w w' -> Prog p w0 w'.
Proof. intros He H r Hr Hc. eapply stat_ext; [exact He|]. apply H; assumption. Qed.

(** An element that is not running hides what is below it. *)
Lemma Prog_leaf p w w' : st (heap w' p) <> Running -> stat w w' p -> Prog p w w'.
Proof.
  intros Hn Hs r Hr Hc. destruct Hr as [->|Hr]; [exact Hs|]. exfalso. apply Hn, Hc; [left; reflexivity|exact Hr].
Qed.

(** Later evaluations of siblings do not disturb it. *)
Lemma Prog_sibling q x p i w w1 w' : q = x :: p -> i <> x -> Eval c (i :: p) w1 true w' -> Prog q w w1 -> Prog q w w'.
Proof.
  intros Hq Hi HE HP r Hr Hc.
  destruct (proj1 eval_Bas _ _ _ _ HE) as [He Hs].
  assert (Hfr : fr (region (i :: p)) w1 w') by (inversion HE; subst; assumption).
  assert (Hdis : forall y, within c y q -> ~ below (i :: p) y).
  { intros y Hy (l1 & E). assert (Hl : exists l2, y = l2 ++ x :: p).
    { destruct Hy as [->|Hy]; [exists []; exact Hq|]. apply inside_sbelow in Hy. destruct Hy as (j & l2 & Hy).
      exists (l2 ++ [j]). rewrite Hy, Hq, <- app_assoc. reflexivity. }
    destruct Hl as (l2 & E2). rewrite E2 in E.
    assert (EL : length l2 = length l1).
    { apply (f_equal (@length nat)) in E. rewrite !app_length in E. simpl in E. lia. }
    clear -E EL Hi. revert l1 E EL. induction l2 as [|h l2 IH]; intros [|k l1] E EL; cbn in *; try discriminate.
    - injection E as E. congruence.
    - injection E as _ E. injection EL as EL. eapply IH; eassumption. }
  assert (Hsame : forall y, within c y q -> heap w' y = heap w1 y \/ (y = q /\ kind_of q = KEvent /\ st (heap w' y) = StopT)).
  { intros y Hy. destruct (Hs y (Hdis y Hy)) as [E|E]; [auto|].
    destruct (path_dec y q) as [->|Hn].
    - destruct (path_dec q q) as [_|]; [|congruence].
      destruct (kind_eqb (kind_of q) KEvent) eqn:KE.
      + right. split; [reflexivity|split; [destruct (kind_of q); try discriminate; reflexivity|exact E]].
      + left. apply Hfr. intros [Hb|(K & j & Ej)]; [exact (Hdis q (or_introl eq_refl) Hb)|].
        assert (K' : kind_of q = KEvent). { apply kind_len_event. apply kind_len_event in K. rewrite Hq. simpl in *. lia. }
        rewrite K' in KE. discriminate.
    - left. apply Hfr. intros [Hb|(K & j & Ej)]; [exact (Hdis y Hy Hb)|].
      destruct Hy as [->|Hy]; [congruence|]. apply inside_sbelow, sbelow_length in Hy. rewrite Ej, Hq in Hy. simpl in Hy. lia. }
  assert (Hc1 : forall y, within c y q -> inside c r y -> st (heap w1 y) = Running).
  { intros y Hy Hin. assert (E := Hc y Hy Hin). destruct (Hsame y Hy) as [E'|(_ & _ & E')]; [rewrite <- E'; exact E|congruence]. }
  assert (HS1 := HP r Hr Hc1).
  destruct (Hsame r Hr) as [E|(-> & K & E)].
  - eapply stat_later; [exact He|rewrite E; reflexivity|exact HS1].
  - unfold stat. rewrite E. exact K.
Qed.

Lemma eval_Prog :
  (forall p w ok w', Eval c p w ok w' -> ok = true -> Prog p w w') /\
  (forall p w ok w', Disp c p w ok w' -> ok = true -> Prog p w w') /\
  (forall p w ok w', RunH c p w ok w' -> ok = true -> composite p -> forall q, In q (children c p) -> Prog q w w') /\
  (forall p ch w ok w', Runs c p ch w ok w' -> ok = true -> NoDup ch ->
     (forall w0 q, In q (children c p) -> ~ In q ch -> Prog q w0 w -> Prog q w0 w') /\
     (forall q, In q ch -> Prog q w w')) /\
  (forall p (w : world) (ok : bool) (w' : world), StopH c p w ok w' -> True) /\
  (forall p (ch : list path) (w : world) (ok : bool) (w' : world), Stops c p ch w ok w' -> True).
Proof.
  apply (eval_induction c
    (fun p w ok w' => ok = true -> Prog p w w')
    (fun p w ok w' => ok = true -> Prog p w w')
    (fun p w ok w' => ok = true -> composite p -> forall q, In q (children c p) -> Prog q w w')
    (fun p ch w ok w' => ok = true -> NoDup ch ->
     (forall w0 q, In q (children c p) -> ~ In q ch -> Prog q w0 w -> Prog q w0 w') /\
     (forall q, In q ch -> Prog q w w'))
    (fun p w ok w' => True)
    (fun p ch w ok w' => True)).
  - intros p w b w1 w2 ok w' _ HQ H1 H2 _ IH _ _ _ Hok. eapply Prog_ext; [|apply IH; exact Hok].
    eapply ext_trans; [apply (Bas_StopQ p w b w1 HQ)|].
    destruct b; [apply (Bas_Ov p _ _ _ (H1 eq_refl))|rewrite H2 by reflexivity; apply ext_refl].
  - intros p w w1 _ E HQ _. inversion HQ as [? ? K|]; subst.
    apply Prog_leaf; [cbn; congruence|]. unfold stat. cbn [w_ask heap]. rewrite E. split; [exact K|].
    left. exists [Ask (QStartTrigger p) false]. split; [reflexivity|left; reflexivity].
  - intros p w w1 r _ E HQ K P _ _ _ _. apply Prog_leaf; [rewrite st_w_set; discriminate|].
    unfold stat. rewrite st_w_set. split; [auto|]. right. split; [exact P|].
    inversion HQ as [? ? K'|]; subst; [|contradiction]. unfold fresh. cbn [w_set w_ask log heap]. rewrite upd_same. cbn [st].
    split; (eexists [_; _; _]; split; [reflexivity|cbn; auto]).
  - intros p w w1 ok w' _ _ HQ _ IH Hok. eapply Prog_ext; [|apply IH; exact Hok].
    eapply ext_trans; [apply (Bas_StartQ p _ _ _ HQ)|apply ext_cons].
  - intros p w w1 ok w' _ _ HS _ IH Hok. eapply Prog_ext; [|apply IH; exact Hok].
    eapply ext_trans; [apply (Bas_StartH _ _ _ _ HS)|apply ext_cons].
  - discriminate.
  - discriminate.
  - intros p w w1 w2 _ E HR IH E1 HA _. inversion HA as [? ? K|? K Hall|? q K Hq Hn]; subst.
    + intros r Hr _. assert (r = p).
      { destruct Hr as [Hr|Hr]; [exact Hr|]. destruct (inside_inv _ _ _ Hr) as ([K1 K2] & _). destruct K; contradiction. }
      subst r. unfold stat. cbn [w_ask heap]. rewrite E1. intros _.
      inversion HR as [? ? b K' Hb|? ? ? ? [K1 K2]]; subst; [|destruct K; contradiction].
      split; (eexists [_; _; _]; split; [reflexivity|cbn; auto]).
    + intros r Hr Hc. destruct Hr as [->|Hr].
      * unfold stat. rewrite E1. intros X; contradiction.
      * destruct (inside_inv _ _ _ Hr) as (_ & x & Hx & Hw). apply (IH eq_refl K x (proj1 (child_of_in c x p) Hx) r Hw).
        intros y Hy Hin. apply Hc; [|exact Hin]. right. eapply within_child; eassumption.
  - intros p w w1 w2 ok w' _ _ HR _ _ HA _ IH2 Hok. eapply Prog_ext; [|apply IH2; exact Hok].
    eapply ext_trans; [apply (proj1 (proj2 (proj2 eval_Bas)) _ _ _ _ HR)|].
    eapply ext_trans; [apply (Bas_Acc _ _ _ _ HA)|apply ext_cons].
  - intros p w ok w' _ E _ IH Hok. eapply Prog_ext; [|apply IH; exact Hok]. apply ext_cons.
  - intros p w _ E _. apply Prog_leaf; [congruence|]. unfold stat. rewrite E. exact I.
  - discriminate.
  - intros p w w1 ok w' _ _ HA _ IH Hok. eapply Prog_ext; [|apply IH; exact Hok].
    eapply ext_trans; [apply (Bas_Acc _ _ _ _ HA)|apply ext_cons].
  - intros p w w1 w2 ok w' _ _ HA HS _ _ _ IH Hok. eapply Prog_ext; [|apply IH; exact Hok].
    eapply ext_trans; [apply (Bas_Acc _ _ _ _ HA)|].
    eapply ext_trans; [apply (proj1 (proj2 (proj2 (proj2 (proj2 eval_Bas)))) _ _ _ _ HS)|apply ext_cons].
  - discriminate.
  - intros p w b K _ [K1 K2]. destruct K; contradiction.
  - intros p w ok w' _ _ IH Hok K q Hq. apply (IH Hok (children_NoDup c p)); exact Hq.
  - intros p w _ _. split; [auto|intros q []].
  - discriminate.
  - intros p q l w w1 ok w' Hq HE IH _ IH2 Hok ND. destruct (children_child _ _ _ Hq) as [i ->].
    inversion ND as [|? ? Hni ND']; subst. destruct (IH2 eq_refl ND') as [A B].
    assert (Bs := proj1 eval_Bas _ _ _ _ HE).
    split.
    + intros w0 q Hq' Hn HP. apply A; [exact Hq'|intros X; apply Hn; right; exact X|].
      destruct (children_child _ _ _ Hq') as [x Hx].
      eapply Prog_sibling; [exact Hx| |exact HE|exact HP]. intros ->. apply Hn. left. symmetry; exact Hx.
    + intros q [<-|Hin].
      * apply A; [exact Hq|exact Hni|]. apply IH; reflexivity.
      * eapply Prog_ext; [apply Bs|]. apply B; exact Hin.
  - auto.
  - auto.
  - auto.
  - auto.
  - auto.
  - auto.
Qed.

(** ** Answers take effect at once *)
Definition free (l : list entry) : Prop :=
  match l with [] => True | e :: l' => forall e', next_ok e' e l' end.

Fixpoint Adj (l : list entry) : Prop :=
  match l with
  | e' :: ((e :: l') as t) => next_ok e' e l' /\ Adj t
  | _ => True
  end.

Lemma Adj_free e l : free l -> Adj l -> Adj (e :: l).
Proof. destruct l as [|e0 l]; [auto|]. cbn [free]. intros H1 H2. split; [apply H1|exact H2]. Qed.
Lemma Adj_cons e' e l : next_ok e' e l -> Adj (e :: l) -> Adj (e' :: e :: l).
Proof. intros H1 H2. split; assumption. Qed.

Definition plain (s : state) : Prop := s <> EndT.

Lemma free_trans p o s l : s <> EndT -> free (Trans p o s :: l).
Proof. intros H e'. destruct s; cbn; auto. congruence. Qed.

Definition FA (w : world) : Prop := free (log w) /\ Adj (log w).

Lemma FA_set p s w : s <> EndT -> FA w -> FA (w_set p s w).
Proof. intros Hs [A B]. split; [apply free_trans; exact Hs|]. cbn [w_set log]. apply Adj_free; assumption. Qed.

Lemma FA_Ov q w w' : Ov q w w' -> FA w -> FA w'.
Proof. intros [[_ ->]|(_ & _ & ->)] H; [exact H|apply FA_set; [discriminate|exact H]]. Qed.
Lemma FA_OvL ch w w' : OvL ch w w' -> FA w -> FA w'.
Proof. induction 1 as [w|q l w w1 w' H _ IH]; intros HF; [exact HF|]. apply IH. eapply FA_Ov; eassumption. Qed.
Lemma FA_Force ch : forall w, FA w -> FA (Force ch w).
Proof. induction ch as [|q ch IH]; intros w H; [exact H|]. cbn [Force fold_left]. apply IH. apply FA_set; [discriminate|exact H]. Qed.

Definition thrown (w : world) : Prop :=
  (exists p l, log w = Ask (QStartThrows p) true :: ActionStart p :: l) \/
  (exists p l, log w = Ask (QRunThrows p) true :: ActionRun p :: l) \/
  (exists p, st (heap w p) = SkipT).

Definition NX (w : world) (ok : bool) (w' : world) : Prop :=
  Adj (log w') /\ (ok = true -> free (log w')) /\ (ok = false -> thrown w').

Definition pend (p : path) (w : world) : Prop :=
  free (log w) \/ (st (heap w p) = EndT /\ exists o l, log w = Trans p o EndT :: l).

Lemma eval_NX :
  (forall p w ok w', Eval c p w ok w' -> FA w -> NX w ok w') /\
  (forall p w ok w', Disp c p w ok w' -> Adj (log w) -> pend p w -> NX w ok w') /\
  (forall p w ok w', RunH c p w ok w' -> FA w ->
     Adj (log w') /\ (ok = false -> thrown w') /\ 
     (ok = true -> (composite p /\ free (log w')) \/ (~ composite p /\ heap w' = heap w /\ log w' = Ask (QRunThrows p) false :: ActionRun p :: log w))) /\
  (forall p (ch : list path) w ok w', Runs c p ch w ok w' -> FA w -> NX w ok w') /\
  (forall p w ok w', StopH c p w ok w' -> composite p -> FA w -> NX w ok w') /\
  (forall p (ch : list path) w ok w', Stops c p ch w ok w' -> FA w -> NX w ok w').
Proof.
  apply (eval_induction c
    (fun p w ok w' => FA w -> NX w ok w')
    (fun p w ok w' => Adj (log w) -> pend p w -> NX w ok w')
    (fun p w ok w' => FA w ->
     Adj (log w') /\ (ok = false -> thrown w') /\ 
     (ok = true -> (composite p /\ free (log w')) \/ (~ composite p /\ heap w' = heap w /\ log w' = Ask (QRunThrows p) false :: ActionRun p :: log w)))
    (fun p ch w ok w' => FA w -> NX w ok w')
    (fun p w ok w' => composite p -> FA w -> NX w ok w')
    (fun p ch w ok w' => FA w -> NX w ok w')).
  - intros p w b w1 w2 ok w' HGE HQ H1 H2 _ IH _ _ _ [F A].
    assert (HHw := GE_HL c p w HGE).
    assert (X : FA w2).
    { inversion HQ as [? ? K|? K1 K2]; subst.
      - destruct b.
        + destruct (H1 eq_refl) as [[[E|E] ->]|(N1 & N2 & ->)]; cbn [w_ask heap log w_set] in *.
          * split; [intros e'; cbn; rewrite HHw; auto|]. apply Adj_free; assumption.
          * split; [intros e'; cbn; rewrite HHw; auto|]. apply Adj_free; assumption.
          * split; [apply free_trans; discriminate|]. apply Adj_cons; [|apply Adj_free; assumption].
            cbn. split; [exact K|]. right; right. rewrite HHw. reflexivity.
        + rewrite H2 by reflexivity. cbn [w_ask log]. split; [intros e'; exact I|apply Adj_free; assumption].
      - rewrite H2 by reflexivity. split; assumption. }
    apply IH; [apply X|left; apply X].
  - intros p w w1 _ E HQ A HP. assert (F : free (log w)) by (destruct HP as [HP|(X & _)]; [exact HP|congruence]).
    inversion HQ as [? ? K|]; subst. cbn [w_ask log]. split; [apply Adj_free; assumption|split; [intros _ e'; exact I|discriminate]].
  - intros p w w1 r _ E HQ K P _ _ _ A HP. assert (F : free (log w)) by (destruct HP as [HP|(X & _)]; [exact HP|congruence]).
    inversion HQ as [? ? K'|]; subst; [|contradiction]. unfold NX. cbn [w_ask w_set log heap]. rewrite E.
    split; [|split; [intros _; apply free_trans; discriminate|discriminate]].
    apply Adj_cons; [exact I|]. apply Adj_cons; [reflexivity|]. apply Adj_free; assumption.
  - intros p w w1 ok w' _ E HQ _ IH A HP. assert (F : free (log w)) by (destruct HP as [HP|(X & _)]; [exact HP|congruence]).
    apply IH; [|left; apply free_trans; discriminate].
    inversion HQ as [? ? K|]; subst; cbn [w_ask w_set log heap]; rewrite ?E.
    + apply Adj_cons; [reflexivity|]. apply Adj_free; assumption.
    + apply Adj_free; assumption.
  - intros p w w1 ok w' HGD E HS _ IH A HP. assert (F : free (log w)) by (destruct HP as [HP|(X & _)]; [exact HP|congruence]).
    apply IH; [|left; apply free_trans; discriminate]. cbn [w_inc w_set log].
    inversion HS as [? b K Hb|? K|? w2 K Ho Hn|? K1 K2 K3 K4]; subst.
    + destruct b; [discriminate|]. cbn [w_ask w_emit log heap]. rewrite E.
      apply Adj_cons; [split; reflexivity|]. apply Adj_cons; [eexists; reflexivity|]. apply Adj_free; assumption.
    + assert (X := FA_Force (children c p) w (conj F A)). apply Adj_free; apply X.
    + assert (X : FA w2).
      { destruct (prio c p) eqn:P; [eapply FA_OvL; [apply Ho; reflexivity|split; assumption]|rewrite Hn by discriminate; split; assumption|rewrite Hn by discriminate; split; assumption]. }
      assert (Y := FA_Force (children c p) w2 X). apply Adj_free; apply Y.
    + apply Adj_free; assumption.
  - intros p w w1 HGD E HS A HP. assert (F : free (log w)) by (destruct HP as [HP|(X & _)]; [exact HP|congruence]).
    inversion HS as [? b K Hb|? K|? w2 K Ho Hn|? K1 K2 K3 K4]; subst. destruct b; [|discriminate].
    unfold NX. cbn [w_ask w_emit log]. split; [|split; [discriminate|]].
    + apply Adj_cons; [eexists; reflexivity|]. apply Adj_free; assumption.
    + intros _. left. exists p, (log w). reflexivity.
  - intros p w w1 HGD E _ IH A HP. assert (F : free (log w)) by (destruct HP as [HP|(X & _)]; [exact HP|congruence]).
    destruct (IH (conj F A)) as (A1 & T & _). split; [exact A1|split; [discriminate|exact T]].
  - intros p w w1 w2 HGD E _ IH E1 HA A HP. assert (F : free (log w)) by (destruct HP as [HP|(X & _)]; [exact HP|congruence]).
    destruct (IH (conj F A)) as (A1 & _ & R). assert (HHw := GD_HL c p w HGD).
    inversion HA as [? ? K|? K Hall|? q K Hq Hn]; subst.
    + destruct (R eq_refl) as [[[K1 K2] _]|(_ & Hh & El)]; [destruct K; contradiction|].
      assert (HHs : seen (log w1) p = Running) by (rewrite El; cbn; rewrite HHw; exact E).
      unfold NX. cbn [w_ask log]. split; [|split; [intros _ e'; cbn; left; exact HHs|discriminate]].
      rewrite El in A1 |- *. apply Adj_cons; [|exact A1]. split; [reflexivity|eexists; reflexivity].
    + destruct (R eq_refl) as [[_ F1]|(NK & _)]; [|contradiction]. split; [exact A1|split; [intros _; exact F1|discriminate]].
  - intros p w w1 w2 ok w' HGD E _ IH E1 HA _ IH2 A HP. assert (F : free (log w)) by (destruct HP as [HP|(X & _)]; [exact HP|congruence]).
    destruct (IH (conj F A)) as (A1 & _ & R). assert (HHw := GD_HL c p w HGD).
    apply IH2; [|right; split; [apply st_w_set|eexists; eexists; reflexivity]].
    inversion HA as [? ? K|? K Hall|]; subst; cbn [w_set w_ask log heap].
    + destruct (R eq_refl) as [[[K1 K2] _]|(_ & Hh & El)]; [destruct K; contradiction|].
      assert (HHs : seen (log w1) p = Running) by (rewrite El; cbn; rewrite HHw; exact E).
      rewrite E1. rewrite El in A1, HHs |- *. apply Adj_cons; [left; split; [exact HHs|reflexivity]|].
      apply Adj_cons; [|exact A1]. split; [reflexivity|eexists; reflexivity].
    + destruct (R eq_refl) as [[_ F1]|(NK & _)]; [|contradiction]. apply Adj_free; assumption.
  - intros p w ok w' HGD E _ IH A HP. 
    set (s' := if Nat.ltb (cnt (heap w p)) (maxc c p) then Standby else Complete) in *.
    assert (Hs' : s' = Standby \/ s' = Complete) by (unfold s'; destruct (Nat.ltb _ _); auto).
    apply IH; [|left; apply free_trans; destruct Hs' as [-> | ->]; discriminate].
    cbn [w_set log]. rewrite E. destruct HP as [HP|(_ & o & l & El)]; [apply Adj_free; assumption|].
    rewrite El in A |- *. apply Adj_cons; [|exact A]. cbn. destruct Hs' as [-> | ->]; auto.
  - intros p w _ E A HP. assert (F : free (log w)) by (destruct HP as [HP|(X & _)]; [exact HP|congruence]).
    split; [exact A|split; [auto|discriminate]].
  - intros p w _ E A HP. split; [exact A|split; [discriminate|]]. intros _. right; right. exists p; exact E.
  - intros p w w1 ok w' HGD E HA _ IH A HP. assert (F : free (log w)) by (destruct HP as [HP|(X & _)]; [exact HP|congruence]).
    assert (HHw := GD_HL c p w HGD).
    apply IH; [|left; apply free_trans; discriminate].
    inversion HA as [? ? K|? K Hall|]; subst; cbn [w_set w_ask log heap].
    + apply Adj_cons; [|apply Adj_free; assumption]. right. rewrite HHw. split; [exact E|rewrite E; reflexivity].
    + apply Adj_free; assumption.
  - intros p w w1 w2 ok w' HGD E HA HS IHS _ _ IH A HP. assert (F : free (log w)) by (destruct HP as [HP|(X & _)]; [exact HP|congruence]).
    assert (HHw := GD_HL c p w HGD).
    apply IH; [|left; apply free_trans; discriminate].
    inversion HA as [? ? K|? K Hall|? q K Hq Hn]; subst; cbn [w_set log].
    + assert (EL : log w2 = Ask (QAccomplished p) false :: log w).
      { inversion HS as [? ? K'|? ? K'|? ? ? ? [K1 K2]]; subst; [reflexivity|reflexivity|destruct K; contradiction]. }
      rewrite EL. apply Adj_cons; [|apply Adj_free; assumption]. right. rewrite HHw. split; [exact E|eexists; reflexivity].
    + destruct (IHS K (conj F A)) as (A2 & F2 & _). apply Adj_free; [apply F2; reflexivity|exact A2].
  - intros p w w1 w2 HGD E HA HS IHS A HP. assert (F : free (log w)) by (destruct HP as [HP|(X & _)]; [exact HP|congruence]).
    inversion HA as [? ? K|? K Hall|? q K Hq Hn]; subst.
    + inversion HS as [? ? K'|? ? K'|? ? ? ? [K1 K2]]; subst. destruct K; contradiction.
    + destruct (IHS K (conj F A)) as (A2 & F2 & T2). split; [exact A2|split; [exact F2|exact T2]].
  - intros p w b K [F A]. cbn [w_ask w_emit log]. split; [|split].
    + apply Adj_cons; [eexists; reflexivity|]. apply Adj_free; assumption.
    + intros Hb. right; left. exists p, (log w). destruct b; [reflexivity|discriminate].
    + intros Hb. right. split; [intros [K1 K2]; destruct K; contradiction|]. split; [reflexivity|].
      destruct b; [discriminate|reflexivity].
  - intros p w ok w' K _ IH HF. destruct (IH HF) as (A & B & C). split; [exact A|split; [exact C|intros Hok; left; auto]].
  - intros p w [F A]. split; [exact A|split; [auto|discriminate]].
  - intros p q l w w1 Hq _ IH HF. destruct (IH HF) as (A & B & C). split; [exact A|split; [discriminate|auto]].
  - intros p q l w w1 ok w' Hq _ IH _ IH2 HF. destruct (IH HF) as (A & B & C).
    destruct (IH2 (conj (B eq_refl) A)) as (A' & B' & C'). split; [exact A'|split; assumption].
  - intros p w K [K1 K2]; contradiction.
  - intros p w K [K1 K2]; contradiction.
  - intros p w ok w' K _ IH _ HF. apply IH; exact HF.
  - intros p w [F A]. split; [exact A|split; [auto|discriminate]].
  - intros p q l w w0 w1 Hq _ HO _ IH HF. destruct (IH (FA_Ov _ _ _ HO HF)) as (A & B & C). split; [exact A|split; [discriminate|auto]].
  - intros p q l w w0 w1 ok w' Hq _ HO _ IH _ IH2 HF. destruct (IH (FA_Ov _ _ _ HO HF)) as (A & B & C).
    destruct (IH2 (conj (B eq_refl) A)) as (A' & B' & C'). split; [exact A'|split; assumption].
Qed.

(** ** Frames *)
Lemma Unf_all p w : (forall y, ~ sup p y) -> Unf (sup p) w -> Unf (fun _ => False) w.
Proof. intros H. apply Unf_ext. intros q Hq. exact (H q Hq). Qed.

Lemma sup_root y : ~ sup [] y.
Proof. intros Hy. apply sbelow_length in Hy. simpl in Hy; lia. Qed.

Definition FrameInv (w : world) : Prop :=
  CountInv c (w, None) /\ Settled w /\ HL w /\ Unf (fun _ => False) w /\ FA w.

Lemma frame_inv env w w' : FrameInv w -> frame c env w = Ok tt w' -> Eval c [] w true w' /\ FrameInv w'.
Proof.
  intros (HC & HS & HH & HU & HF) E. assert (X := frame_der c env w HC HS HH). rewrite E in X.
  assert (Y := evaluate_res c env 7 [] ltac:(simpl; lia) ltac:(simpl; lia) w HC HS (or_introl eq_refl)).
  unfold frame in E. rewrite E in Y. cbn [res] in Y. destruct Y as (St & _ & EP & _).
  split; [exact X|]. split; [eapply CountInv_star; eassumption|]. split; [exact EP|]. split; [eapply HL_star; eassumption|].
  split.
  - eapply Unf_all; [apply sup_root|]. eapply (proj1 eval_Unf); [exact X|reflexivity|].
    eapply Unf_ext; [|exact HU]. intros q [].
  - destruct (proj1 eval_NX _ _ _ _ X HF) as (A & B & _). split; [apply B; reflexivity|exact A].
Qed.

Lemma world0_inv : FrameInv world0.
Proof.
  split; [intros p _; cbn; split; [intros _; left; reflexivity|lia]|].
  split; [intros q; apply settled_other; discriminate|]. split; [intros q; reflexivity|].
  split; [split; intros q _; cbn; discriminate|]. split; exact I.
Qed.

Lemma frames_inv env n : forall w w', FrameInv w -> frames c env n w = Ok tt w' -> FrameInv w'.
Proof.
  induction n as [|n IH]; intros w w' HI; cbn [frames]; [intros E; injection E as <-; exact HI|].
  unfold seqm, bind. destruct (frame c env w) as [[] w1|w1|] eqn:E; try discriminate.
  apply IH. eapply frame_inv; eassumption.
Qed.

Lemma frames_ok_inv env n w : frames c env n world0 = Ok tt w -> FrameInv w.
Proof. intros H. eapply frames_inv; [apply world0_inv|exact H]. Qed.

Lemma frames_exit env n : forall w w', FrameInv w -> frames c env n w = Exit w' -> Adj (log w') /\ thrown w'.
Proof.
  induction n as [|n IH]; intros w w' HI; cbn [frames]; [discriminate|].
  unfold seqm, bind. destruct (frame c env w) as [[] w1|w1|] eqn:E; try discriminate.
  - apply IH. eapply frame_inv; eassumption.
  - intros E2; injection E2 as <-. destruct HI as (HC & HS & HH & HU & HF).
    assert (X := frame_der c env w HC HS HH). rewrite E in X.
    destruct (proj1 eval_NX _ _ _ _ X HF) as (A & _ & B). auto.
Qed.

Lemma Adj_at e' e l1 l : Adj (l1 ++ e' :: e :: l) -> next_ok e' e l.
Proof.
  induction l1 as [|x l1 IH]; cbn [app]; [intros [H _]; exact H|].
  intros H. apply IH. destruct (l1 ++ e' :: e :: l) as [|y t]; [exact I|]. destruct H as [_ H]. exact H.
Qed.

Lemma frame_prog env w w' : FrameInv w -> frame c env w = Ok tt w' ->
  exists new, log w' = new ++ log w /\
  forall r, within c r [] -> (forall y, inside c r y -> seen (log w') y = Running) -> frame_status c new (log w') r.
Proof.
  intros HI E. destruct (frame_inv env w w' HI E) as [X HI'].
  destruct (proj1 (proj1 eval_Bas _ _ _ _ X)) as (new & EN). exists new. split; [exact EN|].
  intros r Hr Hc. destruct HI' as (_ & _ & HH & HU & _).
  assert (P := proj1 eval_Prog _ _ _ _ X eq_refl r Hr ltac:(intros y _ Hy; rewrite <- HH; apply Hc; exact Hy)).
  assert (FE : forall e, fresh w w' e -> In e new).
  { intros e (n2 & E2 & Hin). rewrite EN in E2. apply app_inv_tail in E2. subst; exact Hin. }
  unfold stat in P. unfold frame_status. rewrite HH.
  destruct (st (heap w' r)) eqn:Es; auto.
  - destruct P as (K & [P|(Pr & P1 & P2)]); (split; [exact K|]); [left; apply FE; exact P|right].
    split; [exact Pr|split; apply FE; assumption].
  - split.
    + intros K. destruct (proj1 HU r (fun H => H) K Es) as (q & Hq & Eq). exists q. rewrite HH.
      split; [apply child_of_in; exact Hq|exact Eq].
    + intros K. destruct (P K). split; apply FE; assumption.
Qed.

End Progress.
