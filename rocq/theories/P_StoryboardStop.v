(** What happens to the elements below one that completes, and above one that does something:
    induction over the derivation of an evaluation. *)
From Coq Require Import List Arith Bool Lia.
From Coq Require FinFun.
From Verif Require Import M_Storyboard S_Storyboard P_Storyboard P_StoryboardInv P_StoryboardEval.
Import ListNotations.

Section Stop.
Variable c : config.

Definition within (r q : path) : Prop := r = q \/ inside c r q.

Definition Cov (l : list entry) (y : path) : Prop :=
  forall r, inside c r y -> executing (seen l r) ->
  exists a, within r a /\ inside c a y /\ started_while_stopping l a.

Definition CleanL (l : list entry) : Prop :=
  forall y, seen l y = Complete \/ seen l y = Standby -> Cov l y.

Definition AncL (l : list entry) (p : path) : Prop :=
  forall y, sbelow y p -> seen l y = Running \/ seen l y = StopT.

Definition anc_entry (e : entry) (l : list entry) : Prop :=
  forall y, above y (subject e) -> seen l y = Running \/ seen l y = StopT \/
    (y = tl (subject e) /\ seen l y = StartT /\ restartable (subject e) /\ exists o, e = Trans (subject e) o StartT).

Definition stop_entry (e : entry) (l : list entry) : Prop :=
  match e with Trans y _ Complete => Cov l y | _ => True end.

Fixpoint L2 (l : list entry) : Prop :=
  match l with [] => True | e :: l' => anc_entry e l' /\ stop_entry e l' /\ L2 l' end.

Definition ext (l l' : list entry) : Prop := exists new, l' = new ++ l.

Lemma ext_refl l : ext l l. Proof. exists []; reflexivity. Qed.
Lemma ext_cons e l : ext l (e :: l). Proof. exists [e]; reflexivity. Qed.
Lemma ext_trans a b d : ext a b -> ext b d -> ext a d.
Proof. intros (x & ->) (y & ->). exists (y ++ x). rewrite app_assoc; reflexivity. Qed.

Lemma started_ext l l' a : ext l l' -> started_while_stopping l a -> started_while_stopping l' a.
Proof. intros (new & ->) (later & l1 & -> & H). exists (new ++ later), l1. rewrite app_assoc. auto. Qed.

Lemma inside_sbelow r y : inside c r y -> sbelow y r.
Proof.
  induction 1 as [q p K (i & _ & ->)|r q p H IH K (i & _ & ->)].
  - exists i, []; reflexivity.
  - destruct IH as (j & l & ->). exists i, (l ++ [j]). rewrite <- app_assoc. reflexivity.
Qed.

Lemma inside_neq r y : inside c r y -> r <> y.
Proof. intros H ->. apply inside_sbelow, sbelow_irrefl in H. exact H. Qed.

Lemma inside_inv r y : inside c r y -> composite y /\ exists q, child_of c q y /\ within r q.
Proof. intros H. destruct H as [q p K H|r q p H K Hc]; (split; [exact K|]); exists q; split; auto; [left; reflexivity|right; exact H]. Qed.

Lemma within_child r q p : composite p -> child_of c q p -> within r q -> inside c r p.
Proof. intros K Hc [->|H]; [apply inside_child; assumption|eapply inside_deeper; eassumption]. Qed.

Lemma executing_dec s : {executing s} + {~ executing s}.
Proof. unfold executing. destruct s; auto; right; intros [?|[?|?]]; discriminate. Qed.

Lemma Cov_cons e l y : Cov l y -> (forall r o s, e = Trans r o s -> inside c r y -> ~ executing s) -> Cov (e :: l) y.
Proof.
  intros H He r Hr Hx.
  assert (Hx' : executing (seen l r)).
  { destruct e as [p o s| | |]; try exact Hx. destruct (path_dec p r) as [->|Hn].
    - rewrite seen_same in Hx. exfalso. eapply He; [reflexivity|exact Hr|exact Hx].
    - rewrite seen_other in Hx by exact Hn. exact Hx. }
  destruct (H r Hr Hx') as (a & A & B & C). exists a. split; [exact A|split; [exact B|]].
  eapply started_ext; [apply ext_cons|exact C].
Qed.

Lemma Clean_other e l : (forall p o s, e <> Trans p o s) -> CleanL l -> CleanL (e :: l).
Proof.
  intros He H y Hy. apply Cov_cons.
  - apply H. destruct e; try exact Hy. exfalso; eapply He; reflexivity.
  - intros r o s ->. exfalso; eapply He; reflexivity.
Qed.

(** [live l p]: nothing above [p] is complete or in standby. *)
Definition live (l : list entry) (p : path) : Prop :=
  forall y, sbelow y p -> seen l y <> Complete /\ seen l y <> Standby.

Lemma AncL_live l p : AncL l p -> live l p.
Proof. intros H y Hy. destruct (H y Hy) as [-> | ->]; split; discriminate. Qed.

Lemma Clean_trans p o s l : CleanL l -> (executing s -> live l p) ->
  (s = Complete \/ s = Standby -> Cov l p) -> CleanL (Trans p o s :: l).
Proof.
  intros H H1 H2 y Hy. destruct (path_dec p y) as [->|Hn].
  - rewrite seen_same in Hy. apply Cov_cons; [apply H2; exact Hy|].
    intros r o' s' E Hr. injection E as <- <- <-. exfalso. apply inside_neq in Hr. congruence.
  - rewrite seen_other in Hy by exact Hn. apply Cov_cons; [apply H; exact Hy|].
    intros r o' s' E Hr Hx. injection E as <- <- <-. apply inside_sbelow in Hr.
    destruct (H1 Hx y Hr). destruct Hy; contradiction.
Qed.

(** All children complete: nothing below executes, apart from late starters. *)
Lemma Cov_children l p : CleanL l -> (composite p -> forall q, In q (children c p) -> seen l q = Complete) -> Cov l p.
Proof.
  intros H Hc r Hr Hx. destruct (inside_inv _ _ Hr) as (K & q & Hq & Hw).
  assert (E : seen l q = Complete) by (apply Hc; [exact K|apply child_of_in; exact Hq]).
  destruct Hw as [->|Hw]; [rewrite E in Hx; destruct Hx as [?|[?|?]]; discriminate|].
  destruct (H q (or_introl E) r Hw Hx) as (a & A & B & C).
  exists a. split; [exact A|split; [|exact C]]. eapply within_child; [exact K|exact Hq|right; exact B].
Qed.

Definition DoneC (l : list entry) (q : path) : Prop :=
  forall r, within r q -> executing (seen l r) ->
  exists a, within r a /\ within a q /\ started_while_stopping l a.

Lemma Cov_done l p : (composite p -> forall q, In q (children c p) -> DoneC l q) -> Cov l p.
Proof.
  intros Hc r Hr Hx. destruct (inside_inv _ _ Hr) as (K & q & Hq & Hw).
  destruct (Hc K q (proj1 (child_of_in c q p) Hq) r Hw Hx) as (a & A & B & C).
  exists a. split; [exact A|split; [|exact C]]. eapply within_child; eassumption.
Qed.

Lemma within_trans a b d : within a b -> within b d -> within a d.
Proof.
  intros H1 [->|H2]; [exact H1|]. right. destruct H1 as [->|H1]; [exact H2|].
  induction H2 as [q p K Hc|r q p H2 IH K Hc].
  - eapply inside_deeper; eassumption.
  - eapply inside_deeper; [apply IH; exact H1|exact K|exact Hc].
Qed.

(** Effects of an evaluation on the rest of the tree. *)
Definition side (p : path) (l l' : list entry) : Prop :=
  forall r, ~ below p r -> seen l' r = seen l r \/ seen l' r = StopT.

Lemma side_refl p l : side p l l. Proof. intros r _; auto. Qed.
Lemma side_trans p a b d : side p a b -> side p b d -> side p a d.
Proof. intros H1 H2 r Hr. destruct (H2 r Hr) as [E|E]; [rewrite E; apply H1; exact Hr|right; exact E]. Qed.
Lemma side_cons p e l : below p (subject e) \/ (exists o, e = Trans (subject e) o StopT) \/ (forall q o s, e <> Trans q o s) -> side p l (e :: l).
Proof.
  intros H r Hr. destruct e as [q o s| | |]; auto. cbn [subject] in H.
  destruct (path_dec q r) as [->|Hn].
  - destruct H as [H|[(o' & H)|H]]; [contradiction|injection H as _ ->; right; apply seen_same|exfalso; eapply H; reflexivity].
  - left. apply seen_other; exact Hn.
Qed.
Lemma side_child p i l l' : side (i :: p) l l' -> side p l l'.
Proof. intros H r Hr. apply H. intros Hb. apply Hr, sbelow_below. eapply below_child; exact Hb. Qed.

Lemma AncL_side p l l' : side p l l' -> AncL l p -> AncL l' p.
Proof.
  intros H HA y Hy. destruct (H y) as [E|E]; [|rewrite E; apply HA; exact Hy|right; exact E].
  intros Hb. apply sbelow_length in Hy. apply below_length in Hb. lia.
Qed.

Lemma below_self p : below p p. Proof. exists []; reflexivity. Qed.

Definition Good (l : list entry) : Prop := CleanL l /\ L2 l.

Lemma Good_ask q b l p : subject (Ask q b) = p -> AncL l p -> Good l -> Good (Ask q b :: l).
Proof.
  intros E HA [H1 H2]. split; [apply Clean_other; [discriminate|exact H1]|]. cbn [L2].
  split; [|split; [destruct q; exact I|exact H2]]. intros y Hy. rewrite E in Hy. destruct (HA y Hy); auto.
Qed.

Lemma Good_emit e l p : subject e = p -> (forall q o s, e <> Trans q o s) -> AncL l p -> Good l -> Good (e :: l).
Proof.
  intros E Hn HA [H1 H2]. split; [apply Clean_other; [exact Hn|exact H1]|]. cbn [L2].
  split; [|split; [|exact H2]].
  - intros y Hy. rewrite E in Hy. destruct (HA y Hy); auto.
  - destruct e; cbn; auto. exfalso; eapply Hn; reflexivity.
Qed.

Lemma Good_trans p o s l : AncL l p -> (s = Complete \/ s = Standby -> Cov l p) -> Good l -> Good (Trans p o s :: l).
Proof.
  intros HA Hc [H1 H2]. split; [apply Clean_trans; [exact H1|intros _; apply AncL_live; exact HA|exact Hc]|].
  cbn [L2]. split; [|split; [|exact H2]].
  - intros y Hy. cbn [subject] in Hy. destruct (HA y Hy); auto.
  - cbn. destruct s; auto.
Qed.

(** Forced starts of the children. *)
Lemma Good_force p ch : kind_of p = KGroup \/ kind_of p = KEvent -> (forall q, In q ch -> In q (children c p)) ->
  forall w, AncL (log w) p -> seen (log w) p = StartT \/ seen (log w) p = StopT -> Good (log w) ->
  Good (log (Force ch w)) /\ ext (log w) (log (Force ch w)) /\ side p (log w) (log (Force ch w)) /\
  seen (log (Force ch w)) p = seen (log w) p.
Proof.
  intros K. induction ch as [|q ch IH]; intros Hl w HA Hp HG; cbn [Force fold_left].
  - split; [exact HG|split; [apply ext_refl|split; [apply side_refl|reflexivity]]].
  - assert (Hq := Hl q (or_introl eq_refl)). destruct (children_child _ _ _ Hq) as [i Hi].
    assert (Ep : seen (log (w_set q StartT w)) p = seen (log w) p).
    { cbn [w_set log]. apply seen_other. intros ->. symmetry in Hi. apply child_neq in Hi. exact Hi. }
    assert (Sd : side p (log w) (log (w_set q StartT w))).
    { apply side_cons. left. cbn [subject]. subst q. exists [i]; reflexivity. }
    assert (HG1 : Good (log (w_set q StartT w))).
    { destruct HG as [H1 H2]. cbn [w_set log]. split.
      - apply Clean_trans; [exact H1| |intros [?|?]; discriminate].
        intros _ y Hy. subst q. destruct Hy as (j & l & E). destruct l as [|k l]; cbn in E; injection E as E1 E2.
        + subst. destruct Hp as [-> | ->]; split; discriminate.
        + apply AncL_live in HA. apply HA. exists j, l. exact E2.
      - cbn [L2]. split; [|split; [exact I|exact H2]].
        intros y Hy. cbn [subject] in *. subst q. destruct Hy as (j & l & E). destruct l as [|k l]; cbn in E; injection E as E1 E2.
        + subst. destruct Hp as [Hp|Hp]; [right; right|auto]. split; [reflexivity|split; [exact Hp|]].
          split; [|eexists; reflexivity].
          destruct K as [K|K]; [left; apply kind_len_maneuver; apply kind_len_group in K; simpl; lia
                               |right; apply kind_len_action; apply kind_len_event in K; simpl; lia].
        + assert (X : sbelow y p) by (exists j, l; exact E2). destruct (HA y X); auto. }
    destruct (IH (fun r Hr => Hl r (or_intror Hr)) (w_set q StartT w)) as (A & B & C & D).
    + eapply AncL_side; eassumption.
    + rewrite Ep. exact Hp.
    + exact HG1.
    + split; [exact A|split; [|split; [eapply side_trans; eassumption|rewrite <- Ep; exact D]]].
      eapply ext_trans; [|exact B]. cbn [w_set log]. apply ext_cons.
Qed.

Lemma Good_Ov p q w w' : tl q = tl p -> q <> [] -> p <> [] -> AncL (log w) p -> Good (log w) -> Ov q w w' ->
  Good (log w') /\ ext (log w) (log w') /\ side p (log w) (log w') /\
  (seen (log w) p = StartT \/ seen (log w) p = StopT -> seen (log w') p = StartT \/ seen (log w') p = StopT).
Proof.
  intros Ht Hq Hp HA HG [[_ ->]|(_ & _ & ->)].
  - split; [exact HG|split; [apply ext_refl|split; [apply side_refl|auto]]].
  - cbn [w_set log]. split; [|split; [apply ext_cons|split; [apply side_cons; right; left; eexists; reflexivity|]]].
    + apply Good_trans; [|intros [?|?]; discriminate|exact HG].
      intros y (i & l & E). apply HA. destruct q as [|j q]; [congruence|]. destruct p as [|k p]; [congruence|].
      cbn in Ht; subst q. destruct l as [|m l]; cbn in E; injection E as E1 E2.
      * subst. exists k, []; reflexivity.
      * exists i, (k :: l). cbn. rewrite E2. reflexivity.
    + intros H. destruct (path_dec q p) as [->|Hn]; [right; apply seen_same|rewrite seen_other by exact Hn; exact H].
Qed.

Lemma Good_OvL p ch : p <> [] -> forall w w', (forall q, In q ch -> In q (children c (tl p))) ->
  AncL (log w) p -> Good (log w) -> OvL ch w w' ->
  Good (log w') /\ ext (log w) (log w') /\ side p (log w) (log w') /\
  (seen (log w) p = StartT \/ seen (log w) p = StopT -> seen (log w') p = StartT \/ seen (log w') p = StopT).
Proof.
  intros Hp w w' Hl HA HG H; induction H as [w|q l w w1 w' Ho Hr IH].
  - split; [exact HG|split; [apply ext_refl|split; [apply side_refl|auto]]].
  - assert (Hq := Hl q (or_introl eq_refl)). destruct (children_child _ _ _ Hq) as [i Hi].
    destruct (Good_Ov p q w w1) as (A & B & C & D); try assumption; [subst q; reflexivity|subst q; discriminate|].
    destruct IH as (A' & B' & C' & D'); [intros r Hr'; apply Hl; right; exact Hr'|eapply AncL_side; eassumption|exact A|].
    split; [exact A'|split; [eapply ext_trans; eassumption|split; [eapply side_trans; eassumption|auto]]].
Qed.

Lemma Good_StartH p w ok w' : StartH c p w ok w' -> AncL (log w) p -> seen (log w) p = StartT -> Good (log w) ->
  Good (log w') /\ ext (log w) (log w') /\ side p (log w) (log w').
Proof.
  intros H HA E HG. destruct H as [w b K|w K|w w1 K Ho Hn|w K1 K2 K3 K4].
  - cbn [w_ask w_emit log]. split; [|split; [eexists [_; _]; reflexivity|]].
    + apply (Good_ask _ _ _ p); [reflexivity| |apply (Good_emit _ _ p); [reflexivity|discriminate|exact HA|exact HG]].
      exact HA.
    + eapply side_trans; apply side_cons; right; right; discriminate.
  - destruct (Good_force p (children c p) (or_introl K) (fun q H => H) w HA (or_introl E) HG) as (A & B & C & _). auto.
  - assert (X : Good (log w1) /\ ext (log w) (log w1) /\ side p (log w) (log w1) /\
       (seen (log w1) p = StartT \/ seen (log w1) p = StopT)).
    { destruct (prio c p) eqn:P.
      - assert (Hp : p <> []) by (intros ->; discriminate).
        destruct (Good_OvL p (children c (tl p)) Hp w w1 (fun q H => H) HA HG (Ho eq_refl)) as (A & B & C & D).
        split; [exact A|split; [exact B|split; [exact C|apply D; left; exact E]]].
      - rewrite Hn by discriminate. split; [exact HG|split; [apply ext_refl|split; [apply side_refl|auto]]].
      - rewrite Hn by discriminate. split; [exact HG|split; [apply ext_refl|split; [apply side_refl|auto]]]. }
    destruct X as (A & B & C & D).
    destruct (Good_force p (children c p) (or_intror K) (fun q H => H) w1 (AncL_side _ _ _ C HA) D A) as (A' & B' & C' & _).
    split; [exact A'|split; [eapply ext_trans; eassumption|eapply side_trans; eassumption]].
  - split; [exact HG|split; [apply ext_refl|apply side_refl]].
Qed.

Lemma Good_StopQ p w b w' : StopQ p w b w' -> AncL (log w) p -> Good (log w) ->
  Good (log w') /\ ext (log w) (log w') /\ side p (log w) (log w') /\ (forall r, seen (log w') r = seen (log w) r) /\ heap w' = heap w.
Proof.
  intros H HA HG. destruct H as [w b K|w K].
  - cbn [w_ask log]. split; [apply (Good_ask _ _ _ p); [reflexivity|exact HA|exact HG]|].
    split; [apply ext_cons|split; [apply side_cons; right; right; discriminate|split; reflexivity]].
  - split; [exact HG|split; [apply ext_refl|split; [apply side_refl|split; reflexivity]]].
Qed.

Lemma Good_StartQ p w b w' : StartQ p w b w' -> AncL (log w) p -> Good (log w) ->
  Good (log w') /\ ext (log w) (log w') /\ side p (log w) (log w') /\ (forall r, seen (log w') r = seen (log w) r) /\ heap w' = heap w.
Proof.
  intros H HA HG. destruct H as [w b K|w K].
  - cbn [w_ask log]. split; [apply (Good_ask _ _ _ p); [reflexivity|exact HA|exact HG]|].
    split; [apply ext_cons|split; [apply side_cons; right; right; discriminate|split; reflexivity]].
  - split; [exact HG|split; [apply ext_refl|split; [apply side_refl|split; reflexivity]]].
Qed.

Lemma Good_Acc p w b w' : Acc c p w b w' -> AncL (log w) p -> Good (log w) ->
  Good (log w') /\ ext (log w) (log w') /\ side p (log w) (log w') /\ (forall r, seen (log w') r = seen (log w) r) /\ heap w' = heap w.
Proof.
  intros H HA HG. destruct H as [w b K|w K|w q K].
  - cbn [w_ask log]. split; [apply (Good_ask _ _ _ p); [reflexivity|exact HA|exact HG]|].
    split; [apply ext_cons|split; [apply side_cons; right; right; discriminate|split; reflexivity]].
  - split; [exact HG|split; [apply ext_refl|split; [apply side_refl|split; reflexivity]]].
  - split; [exact HG|split; [apply ext_refl|split; [apply side_refl|split; reflexivity]]].
Qed.

Definition EffE (p : path) (w : world) (ok : bool) (w' : world) : Prop :=
  Good (log w) -> AncL (log w) p ->
  Good (log w') /\ ext (log w) (log w') /\ side p (log w) (log w') /\
  (ok = true -> p <> [] -> seen (log w) p = Standby -> seen (log w) (tl p) = StopT ->
     seen (log w') p = Standby \/ started_while_stopping (log w') p).
Definition EffH (p : path) (w : world) (ok : bool) (w' : world) : Prop :=
  Good (log w) -> AncL (log w) p -> seen (log w) p = Running \/ seen (log w) p = StopT ->
  Good (log w') /\ ext (log w) (log w') /\ side p (log w) (log w').
Definition EffR (p : path) (ch : list path) (w : world) (ok : bool) (w' : world) : Prop := EffH p w ok w'.
Definition EffS (p : path) (w : world) (ok : bool) (w' : world) : Prop :=
  Good (log w) -> AncL (log w) p -> seen (log w) p = StopT ->
  Good (log w') /\ ext (log w) (log w') /\ side p (log w) (log w') /\
  (ok = true -> Cov (log w') p).
Definition EffSs (p : path) (ch : list path) (w : world) (ok : bool) (w' : world) : Prop :=
  Good (log w) -> AncL (log w) p -> seen (log w) p = StopT -> NoDup ch ->
  Good (log w') /\ ext (log w) (log w') /\ side p (log w) (log w') /\
  (forall q, In q (children c p) -> ~ In q ch -> DoneC (log w) q -> DoneC (log w') q) /\
  (ok = true -> forall q, In q ch -> DoneC (log w') q).

Lemma AncL_child i p l : AncL l p -> seen l p = Running \/ seen l p = StopT -> AncL l (i :: p).
Proof.
  intros H Hp y (j & l' & E). destruct l' as [|k l']; cbn in E; injection E as E1 E2.
  - subst. exact Hp.
  - apply H. exists j, l'. exact E2.
Qed.

Lemma side_parent i p l l' : side (i :: p) l l' -> seen l p = StopT -> seen l' p = StopT.
Proof.
  intros H E. destruct (H p) as [X|X]; [|congruence|exact X]. intros Hb. apply below_length in Hb. simpl in Hb; lia.
Qed.

Lemma side_parent_run i p l l' : side (i :: p) l l' -> seen l p = Running -> seen l' p = Running \/ seen l' p = StopT.
Proof.
  intros H E. destruct (H p) as [X|X]; [|left; congruence|right; exact X]. intros Hb. apply below_length in Hb. simpl in Hb; lia.
Qed.

Lemma DoneC_side q x p l l' : q = x :: p -> forall i, i <> x -> ext l l' -> side (i :: p) l l' -> DoneC l q -> DoneC l' q.
Proof.
  intros -> i Hi He Hs HD r Hr Hx.
  assert (Hx' : executing (seen l r)).
  { destruct (Hs r) as [E|E]; [|rewrite <- E; exact Hx|rewrite E in Hx; destruct Hx as [?|[?|?]]; discriminate].
    intros (l1 & E). destruct Hr as [->|Hr].
    - destruct l1 as [|y l1]; cbn in E; [congruence|]. injection E as E1 E2.
      apply (f_equal (@length nat)) in E2. rewrite app_length in E2. simpl in E2. lia.
    - apply inside_sbelow in Hr. destruct Hr as (j & l2 & Hr). rewrite Hr in E.
      replace (l2 ++ j :: x :: p) with ((l2 ++ [j]) ++ x :: p) in E by (rewrite <- app_assoc; reflexivity).
      assert (EL : length (l2 ++ [j]) = length l1).
      { apply (f_equal (@length nat)) in E. rewrite !app_length in E. rewrite !app_length. simpl in *. lia. }
      assert (X : (l2 ++ [j]) = l1 /\ x :: p = i :: p).
      { clear -E EL. revert l1 E EL. generalize (l2 ++ [j]) as a. induction a as [|h a IH]; intros [|k b] E EL; cbn in *; try discriminate.
        - auto.
        - injection E as E1 E2. injection EL as EL. destruct (IH b E2 EL). subst. auto. }
      destruct X as [_ X]. injection X as X. congruence. }
  destruct (HD r Hr Hx') as (a & A & B & C). exists a. split; [exact A|split; [exact B|]]. eapply started_ext; eassumption.
Qed.

Lemma GD_HL p w : GD c p w -> HL w. Proof. intros (_ & _ & _ & _ & _ & H & _); exact H. Qed.
Lemma GD_end p w : GD c p w -> st (heap w p) = EndT -> composite p -> forall q, In q (children c p) -> st (heap w q) = Complete.
Proof. intros (_ & _ & _ & _ & _ & _ & H); exact H. Qed.
Lemma GE_HL p w : GE c p w -> HL w. Proof. intros (_ & _ & _ & _ & H); exact H. Qed.

Lemma children_NoDup p : NoDup (children c p).
Proof.
  unfold children. apply FinFun.Injective_map_NoDup; [|apply seq_NoDup]. intros a b H; injection H as H; exact H.
Qed.

(** A child that was overridden and evaluated has nothing executing left, apart from late starters. *)
Lemma DoneC_eval q w w' s0 : Good (log w') -> HL w' -> EPost q s0 w' -> HL w ->
  st (heap w q) = Standby \/ st (heap w q) = StopT -> s0 = st (heap w q) ->
  (st (heap w q) = Standby -> seen (log w') q = Standby \/ started_while_stopping (log w') q) ->
  DoneC (log w') q.
Proof.
  intros [HC _] HH (_ & Hf & Hs & _) HH0 E -> Hst r Hr Hx.
  assert (Hcase : (seen (log w') q = Complete \/ seen (log w') q = Standby) \/ started_while_stopping (log w') q).
  { destruct E as [E|E]; [destruct (Hst E); auto|]. left; left. rewrite HH. apply Hs. auto. }
  destruct Hcase as [Hq|Hq].
  - destruct Hr as [->|Hr].
    + exfalso. destruct Hq as [Hq|Hq]; rewrite Hq in Hx; destruct Hx as [?|[?|?]]; discriminate.
    + destruct (HC q Hq r Hr Hx) as (a & A & B & C). exists a. split; [exact A|split; [right; exact B|exact C]].
  - exists q. split; [exact Hr|split; [left; reflexivity|exact Hq]].
Qed.

Lemma Good_Ovc i p w w0 : Good (log w) -> AncL (log w) p -> seen (log w) p = StopT -> Ov (i :: p) w w0 ->
  Good (log w0) /\ ext (log w) (log w0) /\ side (i :: p) (log w) (log w0) /\ True.
Proof.
  intros HG HA E [[_ ->]|(_ & _ & ->)].
  - split; [exact HG|split; [apply ext_refl|split; [apply side_refl|exact I]]].
  - cbn [w_set log]. split; [|split; [apply ext_cons|split; [|exact I]]].
    + apply Good_trans; [apply AncL_child; [exact HA|right; exact E]|intros [?|?]; discriminate|exact HG].
    + apply side_cons. left. apply below_self.
Qed.

Theorem eval_effects :
  (forall p w ok w', Eval c p w ok w' -> EffE p w ok w') /\
  (forall p w ok w', Disp c p w ok w' -> EffE p w ok w') /\
  (forall p w ok w', RunH c p w ok w' -> EffH p w ok w') /\
  (forall p ch w ok w', Runs c p ch w ok w' -> EffR p ch w ok w') /\
  (forall p w ok w', StopH c p w ok w' -> EffS p w ok w') /\
  (forall p ch w ok w', Stops c p ch w ok w' -> EffSs p ch w ok w').
Proof.
  apply (eval_induction c EffE EffE EffH EffR EffS EffSs); unfold EffE, EffR, EffH, EffS, EffSs.
  - (* E_eval *) intros p w b w1 w2 ok w' HGE HQ HO1 HO2 _ IH _ _ _ HG HA.
    destruct (Good_StopQ p w b w1 HQ HA HG) as (A1 & B1 & C1 & D1 & F1).
    assert (X : Good (log w2) /\ ext (log w1) (log w2) /\ side p (log w1) (log w2) /\
       (seen (log w) p = Standby -> seen (log w2) p = Standby) /\ (p <> [] -> seen (log w2) (tl p) = seen (log w1) (tl p))).
    { destruct b.
      - destruct (HO1 eq_refl) as [[_ ->]|(N1 & _ & ->)].
        + split; [exact A1|split; [apply ext_refl|split; [apply side_refl|split; [rewrite D1; auto|auto]]]].
        + cbn [w_set log]. split; [apply Good_trans; [eapply AncL_side; eassumption|intros [?|?]; discriminate|exact A1]|].
          split; [apply ext_cons|split; [apply side_cons; left; apply below_self|split]].
          * intros E. exfalso. apply N1. rewrite F1, <- (GE_HL _ _ HGE). exact E.
          * intros Hp. apply seen_other. apply parent_neq; exact Hp.
      - rewrite HO2 by reflexivity. split; [exact A1|split; [apply ext_refl|split; [apply side_refl|split; [rewrite D1; auto|auto]]]]. }
    destruct X as (A2 & B2 & C2 & D2 & F2).
    assert (C12 : side p (log w) (log w2)) by (eapply side_trans; eassumption).
    destruct (IH A2 (AncL_side _ _ _ C12 HA)) as (A3 & B3 & C3 & D3).
    split; [exact A3|]. split; [eapply ext_trans; [exact B1|eapply ext_trans; eassumption]|].
    split; [eapply side_trans; eassumption|]. intros Hok Hp E1 E2. apply D3; auto. rewrite F2, D1 by exact Hp. exact E2.
  - (* D_wait *) intros p w w1 HGD E HQ HG HA.
    destruct (Good_StartQ p w false w1 HQ HA HG) as (A1 & B1 & C1 & D1 & _).
    split; [exact A1|split; [exact B1|split; [exact C1|]]]. intros _ _ E1 _. left. rewrite D1. exact E1.
  - (* D_skip *) intros p w w1 r HGD E HQ K P Hr Hn Er HG HA.
    destruct (Good_StartQ p w true w1 HQ HA HG) as (A1 & B1 & C1 & D1 & _).
    assert (HA1 := AncL_side _ _ _ C1 HA). cbn [w_set log].
    assert (A2 : Good (Trans p (st (heap w1 p)) StartT :: log w1)).
    { apply Good_trans; [exact HA1|intros [?|?]; discriminate|exact A1]. }
    assert (S2 : side p (log w1) (Trans p (st (heap w1 p)) StartT :: log w1)) by (apply side_cons; left; apply below_self).
    split; [|split; [|split]].
    + apply Good_trans; [eapply AncL_side; eassumption| |exact A2].
      intros _. apply Cov_cons.
      * apply A1. right. rewrite D1, (GD_HL _ _ HGD). exact E.
      * intros r' o s Eq Hin. injection Eq as <- <- <-. exfalso. apply inside_neq in Hin. congruence.
    + eapply ext_trans; [exact B1|]. eexists [_; _]; reflexivity.
    + eapply side_trans; [exact C1|]. eapply side_trans; [exact S2|]. apply side_cons. left; apply below_self.
    + intros _ _ _ _. left. apply seen_same.
  - (* D_start *) intros p w w1 ok w' HGD E HQ _ IH HG HA.
    destruct (Good_StartQ p w true w1 HQ HA HG) as (A1 & B1 & C1 & D1 & F1).
    assert (HA1 := AncL_side _ _ _ C1 HA).
    assert (A2 : Good (log (w_set p StartT w1))).
    { apply Good_trans; [exact HA1|intros [?|?]; discriminate|exact A1]. }
    assert (S2 : side p (log w1) (log (w_set p StartT w1))) by (apply side_cons; left; apply below_self).
    destruct (IH A2 (AncL_side _ _ _ S2 HA1)) as (A3 & B3 & C3 & D3).
    split; [exact A3|]. split; [eapply ext_trans; [exact B1|eapply ext_trans; [|exact B3]; apply ext_cons]|].
    split; [eapply side_trans; [exact C1|eapply side_trans; eassumption]|].
    intros _ Hp _ E2. right. eapply started_ext; [exact B3|]. exists [], (log w1). cbn [w_set log app].
    split; [rewrite F1, E; reflexivity|rewrite D1; exact E2].
  - (* D_begin *) intros p w w1 ok w' HGD E HS _ IH HG HA.
    assert (E' : seen (log w) p = StartT) by (rewrite (GD_HL _ _ HGD); exact E).
    destruct (Good_StartH p w true w1 HS HA E' HG) as (A1 & B1 & C1).
    assert (HA1 := AncL_side _ _ _ C1 HA).
    assert (A2 : Good (log (w_inc p (w_set p Running w1)))).
    { apply Good_trans; [exact HA1|intros [?|?]; discriminate|exact A1]. }
    assert (S2 : side p (log w1) (log (w_inc p (w_set p Running w1)))) by (apply side_cons; left; apply below_self).
    destruct (IH A2 (AncL_side _ _ _ S2 HA1)) as (A3 & B3 & C3 & D3).
    split; [exact A3|]. split; [eapply ext_trans; [exact B1|eapply ext_trans; [|exact B3]; apply ext_cons]|].
    split; [eapply side_trans; [exact C1|eapply side_trans; eassumption]|]. intros _ _ X. congruence.
  - (* D_throw *) intros p w w1 HGD E HS HG HA.
    assert (E' : seen (log w) p = StartT) by (rewrite (GD_HL _ _ HGD); exact E).
    destruct (Good_StartH p w false w1 HS HA E' HG) as (A1 & B1 & C1). split; [exact A1|split; [exact B1|split; [exact C1|discriminate]]].
  - (* D_runx *) intros p w w1 HGD E _ IH HG HA.
    assert (E' : seen (log w) p = Running) by (rewrite (GD_HL _ _ HGD); exact E).
    destruct (IH HG HA (or_introl E')) as (A1 & B1 & C1). split; [exact A1|split; [exact B1|split; [exact C1|discriminate]]].
  - (* D_stay *) intros p w w1 w2 HGD E _ IH E1 HAcc HG HA.
    assert (E' : seen (log w) p = Running) by (rewrite (GD_HL _ _ HGD); exact E).
    destruct (IH HG HA (or_introl E')) as (A1 & B1 & C1). assert (HA1 := AncL_side _ _ _ C1 HA).
    destruct (Good_Acc p w1 false w2 HAcc HA1 A1) as (A2 & B2 & C2 & D2 & _).
    split; [exact A2|split; [eapply ext_trans; eassumption|split; [eapply side_trans; eassumption|]]]. congruence.
  - (* D_end *) intros p w w1 w2 ok w' HGD E _ IH E1 HAcc _ IH2 HG HA.
    assert (E' : seen (log w) p = Running) by (rewrite (GD_HL _ _ HGD); exact E).
    destruct (IH HG HA (or_introl E')) as (A1 & B1 & C1). assert (HA1 := AncL_side _ _ _ C1 HA).
    destruct (Good_Acc p w1 true w2 HAcc HA1 A1) as (A2 & B2 & C2 & D2 & _).
    assert (HA2 := AncL_side _ _ _ C2 HA1).
    assert (A3 : Good (log (w_set p EndT w2))) by (apply Good_trans; [exact HA2|intros [?|?]; discriminate|exact A2]).
    assert (S3 : side p (log w2) (log (w_set p EndT w2))) by (apply side_cons; left; apply below_self).
    destruct (IH2 A3 (AncL_side _ _ _ S3 HA2)) as (A4 & B4 & C4 & D4).
    split; [exact A4|]. split; [eapply ext_trans; [exact B1|eapply ext_trans; [exact B2|eapply ext_trans; [|exact B4]; apply ext_cons]]|].
    split; [eapply side_trans; [exact C1|eapply side_trans; [exact C2|eapply side_trans; eassumption]]|]. congruence.
  - (* D_next *) intros p w ok w' HGD E _ IH HG HA.
    set (s' := if Nat.ltb (cnt (heap w p)) (maxc c p) then Standby else Complete) in *.
    assert (A3 : Good (log (w_set p s' w))).
    { apply Good_trans; [exact HA| |exact HG]. intros _. apply Cov_children; [apply HG|].
      intros K q Hq. rewrite (GD_HL _ _ HGD). eapply GD_end; eassumption. }
    assert (S3 : side p (log w) (log (w_set p s' w))) by (apply side_cons; left; apply below_self).
    destruct (IH A3 (AncL_side _ _ _ S3 HA)) as (A4 & B4 & C4 & D4).
    split; [exact A4|]. split; [eapply ext_trans; [|exact B4]; apply ext_cons|].
    split; [eapply side_trans; eassumption|]. intros _ _ X. rewrite (GD_HL _ _ HGD) in X. congruence.
  - (* D_done *) intros p w HGD E HG HA. split; [exact HG|split; [apply ext_refl|split; [apply side_refl|]]].
    intros _ _ X. rewrite (GD_HL _ _ HGD) in X. congruence.
  - (* D_skipT *) intros p w HGD E HG HA. split; [exact HG|split; [apply ext_refl|split; [apply side_refl|discriminate]]].
  - (* D_stopped *) intros p w w1 ok w' HGD E HAcc _ IH HG HA.
    destruct (Good_Acc p w true w1 HAcc HA HG) as (A2 & B2 & C2 & D2 & F2).
    assert (HA2 := AncL_side _ _ _ C2 HA).
    assert (A3 : Good (log (w_set p Complete w1))).
    { apply Good_trans; [exact HA2| |exact A2]. intros _. apply Cov_children; [apply A2|].
      intros K q Hq. rewrite D2, (GD_HL _ _ HGD). inversion HAcc as [? ? K'|? K' Hall|]; subst.
      - destruct K as [K1 K2]. destruct K'; contradiction.
      - apply Hall; exact Hq. }
    assert (S3 : side p (log w1) (log (w_set p Complete w1))) by (apply side_cons; left; apply below_self).
    destruct (IH A3 (AncL_side _ _ _ S3 HA2)) as (A4 & B4 & C4 & D4).
    split; [exact A4|]. split; [eapply ext_trans; [exact B2|eapply ext_trans; [|exact B4]; apply ext_cons]|].
    split; [eapply side_trans; [exact C2|eapply side_trans; eassumption]|]. intros _ _ X. rewrite (GD_HL _ _ HGD) in X. congruence.
  - (* D_stop *) intros p w w1 w2 ok w' HGD E HAcc _ IHS E2 _ IH HG HA.
    destruct (Good_Acc p w false w1 HAcc HA HG) as (A1 & B1 & C1 & D1 & F1).
    assert (HA1 := AncL_side _ _ _ C1 HA).
    assert (E1 : seen (log w1) p = StopT) by (rewrite D1, (GD_HL _ _ HGD); exact E).
    destruct (IHS A1 HA1 E1) as (A2 & B2 & C2 & D2). assert (HA2 := AncL_side _ _ _ C2 HA1).
    assert (A3 : Good (log (w_set p Complete w2))).
    { apply Good_trans; [exact HA2| |exact A2]. intros _. apply D2; reflexivity. }
    assert (S3 : side p (log w2) (log (w_set p Complete w2))) by (apply side_cons; left; apply below_self).
    destruct (IH A3 (AncL_side _ _ _ S3 HA2)) as (A4 & B4 & C4 & D4).
    split; [exact A4|]. split; [eapply ext_trans; [exact B1|eapply ext_trans; [exact B2|eapply ext_trans; [|exact B4]; apply ext_cons]]|].
    split; [eapply side_trans; [exact C1|eapply side_trans; [exact C2|eapply side_trans; eassumption]]|].
    intros _ _ X. rewrite (GD_HL _ _ HGD) in X. congruence.
  - (* D_stopx *) intros p w w1 w2 HGD E HAcc _ IHS HG HA.
    destruct (Good_Acc p w false w1 HAcc HA HG) as (A1 & B1 & C1 & D1 & F1).
    assert (HA1 := AncL_side _ _ _ C1 HA).
    assert (E1 : seen (log w1) p = StopT) by (rewrite D1, (GD_HL _ _ HGD); exact E).
    destruct (IHS A1 HA1 E1) as (A2 & B2 & C2 & D2).
    split; [exact A2|]. split; [eapply ext_trans; eassumption|]. split; [eapply side_trans; eassumption|discriminate].
  - (* R_action *) intros p w b K HG HA E. cbn [w_ask w_emit log]. split; [|split; [eexists [_; _]; reflexivity|]].
    + apply (Good_ask _ _ _ p); [reflexivity|exact HA|apply (Good_emit _ _ p); [reflexivity|discriminate|exact HA|exact HG]].
    + eapply side_trans; apply side_cons; right; right; discriminate.
  - (* R_all *) intros p w ok w' K _ IH HG HA E. apply IH; assumption.
  - (* Rs_nil *) intros p w HG HA E. split; [exact HG|split; [apply ext_refl|apply side_refl]].
  - (* Rs_exit *) intros p q l w w1 Hq _ IH HG HA E. destruct (children_child _ _ _ Hq) as [i ->].
    destruct (IH HG (AncL_child i p _ HA E)) as (A & B & C & _).
    split; [exact A|split; [exact B|eapply side_child; exact C]].
  - (* Rs_cons *) intros p q l w w1 ok w' Hq HEv IH _ IH2 HG HA E. destruct (children_child _ _ _ Hq) as [i ->].
    destruct (IH HG (AncL_child i p _ HA E)) as (A & B & C & _). assert (C' := side_child _ _ _ _ C).
    assert (E1 : seen (log w1) p = Running \/ seen (log w1) p = StopT).
    { destruct E as [E|E]; [exact (side_parent_run _ _ _ _ C E)|right; exact (side_parent _ _ _ _ C E)]. }
    destruct (IH2 A (AncL_side _ _ _ C' HA) E1) as (A2 & B2 & C2).
    split; [exact A2|split; [eapply ext_trans; eassumption|eapply side_trans; eassumption]].
  - (* S_action *) intros p w K HG HA E. split; [exact HG|split; [apply ext_refl|split; [apply side_refl|]]].
    intros _ r Hr. destruct (inside_inv _ _ Hr) as ((K1 & _) & _). contradiction.
  - (* S_init *) intros p w K HG HA E. split; [exact HG|split; [apply ext_refl|split; [apply side_refl|]]].
    intros _ r Hr. destruct (inside_inv _ _ Hr) as ((_ & K1) & _). contradiction.
  - (* S_all *) intros p w ok w' K _ IH HG HA E. destruct (IH HG HA E (children_NoDup p)) as (A & B & C & _ & D).
    split; [exact A|split; [exact B|split; [exact C|]]]. intros Hok. apply Cov_done. intros _ q Hq. apply D; assumption.
  - (* Ss_nil *) intros p w HG HA E _. split; [exact HG|split; [apply ext_refl|split; [apply side_refl|split; [auto|intros _ q []]]]].
  - (* Ss_exit *) intros p q l w w0 w1 Hq Ep HO HEv IH HG HA E ND. destruct (children_child _ _ _ Hq) as [i ->].
    destruct (Good_Ovc i p w w0 HG HA E HO) as (A0 & B0 & C0 & D0). assert (E0 := side_parent _ _ _ _ C0 E).
    assert (HA0 := AncL_side _ _ _ (side_child _ _ _ _ C0) HA).
    destruct (IH A0 (AncL_child i p _ HA0 (or_intror E0))) as (A1 & B1 & C1 & _).
    assert (C01 := side_trans _ _ _ _ C0 C1). assert (B01 := ext_trans _ _ _ B0 B1).
    split; [exact A1|]. split; [exact B01|]. split; [eapply side_child; exact C01|].
    split; [|discriminate]. intros q Hq' Hn Hd. destruct (children_child _ _ _ Hq') as [x Hx].
    eapply (DoneC_side q x p); [exact Hx| |exact B01|exact C01|exact Hd].
    intros ->. apply Hn. left. symmetry; exact Hx.
  - (* Ss_cons *) intros p q l w w0 w1 ok w' Hq Ep HO HEv IH _ IH2 HG HA E ND. destruct (children_child _ _ _ Hq) as [i ->].
    destruct (Good_Ovc i p w w0 HG HA E HO) as (A0 & B0 & C0 & D0). assert (E0 := side_parent _ _ _ _ C0 E).
    assert (HA0 := AncL_side _ _ _ (side_child _ _ _ _ C0) HA).
    destruct (IH A0 (AncL_child i p _ HA0 (or_intror E0))) as (A1 & B1 & C1 & D1).
    assert (C01 := side_trans _ _ _ _ C0 C1). assert (B01 := ext_trans _ _ _ B0 B1).
    assert (E1 := side_parent _ _ _ _ C1 E0).
    assert (HA1 := AncL_side _ _ _ (side_child _ _ _ _ C01) HA).
    inversion ND as [|? ? Hni ND']; subst.
    destruct (IH2 A1 HA1 E1 ND') as (A2 & B2 & C2 & D2 & F2).
    assert (K : DoneC (log w1) (i :: p)).
    { inversion HEv as [? ? b ? ? ? ? HGE _ _ _ _ HEP _ HH1]; subst.
      apply (DoneC_eval (i :: p) w0 w1 (st (heap w0 (i :: p)))); try assumption; [apply HEP; reflexivity|eapply GE_HL; exact HGE| |reflexivity|].
      - destruct HO as [[Ho ->]|(_ & _ & ->)]; [exact Ho|right; apply st_w_set].
      - intros Es. apply D1; [reflexivity|discriminate|rewrite (GE_HL _ _ HGE); exact Es|exact E0]. }
    split; [exact A2|]. split; [eapply ext_trans; eassumption|]. split; [eapply side_trans; [eapply side_child; exact C01|exact C2]|].
    split.
    + intros q Hq' Hn Hd. apply D2; [exact Hq'|intros H; apply Hn; right; exact H|].
      destruct (children_child _ _ _ Hq') as [x Hx].
      eapply (DoneC_side q x p); [exact Hx| |exact B01|exact C01|exact Hd].
      intros ->. apply Hn. left. symmetry; exact Hx.
    + intros Hok q [<-|Hin]; [|apply F2; assumption]. apply D2; [exact Hq|exact Hni|exact K].
Qed.

Lemma frames_Good env n : forall w, Good (log w) -> CountInv c (w, None) -> Settled w -> HL w ->
  match frames c env n w with Ok _ w' => Good (log w') | Exit w' => Good (log w') | NoFuel => False end.
Proof.
  induction n as [|n IH]; intros w HG HC HS HH; cbn [frames]; [exact HG|].
  assert (X := frame_der c env w HC HS HH).
  assert (Y := evaluate_res c env 7 [] ltac:(simpl; lia) ltac:(simpl; lia) w HC HS (or_introl eq_refl)).
  unfold seqm, bind. unfold frame in *.
  assert (AN : AncL (log w) []) by (intros y Hy; apply sbelow_length in Hy; simpl in Hy; lia).
  destruct (evaluate c env 7 [] w) as [[] w1|w1|]; cbn [res] in Y; [| |exact X].
  - destruct (proj1 eval_effects _ _ _ _ X HG AN) as (A & _). destruct Y as (St & _ & EP & _).
    apply IH; [exact A|eapply CountInv_star; eassumption|exact EP|eapply HL_star; eassumption].
  - destruct (proj1 eval_effects _ _ _ _ X HG AN) as (A & _). exact A.
Qed.

Lemma Good_nil : Good [].
Proof.
  split; [|exact I]. intros y _ r _ [H|[H|H]]; discriminate.
Qed.

Lemma reaches_Good env n w : reaches c env n w -> Good (log w).
Proof.
  intros H. assert (X := frames_Good env n world0 Good_nil).
  assert (HC : CountInv c (world0, None)).
  { intros p _. cbn. split; [intros _; left; reflexivity|lia]. }
  assert (HS : Settled world0) by (intros q; apply settled_other; discriminate).
  assert (HH : HL world0) by (intros q; reflexivity).
  specialize (X HC HS HH). destruct H as [E|E]; rewrite E in X; exact X.
Qed.

Lemma L2_at e l1 l : L2 (l1 ++ e :: l) -> anc_entry e l /\ stop_entry e l.
Proof. induction l1 as [|x l1 IH]; cbn; intros (H1 & H2 & H3); [auto|apply IH; exact H3]. Qed.

Lemma reaches_L2 env n w e l : reaches c env n w -> at_time w e l -> anc_entry e l /\ stop_entry e l.
Proof. intros H (later & E). destruct (reaches_Good _ _ _ H) as [_ X]. rewrite E in X. eapply L2_at; exact X. Qed.

End Stop.
