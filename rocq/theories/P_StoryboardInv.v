(** Invariants of the storyboard engine, proved on the abstract transition system [prim] and
    transferred to every run of [frames]. *)
From Coq Require Import List Arith Bool Lia.
From Verif Require Import M_Storyboard S_Storyboard P_Storyboard.
Import ListNotations.

Lemma child_of_in c q p : child_of c q p <-> In q (children c p).
Proof.
  unfold child_of, children. rewrite in_map_iff. split.
  - intros (i & Hi & ->). exists i; split; [reflexivity|apply in_seq; lia].
  - intros (i & <- & Hi). apply in_seq in Hi. exists i; split; [lia|reflexivity].
Qed.

Section Inv.
Variable c : config.

(** What is known about an entry at the time it is observed. *)
Definition entry_ok (e : entry) (l : list entry) : Prop :=
  match e with
  | Trans p o n =>
    (o = seen l p \/ (kind_of p = KAction /\ o = Complete /\ n = Complete /\ seen l p = StopT)) /\
    lawful c p o n /\
    (n = StartT -> kind_of p = KAct \/ kind_of p = KEvent ->
       exists l', l = Ask (QStartTrigger p) true :: l') /\
    (n = StartT -> o <> Standby -> 
       seen l (tl p) = StartT \/
       (seen l (tl p) = StopT /\ kind_of (tl p) = KEvent /\ prio c (tl p) = Override)) /\
    (n = EndT ->
       match kind_of p with
       | KAction | KInit => exists l', l = Ask (QAccomplished p) true :: l'
       | _ => forall q, child_of c q p -> seen l q = Complete
       end) /\
    (n = Running -> kind_of p = KEvent -> prio c p = Override ->
       forall q, sibling c q p -> seen l q = Standby \/ seen l q = StopT) /\
    (n = Running -> kind_of p = KEvent -> prio c p = Skip ->
       forall q, sibling c q p -> seen l q <> Running) /\
    (n = Running -> kind_of p = KGroup \/ kind_of p = KEvent ->
       forall q, child_of c q p -> seen l q = StartT) /\
    (n = Running -> ~ restartable p -> executions l p = 0 \/ executions l p < maxc c p) /\
    (o = EndT -> n = Complete -> maxc c p <= executions l p) /\
    (o = EndT -> n = Standby -> executions l p < maxc c p) /\
    (n = StopT ->
       (exists l', l = Ask (QStopTrigger p) true :: l' /\ (kind_of p = KStoryboard \/ kind_of p = KAct)) \/
       (p <> [] /\ seen l (tl p) = StopT) \/
       (kind_of p = KEvent /\ exists q, tl q = tl p /\ kind_of q = KEvent /\ prio c q = Override /\
          (seen l q = StartT \/ seen l q = StopT))) /\
    (p <> [] -> n <> StopT -> n <> StartT -> seen l (tl p) = Running \/ seen l (tl p) = StopT) /\
    (p <> [] -> n = StartT ->
       seen l (tl p) = Running \/ seen l (tl p) = StopT \/ 
       (seen l (tl p) = StartT /\ restartable p)) /\
    (~ restartable p -> (exists o', In (Trans p o' Complete) l) -> n = Complete \/ n = StopT) /\
    (o = StartT -> n = Standby -> exists l' q, l = Trans p Standby StartT :: l' /\ sibling c q p /\ seen l' q = Running) /\
    (n = EndT -> kind_of p = KGroup \/ kind_of p = KEvent ->
       forall q, child_of c q p -> executions l q = executions l p)
  | ActionStart p =>
    (kind_of p = KAction \/ kind_of p = KInit) /\ seen l p = StartT /\
    (seen l (tl p) = Running \/ seen l (tl p) = StopT)
  | ActionRun p =>
    (kind_of p = KAction \/ kind_of p = KInit) /\ seen l p = Running /\
    (seen l (tl p) = Running \/ seen l (tl p) = StopT)
  | Ask _ _ => True
  end.

Fixpoint log_ok (l : list entry) : Prop :=
  match l with [] => True | e :: l' => entry_ok e l' /\ log_ok l' end.

Lemma log_ok_at e l1 l : log_ok (l1 ++ e :: l) -> entry_ok e l.
Proof. induction l1 as [|x l1 IH]; cbn; intros [H1 H2]; [exact H1|apply IH; exact H2]. Qed.

Lemma seen_same p o n l : seen (Trans p o n :: l) p = n.
Proof. cbn. rewrite path_eqb_refl; reflexivity. Qed.
Lemma seen_other p q o n l : p <> q -> seen (Trans p o n :: l) q = seen l q.
Proof. intros H; cbn. rewrite path_eqb_neq by exact H; reflexivity. Qed.

Lemma exec_same p o l : executions (Trans p o Running :: l) p = S (executions l p).
Proof. cbn. rewrite path_eqb_refl; reflexivity. Qed.
Lemma exec_other p q o n l : p <> q \/ n <> Running -> executions (Trans p o n :: l) q = executions l q.
Proof. intros [H|H]; destruct n; cbn; try reflexivity; try congruence. rewrite path_eqb_neq by exact H; reflexivity. Qed.

Lemma parent_neq (p : path) : p <> [] -> p <> tl p.
Proof. intros H E. destruct p; [congruence|]. apply (f_equal (@length nat)) in E. simpl in E. lia. Qed.

Lemma HL_set w p s : (forall q, seen (log w) q = st (heap w q)) ->
  forall q, seen (log (w_set p s w)) q = st (heap (w_set p s w) q).
Proof.
  intros H q. destruct (path_dec q p) as [->|Hn].
  - rewrite st_w_set. apply seen_same.
  - rewrite heap_w_set_other by exact Hn. cbn [w_set log]. rewrite seen_other by congruence. apply H.
Qed.

Lemma HL_prim x y : prim c x y -> (forall q, seen (log (fst x)) q = st (heap (fst x) q)) ->
  forall q, seen (log (fst y)) q = st (heap (fst y) q).
Proof.
  intros Hp HL; destruct Hp; cbn [fst] in *; try (apply HL_set; exact HL); try exact HL.
  - apply HL_set, HL_set, HL.
  - intros q. assert (H6 := HL_set w p Running HL q). cbn [w_inc log heap]. rewrite H6.
    destruct (path_dec q p) as [->|Hn]; [rewrite upd_same; reflexivity|rewrite upd_other by exact Hn; reflexivity].
  - intros q. destruct (path_dec q p) as [->|Hn].
    + rewrite st_w_set. cbn [w_set log]. apply seen_same.
    + rewrite heap_w_set_other by exact Hn. cbn [w_set w_astop log heap]. rewrite seen_other by congruence.
      rewrite upd_other by exact Hn. apply HL.
Qed.

Lemma cnt_prim x y : prim c x y -> (forall q, cnt (heap (fst x) q) = executions (log (fst x)) q) ->
  forall q, cnt (heap (fst y) q) = executions (log (fst y)) q.
Proof.
  assert (HS : forall w p s, s <> Running -> (forall q, cnt (heap w q) = executions (log w) q) ->
            forall q, cnt (heap (w_set p s w) q) = executions (log (w_set p s w)) q).
  { intros w p s Hs H q. rewrite cnt_w_set. cbn [w_set log]. rewrite exec_other by (right; exact Hs). apply H. }
  intros Hp HL; destruct Hp; cbn [fst] in *; try (apply HS; [discriminate|exact HL]); try exact HL.
  - apply HS; [discriminate|]. apply HS; [discriminate|exact HL].
  - intros q. cbn [w_inc w_set log heap]. destruct (path_dec q p) as [->|Hn].
    + rewrite !upd_same. cbn [cnt]. rewrite exec_same, HL; reflexivity.
    + rewrite !upd_other by exact Hn. rewrite exec_other by (left; congruence). apply HL.
  - apply HS; [destruct (Nat.ltb _ _); discriminate|exact HL].
  - apply HS; [discriminate|]. intros q. cbn [w_astop heap log].
    destruct (path_dec q p) as [->|Hn]; [rewrite upd_same|rewrite upd_other by exact Hn; apply HL].
    destruct (ovr _); cbn; apply HL.
Qed.

Lemma skipT_prim x y : prim c x y -> (forall q, st (heap (fst x) q) <> SkipT) ->
  forall q, st (heap (fst y) q) <> SkipT.
Proof.
  assert (HS : forall w p s, s <> SkipT -> (forall q, st (heap w q) <> SkipT) ->
            forall q, st (heap (w_set p s w) q) <> SkipT).
  { intros w p s Hs H q. destruct (path_dec q p) as [->|Hn]; [rewrite st_w_set; exact Hs|rewrite heap_w_set_other by exact Hn; apply H]. }
  intros Hp HL; destruct Hp; cbn [fst] in *; try (apply HS; [discriminate|exact HL]); try exact HL.
  - apply HS; [discriminate|]. apply HS; [discriminate|exact HL].
  - intros q. cbn [w_inc w_set heap]. destruct (path_dec q p) as [->|Hn].
    + rewrite !upd_same. discriminate.
    + rewrite !upd_other by exact Hn. apply HL.
  - apply HS; [destruct (Nat.ltb _ _); discriminate|exact HL].
  - apply HS; [discriminate|]. intros q. cbn [w_astop heap].
    destruct (path_dec q p) as [->|Hn]; [rewrite upd_same|rewrite upd_other by exact Hn; apply HL].
    destruct (ovr _); cbn; [discriminate|apply HL].
Qed.

Lemma pos_prim x y : prim c x y ->
  (forall q, st (heap (fst x) q) = Running \/ st (heap (fst x) q) = EndT -> 1 <= cnt (heap (fst x) q)) ->
  (forall q, st (heap (fst y) q) = Running \/ st (heap (fst y) q) = EndT -> 1 <= cnt (heap (fst y) q)).
Proof.
  assert (HS : forall w p s, (s = Running \/ s = EndT -> 1 <= cnt (heap w p)) ->
     (forall q, st (heap w q) = Running \/ st (heap w q) = EndT -> 1 <= cnt (heap w q)) ->
      forall q, st (heap (w_set p s w) q) = Running \/ st (heap (w_set p s w) q) = EndT -> 1 <= cnt (heap (w_set p s w) q)).
  { intros w p s Hs H q. rewrite cnt_w_set. destruct (path_dec q p) as [->|Hn]; [rewrite st_w_set; exact Hs|rewrite heap_w_set_other by exact Hn; apply H]. }
  intros Hp HL; destruct Hp; cbn [fst] in *; try (apply HS; [intros [?|?]; discriminate|exact HL]); try exact HL.
  - apply HS; [intros [?|?]; discriminate|]. apply HS; [intros [?|?]; discriminate|exact HL].
  - intros q. cbn [w_inc w_set heap]. destruct (path_dec q p) as [->|Hn].
    + rewrite !upd_same. cbn. lia.
    + rewrite !upd_other by exact Hn. apply HL.
  - apply HS; [intros _; apply HL; auto|exact HL].
  - apply HS; [destruct (Nat.ltb _ _); intros [?|?]; discriminate|exact HL].
  - apply HS; [intros [?|?]; discriminate|]. intros q. cbn [w_astop heap].
    destruct (path_dec q p) as [->|Hn]; [rewrite upd_same|rewrite upd_other by exact Hn; apply HL].
    destruct (ovr _); cbn; [intros [?|?]; discriminate|apply HL].
Qed.

Definition GhostInv (x : world * option path) : Prop :=
  forall p, snd x = Some p -> kind_of p = KEvent /\ prio c p = Override /\
    (st (heap (fst x) p) = StartT \/ st (heap (fst x) p) = StopT).

Lemma ghost_prim x y : prim c x y -> GhostInv x -> GhostInv y.
Proof.
  intros Hp HG; destruct Hp; unfold GhostInv in *; cbn [fst snd] in *; intros r Hr; try discriminate;
    try (exact (HG r Hr)).
  - destruct (HG r Hr) as (A & B & C). split; [exact A|split; [exact B|]].
    destruct (path_dec r p) as [->|Hn]; [rewrite st_w_set; auto|rewrite heap_w_set_other by exact Hn; exact C].
  - injection Hr as <-. auto.
  - injection Hr as <-. split; [assumption|split; [assumption|rewrite st_w_set; auto]].
  - destruct (HG r Hr) as (A & B & C). split; [exact A|split; [exact B|]].
    rewrite heap_w_set_other; [exact C|]. intros ->; contradiction.
Qed.

Definition ChildInv (x : world * option path) : Prop :=
  let (w, g) := x in
  forall p q, kind_of p = KGroup \/ kind_of p = KEvent -> In q (children c p) ->
     (st (heap w p) = Standby \/ st (heap w p) = EndT -> st (heap w q) = Standby \/ st (heap w q) = Complete) /\
     (st (heap w p) = StartT \/ g = Some p ->
        st (heap w q) = Standby \/ st (heap w q) = Complete \/ st (heap w q) = StartT).

Lemma in_children_tl q p : In q (children c p) -> tl q = p /\ q <> p /\ q <> [].
Proof.
  intros H; apply children_child in H; destruct H as [i ->]. split; [reflexivity|split; [apply child_neq|discriminate]].
Qed.

(** a change of a child while its parent runs or is being stopped *)
Lemma child_self w p s p0 q0 : ChildInv (w, None) -> parent_ok w p ->
  (kind_of p = KGroup \/ kind_of p = KEvent ->
   forall q, In q (children c p) ->
     (s = Standby \/ s = EndT -> st (heap w q) = Standby \/ st (heap w q) = Complete) /\
     (s = StartT -> st (heap w q) = Standby \/ st (heap w q) = Complete \/ st (heap w q) = StartT)) ->
  kind_of p0 = KGroup \/ kind_of p0 = KEvent -> In q0 (children c p0) ->
  (st (heap (w_set p s w) p0) = Standby \/ st (heap (w_set p s w) p0) = EndT ->
     st (heap (w_set p s w) q0) = Standby \/ st (heap (w_set p s w) q0) = Complete) /\
  (st (heap (w_set p s w) p0) = StartT \/ None = Some p0 ->
     st (heap (w_set p s w) q0) = Standby \/ st (heap (w_set p s w) q0) = Complete \/ st (heap (w_set p s w) q0) = StartT).
Proof.
  intros HC HPO HN Kp0 Hq0. destruct (in_children_tl _ _ Hq0) as (Ht & Hne & Hn0).
  destruct (path_dec p0 p) as [->|Hp0].
  - rewrite st_w_set. rewrite (heap_w_set_other p s w q0) by exact Hne.
    destruct (HN Kp0 q0 Hq0) as [A B]. split; [exact A|]. intros [H|H]; [apply B; exact H|discriminate].
  - rewrite (heap_w_set_other p s w p0) by exact Hp0.
    destruct (path_dec q0 p) as [->|Hq].
    + destruct HPO as [H|H]; [contradiction|]. rewrite Ht in H.
      split; intros [H'|H']; destruct H; congruence.
    + rewrite (heap_w_set_other p s w q0) by exact Hq. apply HC; assumption.
Qed.

Lemma child_prim x y : prim c x y -> ChildInv x -> GhostInv x -> ChildInv y.
Proof.
  intros Hp HC HG; destruct Hp; cbn [ChildInv] in *; try exact HC; intros p0 q0 Kp0 Hq0;
    destruct (in_children_tl _ _ Hq0) as (Ht & Hne & Hn0).
  - (* start *) apply child_self; try assumption. intros K q Hq. destruct (HC p q K Hq) as [A B].
    split; [intros [?|?]; discriminate|]. intros _. destruct (A (or_introl H0)); auto.
  - (* skip *)
    assert (HC' : ChildInv (w_set p StartT w, None)).
    { intros p1 q1 K1 Hq1. apply child_self; try assumption. intros K q Hq. destruct (HC p q K Hq) as [A B].
      split; [intros [?|?]; discriminate|]. intros _. destruct (A (or_introl H0)); auto. }
    apply child_self; try assumption.
    + destruct H as [H|H]; [left; exact H|right]. rewrite heap_w_set_other; [exact H|].
      intros E; symmetry in E; revert E. apply parent_neq. intros ->; discriminate.
    + intros K q Hq. destruct (HC p q K Hq) as [A B]. destruct (in_children_tl _ _ Hq) as (_ & Hqp & _).
      rewrite heap_w_set_other by exact Hqp. split; [intros _; apply A; auto|discriminate].
  - (* forced *)
    destruct (path_dec p0 p) as [->|Hp0].
    + exfalso. destruct H as [H|H], Kp0 as [K|K]; congruence.
    + rewrite (heap_w_set_other p StartT w p0) by exact Hp0.
      destruct (path_dec q0 p) as [->|Hq].
      * rewrite st_w_set. split; [|auto].
        intros [E|E]; exfalso; destruct H2 as [[_ H2]|H2]; try (rewrite Ht in H2; congruence);
          rewrite Ht in H2; destruct (HG p0 H2) as (_ & _ & [G|G]); cbn [fst] in G; congruence.
      * rewrite (heap_w_set_other p StartT w q0) by exact Hq. apply HC; assumption.
  - (* enter *) destruct (HC p0 q0 Kp0 Hq0) as [A B]. split; [exact A|].
    intros [E|E]; [apply B; auto|]. injection E as <-. apply B; auto.
  - (* selfstop *)
    destruct (path_dec p0 p) as [->|Hp0].
    + rewrite st_w_set. rewrite (heap_w_set_other p StopT w q0) by exact Hne. destruct (HC p q0 Kp0 Hq0) as [A B].
      split; [intros [?|?]; discriminate|auto].
    + rewrite (heap_w_set_other p StopT w p0) by exact Hp0.
      destruct (path_dec q0 p) as [->|Hq].
      * exfalso. rewrite <- Ht in Kp0. apply kind_len_event in H. destruct Kp0 as [K|K];
          [apply kind_len_group in K|apply kind_len_event in K]; destruct p; simpl in *; lia.
      * rewrite (heap_w_set_other p StopT w q0) by exact Hq. apply HC; assumption.
  - (* override *)
    destruct (path_dec p0 p) as [->|Hp0].
    + rewrite st_w_set. split; intros [?|?]; congruence.
    + rewrite (heap_w_set_other p StopT w p0) by exact Hp0.
      destruct (path_dec q0 p) as [->|Hq].
      * destruct H3 as [(_ & l & _ & [K|K])|[(-> & _ & E)|(K & _)]].
        -- apply kind_storyboard in K. congruence.
        -- exfalso. rewrite <- Ht in Kp0. apply kind_len_act in K. destruct Kp0 as [K'|K'];
             [apply kind_len_group in K'|apply kind_len_event in K']; destruct p; simpl in *; lia.
        -- rewrite Ht in E. split; intros [?|?]; congruence.
        -- exfalso. rewrite <- Ht in Kp0. apply kind_len_event in K. destruct Kp0 as [K'|K'];
             [apply kind_len_group in K'|apply kind_len_event in K']; destruct p; simpl in *; lia.
      * rewrite (heap_w_set_other p StopT w q0) by exact Hq. apply HC; assumption.
  - (* run *)
    assert (HQ : forall q, st (heap (w_inc p (w_set p Running w)) q) = st (heap (w_set p Running w) q)).
    { intros q. cbn [w_inc heap]. destruct (path_dec q p) as [->|Hn]; [rewrite upd_same; reflexivity|rewrite upd_other by exact Hn; reflexivity]. }
    rewrite !HQ.
    destruct (path_dec p0 p) as [->|Hp0].
    + rewrite st_w_set. split; intros [?|?]; discriminate.
    + rewrite (heap_w_set_other p Running w p0) by exact Hp0.
      destruct (path_dec q0 p) as [->|Hq].
      * destruct H as [H|H]; [contradiction|]. rewrite Ht in H. split; intros [?|?]; destruct H; congruence.
      * rewrite (heap_w_set_other p Running w q0) by exact Hq. destruct (HC p0 q0 Kp0 Hq0) as [A B].
        split; [exact A|]. intros [E|E]; [apply B; auto|discriminate].
  - (* end *) apply child_self; try assumption. intros K q Hq. split; [|discriminate].
    intros _. right. unfold done_ok in H1. destruct K as [K|K]; rewrite K in H1; apply H1; exact Hq.
  - (* next *) apply child_self; try assumption. intros K q Hq. destruct (HC p q K Hq) as [A B].
    split; [intros _; apply A; auto|destruct (Nat.ltb _ _); discriminate].
  - (* complete *) apply child_self; try assumption. intros K q Hq. split; [intros [?|?]; discriminate|discriminate].
  - (* astop *)
    destruct (path_dec p0 p) as [->|Hp0].
    + rewrite st_w_set. split; intros [?|?]; discriminate.
    + rewrite (heap_w_set_other p Complete _ p0) by exact Hp0. cbn [w_astop heap]. rewrite (upd_other _ _ _ p0) by exact Hp0.
      destruct (path_dec q0 p) as [->|Hq].
      * destruct H as [H|H]; [contradiction|]. rewrite Ht in H. split; intros [?|?]; destruct H; congruence.
      * rewrite (heap_w_set_other p Complete _ q0) by exact Hq. cbn [w_astop heap]. rewrite (upd_other _ _ _ q0) by exact Hq. apply HC; assumption.
Qed.

Definition DeadInv (x : world * option path) : Prop :=
  forall p, ~ restartable p -> (exists o, In (Trans p o Complete) (log (fst x))) ->
     (st (heap (fst x) p) = Complete \/ st (heap (fst x) p) = StopT) /\ snd x <> Some p.

Lemma dead_set w g g' p s : DeadInv (w, g) ->
  (~ restartable p -> (exists o, In (Trans p o Complete) (log w)) \/ s = Complete ->
     (s = Complete \/ s = StopT) /\ g' <> Some p) ->
  (g' = g \/ g' = None) ->
  DeadInv (w_set p s w, g').
Proof.
  intros HD Hs Hg r Hr [o Ho]; cbn [fst snd] in *.
  destruct (path_dec r p) as [->|Hn].
  - rewrite st_w_set. apply Hs; [exact Hr|]. cbn [w_set log] in Ho. destruct Ho as [Ho|Ho]; [right; congruence|left; exists o; exact Ho].
  - rewrite heap_w_set_other by exact Hn. cbn [w_set log] in Ho. destruct Ho as [Ho|Ho]; [congruence|].
    destruct (HD r Hr (ex_intro _ o Ho)) as [A B]. split; [exact A|]. cbn [snd] in B. destruct Hg as [-> | ->]; [exact B|discriminate].
Qed.

Lemma dead_prim x y : prim c x y -> DeadInv x -> DeadInv y.
Proof.
  intros Hp HD; destruct Hp; try exact HD.
  - (* ask *) intros r Hr [o [Ho|Ho]]; [discriminate|]. exact (HD r Hr (ex_intro _ o Ho)).
  - intros r Hr [o [Ho|Ho]]; [discriminate|]. exact (HD r Hr (ex_intro _ o Ho)).
  - intros r Hr [o [Ho|Ho]]; [discriminate|]. exact (HD r Hr (ex_intro _ o Ho)).
  - (* start *) apply dead_set with (g := None); auto.
    intros Hr [E|E]; [|discriminate]. destruct (HD p Hr E) as [[A|A] _]; cbn [fst] in A; congruence.
  - (* skip *) apply dead_set with (g := None); auto.
    + apply dead_set with (g := None); auto.
      intros Hr [E|E]; [|discriminate]. destruct (HD p Hr E) as [[A|A] _]; cbn [fst] in A; congruence.
    + intros Hr [[o [E|E]]|E]; try discriminate. destruct (HD p Hr (ex_intro _ o E)) as [[A|A] _]; cbn [fst] in A; congruence.
  - (* forced *) apply dead_set with (g := g); auto. intros Hr _. contradiction.
  - (* enter *) intros r Hr E. destruct (HD r Hr E) as [A B]. cbn [fst snd] in *. split; [exact A|].
    intros X; injection X as <-. destruct A; congruence.
  - (* selfstop *) apply dead_set with (g := Some p); auto.
    intros Hr [E|E]; [|discriminate]. destruct (HD p Hr E) as [A B]. cbn [fst snd] in *. congruence.
  - (* override *) apply dead_set with (g := g); auto.
  - (* run *)
    assert (HH : DeadInv (w_set p Running w, None)).
    { apply dead_set with (g := g); auto.
      intros Hr [E|E]; [|discriminate]. destruct (HD p Hr E) as [A B]. cbn [fst snd] in *.
      destruct H0 as [(_ & E0 & _)|(E0 & _)]; [destruct A; congruence|congruence]. }
    intros r Hr E. destruct (HH r Hr E) as [A B]. cbn [fst snd] in *. split; [|exact B].
    cbn [w_inc heap]. destruct (path_dec r p) as [->|Hn]; [rewrite upd_same; exact A|rewrite upd_other by exact Hn; exact A].
  - (* end *) apply dead_set with (g := None); auto.
    intros Hr [E|E]; [|discriminate]. destruct (HD p Hr E) as [[A|A] _]; cbn [fst] in A; congruence.
  - (* next *) apply dead_set with (g := None); auto.
    intros Hr [E|E]; [destruct (HD p Hr E) as [[A|A] _]; cbn [fst] in A; congruence|].
    rewrite E. split; [auto|discriminate].
  - (* complete *) apply dead_set with (g := None); auto. split; [auto|discriminate].
  - (* astop *) apply dead_set with (g := None); auto; [|split; [auto|discriminate]].
    intros r Hr E. destruct (HD r Hr E) as [A B]. cbn [fst snd w_astop heap] in *. split; [|exact B].
    destruct (path_dec r p) as [->|Hn]; [rewrite upd_same|rewrite upd_other by exact Hn; exact A].
    destruct (ovr _); cbn; auto.
Qed.

Definition b2n (s : state) : nat := match s with StartT => 1 | _ => 0 end.

(** Executions of the children of a ManeuverGroup or Event follow those of the parent. *)
Definition ReInv (x : world * option path) : Prop :=
  let (w, g) := x in
  forall p q, kind_of p = KGroup \/ kind_of p = KEvent -> In q (children c p) ->
    (st (heap w p) = Standby \/ st (heap w p) = StartT \/ st (heap w p) = EndT \/ g = Some p ->
       cnt (heap w q) = cnt (heap w p)) /\
    (st (heap w p) = Running -> cnt (heap w q) + b2n (st (heap w q)) = cnt (heap w p)) /\
    (st (heap w p) = StopT \/ st (heap w p) = Complete -> g <> Some p ->
       cnt (heap w q) + b2n (st (heap w q)) <= cnt (heap w p)) /\
    (st (heap w p) <> Standby -> st (heap w p) <> StartT -> g <> Some p -> st (heap w q) <> Standby).

Lemma restartable_dec p : restartable p \/ ~ restartable p.
Proof. unfold restartable. destruct (kind_of p); auto; right; intros [?|?]; discriminate. Qed.

Lemma child_kind p q : kind_of p = KGroup \/ kind_of p = KEvent -> In q (children c p) ->
  restartable q /\ maxc c q = 1.
Proof.
  intros K Hq. apply children_child in Hq; destruct Hq as [i ->].
  assert (restartable (i :: p)).
  { destruct K as [K|K]; [left; apply kind_len_maneuver; apply kind_len_group in K|right; apply kind_len_action; apply kind_len_event in K]; simpl; lia. }
  split; [assumption|]. unfold maxc. destruct H as [->| ->]; reflexivity.
Qed.

Ltac rw_set x :=
  match goal with
  | |- context [heap (w_set ?p ?s ?w) x] => rewrite (heap_w_set_other p s w x) by assumption
  end.

Lemma re_prim x y : prim c x y -> ReInv x -> GhostInv x -> ChildInv x -> (forall q, st (heap (fst x) q) <> SkipT) ->
  (forall q, st (heap (fst x) q) = Running \/ st (heap (fst x) q) = EndT -> 1 <= cnt (heap (fst x) q)) ->
  ReInv y.
Proof.
  intros Hp HR HG HChi HSk HPos; destruct Hp; cbn [ReInv fst snd ChildInv] in *; try exact HR; intros p0 q0 Kp0 Hq0;
    destruct (in_children_tl _ _ Hq0) as (Ht & Hne & Hn0);
    destruct (child_kind p0 q0 Kp0 Hq0) as (Rq & Mq);
    destruct (HR p0 q0 Kp0 Hq0) as (R1 & R2 & R3 & R4); rewrite ?cnt_w_set.
  - (* start *)
    destruct (path_dec p0 p) as [->|Hp0].
    + rewrite st_w_set. rewrite (heap_w_set_other p StartT w q0) by exact Hne.
      split; [intros _; apply R1; auto|]. split; [discriminate|]. split; [intros [?|?]; discriminate|congruence].
    + rewrite (heap_w_set_other p StartT w p0) by exact Hp0.
      destruct (path_dec q0 p) as [->|Hq]; [|rewrite (heap_w_set_other p StartT w q0) by exact Hq; auto].
      destruct H as [H|H]; [contradiction|]. rewrite Ht in H. exfalso.
      apply R4; try assumption; destruct H; congruence.
  - (* skip *)
    destruct (path_dec p0 p) as [->|Hp0].
    + rewrite !st_w_set. rewrite !(heap_w_set_other p _ _ q0) by exact Hne.
      split; [intros _; apply R1; auto|]. split; [discriminate|]. split; [intros [?|?]; discriminate|congruence].
    + rewrite !(heap_w_set_other p _ _ p0) by exact Hp0.
      destruct (path_dec q0 p) as [->|Hq]; [|rewrite !(heap_w_set_other p _ _ q0) by exact Hq; auto].
      exfalso. destruct Rq; congruence.
  - (* forced *)
    destruct (path_dec p0 p) as [->|Hp0].
    + exfalso. destruct H as [H|H], Kp0 as [K|K]; congruence.
    + rewrite (heap_w_set_other p StartT w p0) by exact Hp0.
      destruct (path_dec q0 p) as [->|Hq]; [|rewrite (heap_w_set_other p StartT w q0) by exact Hq; auto].
      rewrite st_w_set. rewrite Ht in H2. 
      split; [exact R1|]. split.
      { intros E. exfalso. destruct H2 as [[_ E2]|E2]; [congruence|]. destruct (HG p0 E2) as (_ & _ & [G|G]); cbn [fst] in G; congruence. }
      split; [|discriminate].
      intros E Hg. exfalso. destruct H2 as [[_ E2]|E2]; [destruct E; congruence|contradiction].
  - (* enter *)
    split; [|split; [exact R2|split]].
    + intros [E|[E|[E|E]]]; auto. injection E as <-. auto.
    + intros E Hg. apply R3; [exact E|discriminate].
    + intros E1 E2 _. apply R4; [exact E1|exact E2|discriminate].
  - (* selfstop *)
    destruct (path_dec p0 p) as [->|Hp0].
    + rewrite st_w_set. rewrite (heap_w_set_other p StopT w q0) by exact Hne.
      split; [intros _; apply R1; auto|]. split; [discriminate|]. split; [congruence|congruence].
    + rewrite (heap_w_set_other p StopT w p0) by exact Hp0.
      destruct (path_dec q0 p) as [->|Hq]; [|rewrite (heap_w_set_other p StopT w q0) by exact Hq; auto].
      exfalso. destruct Rq; congruence.
  - (* override *)
    destruct (path_dec p0 p) as [->|Hp0].
    + rewrite st_w_set. rewrite (heap_w_set_other p StopT w q0) by exact Hne.
      assert (NF : ~ restartable p). { intros [K|K]; destruct Kp0 as [K'|K']; congruence. }
      destruct H2 as [Ha Hb]. specialize (Hb NF).
      split; [intros [?|[?|[?|?]]]; congruence|]. split; [discriminate|]. split; [|intros _ _ _; apply R4; assumption].
      intros _ _. assert (Hs := HSk p). destruct (st (heap w p)) eqn:E; try congruence; [rewrite (R2 eq_refl); lia|apply R3; auto].
    + rewrite (heap_w_set_other p StopT w p0) by exact Hp0.
      destruct (path_dec q0 p) as [->|Hq]; [|rewrite (heap_w_set_other p StopT w q0) by exact Hq; auto].
      rewrite st_w_set. destruct H3 as [(_ & l & _ & [K|K])|[(-> & _ & E)|(K & _)]];
        [exfalso; destruct Rq; congruence|exfalso; destruct Rq; congruence| |exfalso; destruct Rq; congruence].
      rewrite Ht in E. split; [intros [?|[?|[?|?]]]; congruence|]. split; [congruence|].
      split; [|discriminate]. intros _ _. assert (X := R3 (or_introl E) ltac:(discriminate)). cbn [b2n]. lia.
  - (* run *)
    assert (HQ : forall q, st (heap (w_inc p (w_set p Running w)) q) = st (heap (w_set p Running w) q)).
    { intros q. cbn [w_inc heap]. destruct (path_dec q p) as [->|Hn]; [rewrite upd_same; reflexivity|rewrite upd_other by exact Hn; reflexivity]. }
    assert (HN1 : cnt (heap (w_inc p (w_set p Running w)) p) = S (cnt (heap w p))).
    { cbn [w_inc heap]. rewrite upd_same. cbn [cnt]. rewrite cnt_w_set; reflexivity. }
    assert (HN2 : forall q, q <> p -> cnt (heap (w_inc p (w_set p Running w)) q) = cnt (heap w q)).
    { intros q Hq. cbn [w_inc heap]. rewrite upd_other by exact Hq. apply cnt_w_set. }
    rewrite !HQ.
    destruct (path_dec p0 p) as [->|Hp0].
    + rewrite st_w_set. rewrite (heap_w_set_other p Running w q0) by exact Hne.
      rewrite HN1, (HN2 q0 Hne).
      assert (E : cnt (heap w q0) = cnt (heap w p)).
      { apply R1. destruct H0 as [(_ & E & _)|(E & _)]; auto. }
      rewrite (H2 Kp0 q0 Hq0). cbn [b2n].
      split; [intros [?|[?|[?|?]]]; congruence|]. split; [intros _; lia|]. split; [intros [?|?]; discriminate|discriminate].
    + rewrite (heap_w_set_other p Running w p0) by exact Hp0. rewrite (HN2 p0 Hp0).
      destruct (path_dec q0 p) as [->|Hq].
      * rewrite st_w_set, HN1. cbn [b2n].
        assert (Eg : g = None /\ st (heap w p) = StartT).
        { destruct H0 as [(E & E' & _)|(E & _ & K & _)]; [auto|]. exfalso; destruct Rq; congruence. }
        destruct Eg as [-> Es]. rewrite Es in *. cbn [b2n] in *.
        destruct H as [H|H]; [contradiction|]. rewrite Ht in H.
        split; [intros [?|[?|[?|?]]]; destruct H; congruence|].
        split; [intros E; rewrite <- (R2 E); lia|]. split; [|discriminate].
        intros E _. assert (X := R3 E ltac:(discriminate)). lia.
      * rewrite (heap_w_set_other p Running w q0) by exact Hq. rewrite (HN2 q0 Hq).
        assert (Hg : g <> Some p0).
        { destruct H0 as [(E & _)|(E & _)]; congruence. }
        split; [intros [?|[?|[?|?]]]; auto; discriminate|]. split; [exact R2|].
        split; [intros E _; apply R3; auto|intros E1 E2 _; apply R4; auto].
  - (* end *)
    destruct (path_dec p0 p) as [->|Hp0].
    + rewrite st_w_set. rewrite (heap_w_set_other p EndT w q0) by exact Hne.
      assert (E : st (heap w q0) = Complete).
      { unfold done_ok in H1. destruct Kp0 as [K|K]; rewrite K in H1; apply H1; exact Hq0. }
      assert (X := R2 H0). rewrite E in *. cbn [b2n] in X.
      split; [intros _; lia|]. split; [discriminate|]. split; [intros [?|?]; discriminate|discriminate].
    + rewrite (heap_w_set_other p EndT w p0) by exact Hp0.
      destruct (path_dec q0 p) as [->|Hq]; [|rewrite (heap_w_set_other p EndT w q0) by exact Hq; auto].
      rewrite st_w_set. rewrite H0 in *. cbn [b2n] in *.
      split; [exact R1|split; [exact R2|split; [exact R3|discriminate]]].
  - (* next *)
    destruct (path_dec p0 p) as [->|Hp0].
    + rewrite st_w_set. rewrite (heap_w_set_other p _ w q0) by exact Hne.
      assert (X := R1 (or_intror (or_intror (or_introl H0)))).
      assert (Y : st (heap w q0) <> Standby) by (apply R4; congruence).
      assert (Z : b2n (st (heap w q0)) = 0 \/ st (heap w q0) = StartT) by (destruct (st (heap w q0)); auto).
      destruct (Nat.ltb _ _).
      * split; [intros _; exact X|]. split; [discriminate|]. split; [intros [?|?]; discriminate|congruence].
      * split; [intros _; exact X|]. split; [discriminate|]. split; [|intros _ _ _; exact Y].
        intros _ _. destruct Z as [Z|Z]; [lia|]. exfalso. destruct (HChi p q0 Kp0 Hq0) as [A _]. destruct (A (or_intror H0)); congruence.
    + rewrite (heap_w_set_other p _ w p0) by exact Hp0.
      destruct (path_dec q0 p) as [->|Hq]; [|rewrite (heap_w_set_other p _ w q0) by exact Hq; auto].
      rewrite st_w_set. rewrite Mq. assert (X := HPos p (or_intror H0)).
      destruct (Nat.ltb_spec (cnt (heap w p)) 1); [lia|].
      rewrite H0 in *. cbn [b2n] in *.
      split; [exact R1|split; [exact R2|split; [exact R3|discriminate]]].
  - (* complete *)
    destruct (path_dec p0 p) as [->|Hp0].
    + rewrite st_w_set. rewrite (heap_w_set_other p _ w q0) by exact Hne.
      split; [intros [?|[?|[?|?]]]; discriminate|]. split; [discriminate|]. split; [auto|].
      intros _ _ _. apply R4; congruence.
    + rewrite (heap_w_set_other p _ w p0) by exact Hp0.
      destruct (path_dec q0 p) as [->|Hq]; [|rewrite (heap_w_set_other p _ w q0) by exact Hq; auto].
      rewrite st_w_set. rewrite H0 in *. cbn [b2n] in *.
      split; [exact R1|split; [exact R2|split; [exact R3|discriminate]]].
  - (* astop *)
    assert (HC0 : forall q, cnt (heap (w_astop p w) q) = cnt (heap w q)).
    { intros q. cbn [w_astop heap]. destruct (path_dec q p) as [->|Hn]; [rewrite upd_same; destruct (ovr _); reflexivity|rewrite upd_other by exact Hn; reflexivity]. }
    rewrite !HC0.
    destruct (path_dec p0 p) as [->|Hp0]; [exfalso; destruct Kp0; congruence|].
    rewrite (heap_w_set_other p _ _ p0) by exact Hp0. cbn [w_astop heap]. rewrite (upd_other _ _ _ p0) by exact Hp0.
    destruct (path_dec q0 p) as [->|Hq].
    + rewrite st_w_set. rewrite H1 in *. cbn [b2n] in *.
      split; [exact R1|split; [exact R2|split; [exact R3|discriminate]]].
    + rewrite (heap_w_set_other p _ _ q0) by exact Hq. cbn [w_astop heap]. rewrite (upd_other _ _ _ q0) by exact Hq. auto.
Qed.

Definition Inv (x : world * option path) : Prop :=
  (forall q, seen (log (fst x)) q = st (heap (fst x) q)) /\
  (forall q, cnt (heap (fst x) q) = executions (log (fst x)) q) /\
  (forall q, st (heap (fst x) q) <> SkipT) /\
  (forall q, st (heap (fst x) q) = Running \/ st (heap (fst x) q) = EndT -> 1 <= cnt (heap (fst x) q)) /\
  GhostInv x /\ ChildInv x /\ DeadInv x /\ CountInv c x /\ ReInv x /\ log_ok (log (fst x)).

Lemma kind_noncomposite p : kind_of p = KGroup \/ kind_of p = KEvent \/ maxc c p = 1.
Proof. unfold maxc. destruct (kind_of p); auto. Qed.

Lemma not_nil_of_restartable p : restartable p -> p <> [].
Proof. intros [H|H] ->; discriminate. Qed.

Lemma running_events_pos h m : 0 < running_events c h m -> exists q, In q (children c m) /\ st (h q) = Running.
Proof.
  unfold running_events. intros H. destruct (filter _ _) as [|q l] eqn:E; [simpl in H; lia|].
  assert (HI : In q (filter (fun e => state_eqb (st (h e)) Running) (children c m))) by (rewrite E; left; reflexivity).
  apply filter_In in HI. destruct HI as [A B]. exists q; split; [exact A|apply state_eqb_spec; exact B].
Qed.

Ltac triv := solve [ intros; discriminate | intros; congruence | intros; exfalso; congruence ].

Lemma entry_ok_prim x y : prim c x y -> Inv x -> log_ok (log (fst y)).
Proof.
  intros Hp (HL & HCnt & HSk & HPos & HG & HCh & HD & HCI & HRe & HOK).
  assert (HParent : forall w p, (forall q, seen (log w) q = st (heap w q)) -> parent_ok w p -> p <> [] ->
            seen (log w) (tl p) = Running \/ seen (log w) (tl p) = StopT).
  { intros w p HLw [E|E] Hne; [contradiction|]. rewrite HLw. exact E. }
  destruct Hp; cbn [fst snd] in *.
  - (* ask *) cbn. auto.
  - (* astart *) cbn [w_emit log log_ok]. split; [|exact HOK]. cbn [entry_ok].
    split; [assumption|split; [rewrite HL; assumption|]]. apply HParent; try assumption. intros ->; destruct H0; discriminate.
  - (* arun *) cbn [w_emit log log_ok]. split; [|exact HOK]. cbn [entry_ok].
    split; [assumption|split; [rewrite HL; assumption|]]. apply HParent; try assumption. intros ->; destruct H0; discriminate.
  - (* start *) cbn [w_set log log_ok]. split; [|exact HOK]. rewrite H0. cbn [entry_ok lawful].
    split; [left; rewrite HL; auto|]. split; [exact I|].
    split; [intros _; exact H1|]. do 8 (split; [triv|]). split; [triv|]. split; [triv|].
    split; [intros Hne _; destruct (HParent w p HL H Hne); auto|].
    split; [|split; triv]. intros Hr E. destruct (HD p Hr E) as [[A|A] _]; cbn [fst] in A; congruence.
  - (* skip *)
    cbn [w_set log heap log_ok]. rewrite upd_same. cbn [st].
    assert (Hne : p <> []) by (intros ->; discriminate).
    assert (HPs := HParent w p HL H Hne).
    split; [|split; [|exact HOK]].
    + cbn [entry_ok lawful]. split; [left; rewrite seen_same; reflexivity|]. split; [auto|].
      do 10 (split; [triv|]).
      split; [intros _ _ _; rewrite seen_other by (apply parent_neq; exact Hne); exact HPs|].
      split; [triv|]. split; [|split; [|triv]].
      * intros Hr [o [E|E]]; [discriminate|]. destruct (HD p Hr (ex_intro _ o E)) as [[A|A] _]; cbn [fst] in A; congruence.
      * intros _ _. rewrite H0. destruct (running_events_pos _ _ H4) as (q & Hq & Eq).
        exists (log w), q. split; [reflexivity|split; [|rewrite HL; exact Eq]].
        split; [intros ->; congruence|apply child_of_in; exact Hq].
    + rewrite H0. cbn [entry_ok lawful].
      split; [left; rewrite HL; auto|]. split; [exact I|].
      split; [intros _; exact H1|]. do 8 (split; [triv|]). split; [triv|]. split; [triv|].
      split; [intros _ _; destruct HPs; auto|].
      split; [|split; triv]. intros Hr E. destruct (HD p Hr E) as [[A|A] _]; cbn [fst] in A; congruence.
  - (* forced *)
    cbn [w_set log log_ok]. split; [|exact HOK].
    destruct (HCh (tl p) p H0 H1) as [_ HB].
    assert (Hpar : seen (log w) (tl p) = StartT \/
       (seen (log w) (tl p) = StopT /\ kind_of (tl p) = KEvent /\ prio c (tl p) = Override)).
    { rewrite HL. destruct H2 as [[_ E]|E]; [left; exact E|].
      destruct (HG (tl p) E) as (A & B & [C|C]); cbn [fst] in C; auto. }
    assert (HO : st (heap w p) = Standby \/ st (heap w p) = Complete \/ st (heap w p) = StartT).
    { apply HB. destruct H2 as [[_ E]|E]; auto. }
    cbn [entry_ok].
    split; [left; rewrite HL; reflexivity|].
    split; [destruct HO as [E|[E|E]]; rewrite E; cbn; auto; exact H|].
    split; [intros _ [K|K]; destruct H; congruence|].
    split; [intros _ _; exact Hpar|].
    do 7 (split; [triv|]). split; [triv|]. split; [triv|].
    split; [intros _ _; destruct Hpar as [E|[E _]]; [right; right; split; [exact E|exact H]|right; left; exact E]|].
    split; [|split; triv]. intros Hr _; contradiction.
  - (* enter *) exact HOK.
  - (* selfstop *)
    cbn [w_set log log_ok]. split; [|exact HOK]. cbn [entry_ok]. rewrite H1.
    split; [left; rewrite HL; auto|]. split; [cbn; auto|].
    do 9 (split; [triv|]).
    split. { intros _. right; right. split; [assumption|]. exists p. rewrite HL. auto. }
    split; [triv|]. split; [triv|]. split; [auto|split; triv].
  - (* override *)
    cbn [w_set log log_ok]. split; [|exact HOK]. cbn [entry_ok].
    split; [left; rewrite HL; auto|].
    split. { assert (X := HSk p). assert (Y := restartable_dec p). destruct H2 as [H2a H2b]. destruct (st (heap w p)); cbn; auto; try congruence.
      destruct Y as [Y|Y]; [right; exact Y|]. exfalso; exact (H2b Y eq_refl). }
    split; [triv|]. split; [triv|]. split; [triv|]. split; [triv|]. split; [triv|]. split; [triv|]. split; [triv|].
    split; [triv|]. split; [triv|].
    split. { intros _. destruct H3 as [(_ & E)|[(_ & Hne & E)|(K & q & -> & Hq & Hn)]].
      - left; exact E.
      - right; left. rewrite HL; auto.
      - right; right. split; [exact K|]. exists q. destruct (HG q eq_refl) as (A & B & C). rewrite HL. auto. }
    split; [triv|]. split; [triv|]. split; [auto|split; triv].
  - (* run *)
    cbn [w_inc w_set log log_ok]. split; [|exact HOK]. cbn [entry_ok].
    assert (HO : st (heap w p) = StartT \/ (st (heap w p) = StopT /\ kind_of p = KEvent /\ prio c p = Override)).
    { destruct H0 as [(_ & E & _)|(_ & [E|E] & K & P & _)]; auto. }
    split; [left; rewrite HL; reflexivity|].
    split; [destruct HO as [E|(E & K & P)]; rewrite E; cbn; auto|].
    split; [triv|]. split; [triv|]. split; [triv|].
    split. { intros _ K P q (Hq & Hs). apply child_of_in in Hs. rewrite HL.
      destruct H0 as [(_ & _ & N)|(_ & _ & _ & _ & E)]; [exfalso; apply (N K); exact P|]. apply E; assumption. }
    split. { intros _ K P q (Hq & Hs). apply child_of_in in Hs. rewrite HL. apply H3; assumption. }
    split. { intros _ K q Hq. apply child_of_in in Hq. rewrite HL. apply H2; assumption. }
    split. { intros _ Hr. rewrite <- HCnt. destruct H1 as [E|[E|E]]; auto. contradiction. }
    split; [intros E; destruct HO as [E'|(E' & _)]; congruence|].
    split; [intros E; destruct HO as [E'|(E' & _)]; congruence|].
    split; [triv|].
    split; [intros Hne _ _; apply HParent; assumption|]. split; [triv|].
    split; [|split; triv]. intros Hr E. destruct (HD p Hr E) as [A B]. cbn [fst snd] in *.
    destruct H0 as [(_ & E0 & _)|(E0 & _)]; [destruct A; congruence|congruence].
  - (* end *)
    cbn [w_set log log_ok]. split; [|exact HOK]. cbn [entry_ok]. rewrite H0.
    split; [left; rewrite HL; auto|]. split; [exact I|]. split; [triv|]. split; [triv|].
    split. { intros _. unfold done_ok in H1. destruct (kind_of p); try exact H1;
        intros q Hq; apply child_of_in in Hq; rewrite HL; apply H1; exact Hq. }
    do 7 (split; [triv|]). split; [intros Hne _ _; apply HParent; assumption|].
    split; [triv|]. split; [|split; [triv|]].
    2:{ intros _ K q Hq. apply child_of_in in Hq. rewrite <- !HCnt. destruct (HRe p q K Hq) as (_ & R2 & _). cbn [fst] in *.
        rewrite <- (R2 H0). unfold done_ok in H1. assert (X : st (heap w q) = Complete) by (destruct K as [K|K]; rewrite K in H1; apply H1; exact Hq).
        rewrite X; cbn; lia. }
    intros Hr E. destruct (HD p Hr E) as [[A|A] _]; cbn [fst] in A; congruence.
  - (* next *)
    cbn [w_set log log_ok]. split; [|exact HOK]. rewrite H0.
    assert (HP1 : 1 <= cnt (heap w p)) by (apply HPos; auto).
    assert (HDe : ~ restartable p -> (exists o' : state, In (Trans p o' Complete) (log w)) -> False).
    { intros Hr E. destruct (HD p Hr E) as [[A|A] _]; cbn [fst] in A; congruence. }
    destruct (Nat.ltb_spec (cnt (heap w p)) (maxc c p)) as [Hlt|Hge]; cbn [entry_ok lawful].
    + split; [left; rewrite HL; auto|].
      split. { destruct (kind_noncomposite p) as [K|[K|K]]; auto. lia. }
      do 8 (split; [triv|]). split; [intros _ _; rewrite <- HCnt; exact Hlt|]. split; [triv|].
      split; [intros Hne _ _; apply HParent; assumption|]. split; [triv|].
      split; [intros Hr E; exfalso; exact (HDe Hr E)|split; triv].
    + split; [left; rewrite HL; auto|].
      split; [exact I|].
      do 7 (split; [triv|]). split; [intros _ _; rewrite <- HCnt; exact Hge|]. split; [triv|]. split; [triv|].
      split; [intros Hne _ _; apply HParent; assumption|]. split; [triv|].
      split; [intros Hr E; exfalso; exact (HDe Hr E)|split; triv].
  - (* complete *)
    cbn [w_set log log_ok]. split; [|exact HOK]. cbn [entry_ok]. rewrite H0.
    split; [left; rewrite HL; auto|]. split; [exact I|].
    do 10 (split; [triv|]). split; [intros Hne _ _; apply HParent; assumption|]. split; [triv|].
    split; [auto|split; triv].
  - (* astop *)
    cbn [w_set w_astop log heap log_ok]. split; [|exact HOK]. rewrite upd_same.
    assert (HE : forall A B, st (if ovr (heap w p) then A else B) = (if ovr (heap w p) then st A else st B)) by (intros; destruct (ovr _); reflexivity).
    rewrite HE; cbn [st]. rewrite H1.
    destruct (ovr (heap w p)); cbn [entry_ok lawful].
    + split; [right; rewrite HL; auto|]. split; [auto|].
      do 10 (split; [triv|]). split; [intros Hne _ _; apply HParent; assumption|]. split; [triv|].
      split; [auto|split; triv].
    + split; [left; rewrite HL; auto|]. split; [auto|].
      do 10 (split; [triv|]). split; [intros Hne _ _; apply HParent; assumption|]. split; [triv|].
      split; [auto|split; triv].
Qed.

Lemma Inv_prim x y : prim c x y -> Inv x -> Inv y.
Proof.
  intros Hp HI. assert (HOK' := entry_ok_prim x y Hp HI).
  destruct HI as (HL & HCnt & HSk & HPos & HG & HCh & HD & HCI & HRe & HOK).
  split; [eapply HL_prim; eassumption|]. split; [eapply cnt_prim; eassumption|].
  split; [eapply skipT_prim; eassumption|]. split; [eapply pos_prim; eassumption|].
  split; [eapply ghost_prim; eassumption|]. split; [eapply child_prim; eassumption|].
  split; [eapply dead_prim; eassumption|]. split; [eapply CountInv_prim; eassumption|].
  split; [eapply re_prim; eassumption|exact HOK'].
Qed.

Lemma Inv_star x y : star c x y -> Inv x -> Inv y.
Proof. apply star_inv. intros x' y'; apply Inv_prim. Qed.

Lemma Inv_world0 : Inv (world0, None).
Proof.
  unfold Inv, world0; cbn [fst snd heap log seen executions elem0 st cnt log_ok].
  split; [reflexivity|]. split; [reflexivity|]. split; [discriminate|]. split; [intros q [?|?]; discriminate|].
  split; [intros p X; discriminate|]. split; [intros p q _ _; cbn; split; auto|].
  split; [intros p _ [o []]|]. split; [intros p _; cbn; split; [auto|lia]|]. split; [|exact I].
  intros p q _ _; cbn. split; [reflexivity|]. split; [discriminate|]. split; [intros [?|?]; discriminate|congruence].
Qed.
End Inv.

(** Every run is a sequence of primitive steps, and never runs out of fuel. *)
Lemma Settled_world0 : Settled world0.
Proof. intros q; apply settled_other; discriminate. Qed.

Lemma frames_res c env n : forall w, CountInv c (w, None) -> Settled w ->
  res c (fun _ => True) None None w (frames c env n w) (fun _ w' => CountInv c (w', None) /\ Settled w').
Proof.
  induction n as [|n IH]; intros w HC HS; cbn [frames].
  - apply res_ret; auto.
  - eapply res_seq with (g1 := None) (Q1 := fun _ w' => CountInv c (w', None) /\ Settled w').
    + assert (HH := evaluate_res c env 7 [] ltac:(simpl; lia) ltac:(simpl; lia) w HC HS (or_introl eq_refl)).
      apply res_and_star in HH. unfold frame. eapply res_weaken; [| |exact HH]; [auto|].
      intros a w' ((H1 & _) & H2 & _). split; [eapply CountInv_star; eassumption|exact H1].
    + intros a w1 _ _ [HC1 HS1]. apply IH; assumption.
Qed.

Lemma CountInv_world0 c : CountInv c (world0, None).
Proof. apply (Inv_world0 c). Qed.

Lemma frames_total c env n : frames c env n world0 <> NoFuel.
Proof.
  assert (H := frames_res c env n world0 (CountInv_world0 c) Settled_world0).
  destruct (frames c env n world0); cbn [res] in H; [discriminate|discriminate|contradiction].
Qed.

Lemma reaches_Inv c env n w : reaches c env n w -> exists g, Inv c (w, g).
Proof.
  assert (H := frames_res c env n world0 (CountInv_world0 c) Settled_world0).
  intros [E|E]; rewrite E in H; cbn [res] in H.
  - destruct H as (H & _). exists None. eapply Inv_star; [exact H|apply Inv_world0].
  - destruct H as ((g & H) & _). exists g. eapply Inv_star; [exact H|apply Inv_world0].
Qed.

Lemma reaches_entry c env n w e l : reaches c env n w -> at_time w e l -> entry_ok c e l.
Proof.
  intros H [l1 E]. destruct (reaches_Inv _ _ _ _ H) as [g HI].
  destruct HI as (_ & _ & _ & _ & _ & _ & _ & _ & _ & HOK). cbn [fst] in HOK. rewrite E in HOK.
  eapply log_ok_at; exact HOK.
Qed.
