(** Proof infrastructure for the storyboard engine: an abstract guarded transition system
    [prim] and the proof that [evaluate] only performs its steps, terminates, and only
    touches its own region of the tree. *)
From Coq Require Import List Arith Bool Lia.
From Verif Require Import M_Storyboard.
Import ListNotations.

Lemma state_eqb_spec a b : state_eqb a b = true <-> a = b.
Proof. destruct a, b; simpl; split; congruence. Qed.

Lemma state_eqb_refl a : state_eqb a a = true.
Proof. destruct a; reflexivity. Qed.

Lemma path_eqb_spec a : forall b, path_eqb a b = true <-> a = b.
Proof.
  induction a as [|x a IH]; intros [|y b]; simpl; split; try congruence; try discriminate.
  - intros H; apply andb_true_iff in H; destruct H as [H1 H2].
    apply Nat.eqb_eq in H1; apply IH in H2; congruence.
  - intros H; injection H as H1 H2; subst. rewrite Nat.eqb_refl; simpl; apply IH; reflexivity.
Qed.

Lemma path_eqb_refl p : path_eqb p p = true.
Proof. apply path_eqb_spec; reflexivity. Qed.

Lemma path_eqb_neq p q : p <> q -> path_eqb p q = false.
Proof. intros H; destruct (path_eqb p q) eqn:E; [apply path_eqb_spec in E; contradiction|reflexivity]. Qed.

Lemma path_dec (p q : path) : {p = q} + {p <> q}.
Proof. destruct (path_eqb p q) eqn:E; [left; apply path_eqb_spec; exact E|right; intros ->; rewrite path_eqb_refl in E; discriminate]. Qed.

Lemma upd_same h p e : upd h p e p = e.
Proof. unfold upd; rewrite path_eqb_refl; reflexivity. Qed.

Lemma upd_other h p e q : q <> p -> upd h p e q = h q.
Proof. intros H; unfold upd; rewrite path_eqb_neq; [reflexivity|exact H]. Qed.

(** World transformers performed by the engine. *)
Definition w_ask q b w := {| heap := heap w; log := Ask q b :: log w; tick := S (tick w) |}.
Definition w_emit e w := {| heap := heap w; log := e :: log w; tick := tick w |}.
Definition w_set p s w :=
  {| heap := upd (heap w) p {| st := s; cnt := cnt (heap w p); ovr := ovr (heap w p) |};
     log := Trans p (st (heap w p)) s :: log w; tick := tick w |}.
Definition w_inc p w :=
  {| heap := upd (heap w) p {| st := st (heap w p); cnt := S (cnt (heap w p)); ovr := ovr (heap w p) |};
     log := log w; tick := tick w |}.
Definition w_astop p w :=
  {| heap := upd (heap w) p
       (if ovr (heap w p) then {| st := Complete; cnt := cnt (heap w p); ovr := true |}
        else {| st := st (heap w p); cnt := cnt (heap w p); ovr := true |});
     log := log w; tick := tick w |}.

Section Prim.
Variable c : config.

Definition forced_kind (p : path) : Prop := kind_of p = KManeuver \/ kind_of p = KAction.

(** The start trigger was just answered with true (classes that have none start freely). *)
Definition trig_ok (w : world) (p : path) : Prop :=
  (kind_of p = KAct \/ kind_of p = KEvent) ->
  exists l, log w = Ask (QStartTrigger p) true :: l.

Definition done_ok (w : world) (p : path) : Prop :=
  match kind_of p with
  | KAction | KInit => exists l, log w = Ask (QAccomplished p) true :: l
  | _ => forall q, In q (children c p) -> st (heap w q) = Complete
  end.

Definition reason (w : world) (g : option path) (p : path) : Prop :=
  (g = None /\ exists l, log w = Ask (QStopTrigger p) true :: l /\ (kind_of p = KStoryboard \/ kind_of p = KAct)) \/
  (g = None /\ p <> [] /\ st (heap w (tl p)) = StopT) \/
  (kind_of p = KEvent /\ exists q, g = Some q /\ tl q = tl p /\ q <> p).

(** The parent is executing or being stopped. *)
Definition parent_ok (w : world) (p : path) : Prop :=
  p = [] \/ st (heap w (tl p)) = Running \/ st (heap w (tl p)) = StopT.

(** An element that is not being evaluated is not in the middle of a transition; only Maneuvers
    and Actions may be waiting in startTransition. *)
Definition settled (q : path) (s : state) : Prop := s <> EndT /\ (~ forced_kind q -> s <> StartT).

Definition count_ok (w : world) (p : path) : Prop :=
  cnt (heap w p) = 0 \/ cnt (heap w p) < maxc c p \/ forced_kind p.

Inductive prim : world * option path -> world * option path -> Prop :=
| P_ask w g q b : prim (w, g) (w_ask q b w, g)
| P_astart w p : parent_ok w p -> kind_of p = KAction \/ kind_of p = KInit -> st (heap w p) = StartT ->
    prim (w, None) (w_emit (ActionStart p) w, None)
| P_arun w p : parent_ok w p -> kind_of p = KAction \/ kind_of p = KInit -> st (heap w p) = Running ->
    prim (w, None) (w_emit (ActionRun p) w, None)
| P_start w p : parent_ok w p -> st (heap w p) = Standby -> trig_ok w p ->
    (kind_of p = KEvent -> forall q, In q (children c (tl p)) -> q <> p -> st (heap w q) <> StartT) ->
    (kind_of p = KEvent -> prio c p = Skip -> running_events c (heap w) (tl p) = 0) ->
    prim (w, None) (w_set p StartT w, None)
| P_skip w p : parent_ok w p -> st (heap w p) = Standby -> trig_ok w p -> kind_of p = KEvent -> prio c p = Skip ->
    0 < running_events c (heap w) (tl p) ->
    prim (w, None) (w_set p Standby (w_set p StartT w), None)
| P_forced w p g : forced_kind p -> kind_of (tl p) = KGroup \/ kind_of (tl p) = KEvent -> In p (children c (tl p)) ->
    (g = None /\ st (heap w (tl p)) = StartT) \/ g = Some (tl p) ->
    prim (w, g) (w_set p StartT w, g)
| P_enter w p : parent_ok w p -> kind_of p = KEvent -> prio c p = Override -> st (heap w p) = StartT ->
    prim (w, None) (w, Some p)
| P_selfstop w p : kind_of p = KEvent -> prio c p = Override -> st (heap w p) = StartT ->
    prim (w, Some p) (w_set p StopT w, Some p)
| P_override w g p : st (heap w p) <> Standby -> st (heap w p) <> StopT -> g <> Some p ->
    settled p (st (heap w p)) ->
    reason w g p ->
    prim (w, g) (w_set p StopT w, g)
| P_run w g p : parent_ok w p ->
    (g = None /\ st (heap w p) = StartT /\ (kind_of p = KEvent -> prio c p <> Override)) \/
    (g = Some p /\ (st (heap w p) = StartT \/ st (heap w p) = StopT) /\
     kind_of p = KEvent /\ prio c p = Override /\
     forall q, In q (children c (tl p)) -> q <> p ->
       st (heap w q) = Standby \/ st (heap w q) = StopT) ->
    count_ok w p ->
    (kind_of p = KGroup \/ kind_of p = KEvent ->
     forall q, In q (children c p) -> st (heap w q) = StartT) ->
    (kind_of p = KEvent -> prio c p = Skip ->
     forall q, In q (children c (tl p)) -> q <> p -> st (heap w q) <> Running) ->
    prim (w, g) (w_inc p (w_set p Running w), None)
| P_end w p : parent_ok w p -> st (heap w p) = Running -> done_ok w p -> prim (w, None) (w_set p EndT w, None)
| P_next w p : parent_ok w p -> st (heap w p) = EndT ->
    prim (w, None) (w_set p (if Nat.ltb (cnt (heap w p)) (maxc c p) then Standby else Complete) w, None)
| P_complete w p : parent_ok w p -> st (heap w p) = StopT ->
    prim (w, None) (w_set p Complete w, None)
| P_astop w p : parent_ok w p -> kind_of p = KAction -> st (heap w p) = StopT -> prim (w, None) (w_set p Complete (w_astop p w), None).

Inductive star : world * option path -> world * option path -> Prop :=
| star_refl x : star x x
| star_step x y z : star x y -> prim y z -> star x z.

Lemma star_trans x y z : star x y -> star y z -> star x z.
Proof. intros H1 H2; induction H2 as [|x' y' z' H2 IH Hp]; [exact H1|]. eapply star_step; [apply IH; exact H1|exact Hp]. Qed.

Lemma star_one x y : prim x y -> star x y.
Proof. intros H; eapply star_step; [apply star_refl|exact H]. Qed.

Lemma star_inv (I : world * option path -> Prop) :
  (forall x y, prim x y -> I x -> I y) -> forall x y, star x y -> I x -> I y.
Proof. intros H x y Hs; induction Hs as [|x' y' z' Hs IH Hp]; intros Hx; [exact Hx|]. eapply H; [exact Hp|apply IH; exact Hx]. Qed.

(** Invariant of execution counts. *)
Definition CountInv (x : world * option path) : Prop :=
  let (w, g) := x in
  forall p, ~ forced_kind p ->
    (st (heap w p) = Standby \/ st (heap w p) = StartT \/ g = Some p ->
       cnt (heap w p) = 0 \/ cnt (heap w p) < maxc c p) /\
    cnt (heap w p) <= Nat.max 1 (maxc c p).

Ltac upd_cases q p := destruct (path_dec q p) as [Hqp|Hqp];
  [subst q; rewrite ?upd_same in *; cbn [st cnt ovr heap] in *
  |rewrite ?(upd_other _ p _ q Hqp) in *].

Lemma CountInv_prim x y : prim x y -> CountInv x -> CountInv y.
Proof.
  intros Hp HI; destruct Hp; cbn [CountInv] in *; intros r Hr;
    try (specialize (HI r Hr)); cbn [heap w_ask w_emit w_set w_inc w_astop] in *; try exact HI.
  - (* start *) upd_cases r p; [|exact HI]. destruct HI as [HI1 HI2]; split; [|exact HI2].
    intros _; apply HI1; left; assumption.
  - (* skip *) upd_cases r p; [|exact HI]. destruct HI as [HI1 HI2]; split; [|exact HI2].
    intros _; apply HI1; left; assumption.
  - (* forced *) upd_cases r p; [contradiction|exact HI].
  - (* enter *) destruct HI as [HI1 HI2]; split; [|exact HI2].
    intros [Hs|[Hs|Hs]]; apply HI1; auto. injection Hs as <-. auto.
  - (* selfstop *) upd_cases r p; [|exact HI]. destruct HI as [HI1 HI2]; split; [|exact HI2].
    intros _; apply HI1; auto.
  - (* override *) upd_cases r p; [|exact HI]. destruct HI as [HI1 HI2]; split; [|exact HI2].
    intros [Hs|[Hs|Hs]]; try discriminate; contradiction.
  - (* run *) upd_cases r p.
    + destruct HI as [HI1 HI2]; split; [intros [Hs|[Hs|Hs]]; discriminate|].
      match goal with HCO : count_ok _ _ |- _ => destruct HCO as [Hc|[Hc|Hc]]; [lia|lia|contradiction] end.
    + destruct HI as [HI1 HI2]; split; [|exact HI2]. intros [Hs|[Hs|Hs]]; try discriminate; apply HI1; auto.
  - (* end *) upd_cases r p; [|exact HI]. destruct HI as [HI1 HI2]; split; [|exact HI2].
    intros [Hs|[Hs|Hs]]; discriminate.
  - (* next *) upd_cases r p; [|exact HI]. destruct HI as [HI1 HI2]; split; [|exact HI2].
    destruct (Nat.ltb_spec (cnt (heap w p)) (maxc c p)); intros [Hs|[Hs|Hs]]; try discriminate; auto.
  - (* complete *) upd_cases r p; [|exact HI]. destruct HI as [HI1 HI2]; split; [|exact HI2].
    intros [Hs|[Hs|Hs]]; discriminate.
  - (* astop *) upd_cases r p; [|exact HI]. exfalso; apply Hr; right; assumption.
Qed.

End Prim.

(** Regions of the tree. *)
Definition below (p q : path) : Prop := exists l, q = l ++ p.
Definition sbelow (p q : path) : Prop := exists i l, q = l ++ i :: p.
Definition region (p q : path) : Prop :=
  below p q \/ (kind_of p = KEvent /\ exists i, q = i :: tl p).

Lemma sbelow_irrefl p : ~ sbelow p p.
Proof.
  intros (i & l & H). apply (f_equal (@length nat)) in H. rewrite app_length in H; simpl in H; lia.
Qed.

Lemma sbelow_length p q : sbelow p q -> length p < length q.
Proof. intros (i & l & ->). rewrite app_length; simpl; lia. Qed.

Lemma below_length p q : below p q -> length p <= length q.
Proof. intros (l & ->). rewrite app_length; lia. Qed.

Lemma below_child i p q : below (i :: p) q -> sbelow p q.
Proof. intros (l & ->). exists i, l; reflexivity. Qed.

Lemma sbelow_below p q : sbelow p q -> below p q.
Proof. intros (i & l & ->). exists (l ++ [i]). rewrite <- app_assoc; reflexivity. Qed.


Ltac kind_tac := 
  match goal with |- kind_of ?p = _ <-> _ => 
    destruct p as [|[|?] [|? [|? [|? [|? [|? ?]]]]]]
  end; cbn; split; intros H; try discriminate; try reflexivity; try lia.

Lemma kind_len_event p : kind_of p = KEvent <-> length p = 5.
Proof. kind_tac. Qed.
Lemma kind_len_maneuver p : kind_of p = KManeuver <-> length p = 4.
Proof. kind_tac. Qed.
Lemma kind_len_group p : kind_of p = KGroup <-> length p = 3.
Proof. kind_tac. Qed.
Lemma kind_len_act p : kind_of p = KAct <-> length p = 2.
Proof. kind_tac. Qed.
Lemma kind_len_action p : kind_of p = KAction <-> 6 <= length p.
Proof. kind_tac. Qed.
Lemma kind_init p : kind_of p = KInit <-> p = [0].
Proof. kind_tac. Qed.
Lemma kind_storyboard p : kind_of p = KStoryboard <-> p = [].
Proof. kind_tac. Qed.
Lemma kind_story p : kind_of p = KStory <-> exists i, p = [S i].
Proof. kind_tac; try (destruct H as [i H]; discriminate). eexists; reflexivity. Qed.

Lemma region_child i p q : region (i :: p) q -> sbelow p q.
Proof.
  intros [H|(_ & j & ->)]; [eapply below_child; exact H|]. exists j, []; reflexivity.
Qed.

Lemma region_self p : region p p.
Proof. left; exists []; reflexivity. Qed.

Lemma region_parent p : p <> [] -> ~ region p (tl p).
Proof.
  intros Hp [H|(_ & i & H)].
  - apply below_length in H. destruct p; [congruence|simpl in H; lia].
  - destruct p; [congruence|]. apply (f_equal (@length nat)) in H. simpl in H; lia.
Qed.

Section Refine.
Variable c : config.
Variable env : nat -> bool.

Definition Settled (w : world) : Prop := forall q, settled q (st (heap w q)).
Definition SettledX (p : path) (w : world) : Prop :=
  forall q, q <> p -> settled q (st (heap w q)).

Lemma settled_other q s : s <> EndT -> s <> StartT -> settled q s.
Proof. intros H1 H2; split; [exact H1|intros _; exact H2]. Qed.

Definition StartPre (p : path) (w : world) : Prop :=
  kind_of p = KEvent -> prio c p = Skip -> st (heap w p) = StartT ->
  forall q, In q (children c (tl p)) -> q <> p -> st (heap w q) <> Running.

Definition fr (R : path -> Prop) (w w' : world) : Prop := forall q, ~ R q -> heap w' q = heap w q.

Definition res {A} (R : path -> Prop) (g g' : option path) (w : world) (o : outcome A)
  (Q : A -> world -> Prop) : Prop :=
  match o with
  | Ok a w' => star c (w, g) (w', g') /\ fr R w w' /\ Q a w'
  | Exit w' => (exists gx, star c (w, g) (w', gx)) /\ fr R w w'
  | NoFuel => False
  end.

Lemma fr_refl R w : fr R w w.
Proof. intros q _; reflexivity. Qed.

Lemma fr_trans R w1 w2 w3 : fr R w1 w2 -> fr R w2 w3 -> fr R w1 w3.
Proof. intros H1 H2 q Hq. rewrite (H2 q Hq); apply H1; exact Hq. Qed.

Lemma fr_weaken (R R' : path -> Prop) w w' : (forall q, R q -> R' q) -> fr R w w' -> fr R' w w'.
Proof. intros HR H q Hq; apply H; intros Hr; apply Hq, HR, Hr. Qed.

Lemma res_ret {A} R g w (a : A) (Q : A -> world -> Prop) : Q a w -> res R g g w (ret a w) Q.
Proof. intros H; cbn; split; [apply star_refl|split; [apply fr_refl|exact H]]. Qed.

Lemma res_bind {A B} R g g1 g2 w (m : M A) (f : A -> M B) Q1 Q2 :
  res R g g1 w (m w) Q1 ->
  (forall a w1, star c (w, g) (w1, g1) -> fr R w w1 -> Q1 a w1 -> res R g1 g2 w1 (f a w1) Q2) ->
  res R g g2 w (bind m f w) Q2.
Proof.
  intros H1 H2; unfold bind. destruct (m w) as [a w1|w1|]; cbn [res] in H1.
  - destruct H1 as (Hs & Hf & HQ). specialize (H2 a w1 Hs Hf HQ).
    destruct (f a w1) as [b w2|w2|]; cbn [res] in *.
    + destruct H2 as (Hs2 & Hf2 & HQ2). split; [eapply star_trans; eassumption|].
      split; [eapply fr_trans; eassumption|exact HQ2].
    + destruct H2 as ((gx & Hs2) & Hf2). split; [exists gx; eapply star_trans; eassumption|eapply fr_trans; eassumption].
    + exact H2.
  - exact H1.
  - exact H1.
Qed.

Lemma res_seq {A B} R g g1 g2 w (m : M A) (f : M B) Q1 Q2 :
  res R g g1 w (m w) Q1 ->
  (forall a w1, star c (w, g) (w1, g1) -> fr R w w1 -> Q1 a w1 -> res R g1 g2 w1 (f w1) Q2) ->
  res R g g2 w (seqm m f w) Q2.
Proof. intros H1 H2; unfold seqm; eapply res_bind; eassumption. Qed.

Lemma res_weaken {A} (R R' : path -> Prop) g g' w (o : outcome A) (Q Q' : A -> world -> Prop) :
  (forall q, R q -> R' q) -> (forall a w', Q a w' -> Q' a w') ->
  res R g g' w o Q -> res R' g g' w o Q'.
Proof.
  intros HR HQ H; destruct o as [a w'|w'|]; cbn [res] in *.
  - destruct H as (Hs & Hf & Hq). split; [exact Hs|split; [eapply fr_weaken; eassumption|apply HQ, Hq]].
  - destruct H as (Hs & Hf). split; [exact Hs|eapply fr_weaken; eassumption].
  - exact H.
Qed.

Lemma res_and_star {A} R g g' w (o : outcome A) (Q : A -> world -> Prop) :
  res R g g' w o Q -> res R g g' w o (fun a w' => Q a w' /\ star c (w, g) (w', g') /\ fr R w w').
Proof. destruct o; cbn [res]; intuition. Qed.

(** iteration *)
Lemma res_mapM {X} (R : path -> Prop) g (f : X -> M unit) (I : world -> Prop) (l : list X) :
  (forall x w, In x l -> I w -> res R g g w (f x w) (fun _ w' => I w')) ->
  forall w, I w -> res R g g w (mapM f l w) (fun _ w' => I w').
Proof.
  induction l as [|x l IH]; intros Hf w HI; cbn [mapM].
  - apply res_ret; exact HI.
  - eapply res_seq; [apply Hf; [left; reflexivity|exact HI]|].
    intros a w1 _ _ HI1. apply IH; [intros y w' Hy; apply Hf; right; exact Hy|exact HI1].
Qed.

(** primitives *)
Lemma res_ask R g w q (Q : bool -> world -> Prop) :
  (forall b, Q b (w_ask q b w)) -> res R g g w (ask env q w) Q.
Proof.
  intros H; unfold ask; cbn [res]. split; [apply star_one; exact (P_ask c w g q (env (tick w)))|].
  split; [intros r _; reflexivity|apply H].
Qed.

Lemma parent_ok_fr p w w' : fr (region p) w w' -> parent_ok w p -> parent_ok w' p.
Proof.
  intros Hf [H|H]; [left; exact H|]. destruct p as [|i p]; [left; reflexivity|].
  right. rewrite Hf; [exact H|]. apply region_parent; discriminate.
Qed.

Lemma CountInv_star x y : star c x y -> CountInv c x -> CountInv c y.
Proof. apply star_inv. intros x' y'; apply CountInv_prim. Qed.

Lemma children_child p q : In q (children c p) -> exists i, q = i :: p.
Proof. unfold children; rewrite in_map_iff; intros (i & <- & _); exists i; reflexivity. Qed.

Lemma heap_w_set_other p s w q : q <> p -> heap (w_set p s w) q = heap w q.
Proof. intros H; cbn; apply upd_other; exact H. Qed.
Lemma st_w_set p s w : st (heap (w_set p s w) p) = s.
Proof. cbn; rewrite upd_same; reflexivity. Qed.
Lemma cnt_w_set p s w q : cnt (heap (w_set p s w) q) = cnt (heap w q).
Proof. cbn; destruct (path_dec q p) as [->|H]; [rewrite upd_same|rewrite upd_other by exact H]; reflexivity. Qed.

Lemma running_events_ext h h' m :
  (forall q, In q (children c m) -> state_eqb (st (h q)) Running = state_eqb (st (h' q)) Running) ->
  running_events c h m = running_events c h' m.
Proof.
  unfold running_events. generalize (children c m) as l. induction l as [|q l IH]; intros H; [reflexivity|].
  cbn [filter]. rewrite (H q (or_introl eq_refl)).
  assert (IH' := IH (fun r Hr => H r (or_intror Hr))).
  destruct (state_eqb (st (h' q)) Running); cbn [length]; rewrite ?IH'; congruence.
Qed.

(** transition_to without callbacks that matter *)
Lemma transition_to_plain p s w :
  (kind_of p <> KEvent \/ s <> StartT) ->
  transition_to c p s w = Ok true (w_set p s w).
Proof.
  intros H. unfold transition_to, seqm, bind, set_state, ret, get.
  destruct (kind_of p) eqn:K, s; try (destruct H as [H|H]; congruence);
    cbn; rewrite ?upd_same; cbn; try reflexivity;
    try (destruct (prio c p); cbn; rewrite ?upd_same; reflexivity).
Qed.

Lemma running_events_start p w : kind_of p = KEvent -> st (heap w p) = Standby ->
  running_events c (heap (w_set p StartT w)) (tl p) = running_events c (heap w) (tl p).
Proof.
  intros K Hs. apply running_events_ext. intros q _.
  destruct (path_dec q p) as [->|Hn]; [rewrite st_w_set, Hs; reflexivity|rewrite heap_w_set_other by exact Hn; reflexivity].
Qed.

Lemma transition_to_event_start p w : kind_of p = KEvent -> st (heap w p) = Standby ->
  transition_to c p StartT w =
  (if (match prio c p with Skip => true | _ => false end) && Nat.ltb 0 (running_events c (heap w) (tl p))
   then Ok false (w_set p Standby (w_set p StartT w)) else Ok true (w_set p StartT w)).
Proof.
  intros K Hs. unfold transition_to, seqm, bind, set_state, ret, get. rewrite K.
  rewrite <- (running_events_start p w K Hs).
  destruct (prio c p) eqn:E; cbn [andb].
  - cbn; rewrite upd_same; reflexivity.
  - cbn [w_set heap]. match goal with |- context [running_events c ?h ?m] => destruct (running_events c h m) end;
      unfold w_set; cbn; rewrite !upd_same; cbn; reflexivity.
  - cbn; rewrite upd_same; reflexivity.
Qed.

Lemma fr_w_set (R : path -> Prop) p s w : R p -> fr R w (w_set p s w).
Proof. intros HR q Hq. apply heap_w_set_other. intros ->; contradiction. Qed.

Lemma fr_w_inc (R : path -> Prop) p w : R p -> fr R w (w_inc p w).
Proof. intros HR q Hq. cbn; apply upd_other. intros ->; contradiction. Qed.

Lemma fr_w_astop (R : path -> Prop) p w : R p -> fr R w (w_astop p w).
Proof. intros HR q Hq. cbn; apply upd_other. intros ->; contradiction. Qed.

(** override of an element for a known reason *)
Lemma override_res (R : path -> Prop) g p w (Q : unit -> world -> Prop) :
  R p -> g <> Some p -> settled p (st (heap w p)) -> reason w g p ->
  (st (heap w p) = Standby \/ st (heap w p) = StopT -> Q tt w) ->
  (st (heap w p) <> Standby -> st (heap w p) <> StopT -> Q tt (w_set p StopT w)) ->
  res R g g w (override c p w) Q.
Proof.
  intros HR Hg Hset Hr H1 H2. unfold override, bind, get.
  destruct (st (heap w p)) eqn:E;
    try (rewrite (transition_to_plain p StopT w) by (right; discriminate); cbn [ret res];
         split; [apply star_one, P_override; try assumption; rewrite ?E; try discriminate; assumption
                |split; [apply fr_w_set; exact HR|apply H2; discriminate]]);
    apply res_ret, H1; auto.
Qed.

Definition need (p : path) (e : elem) : nat :=
  match st e with
  | Complete => 1 | SkipT => 1 | StopT => 2
  | EndT => 2 + 4 * (maxc c p - cnt e)
  | Running => 3 + 4 * (maxc c p - cnt e)
  | StartT => 4 + 4 * (maxc c p - S (cnt e))
  | Standby => 5 + 4 * (maxc c p - S (cnt e))
  end.

Lemma need_fuel p e : need p e <= fuel c p.
Proof. unfold need, fuel. destruct (st e); lia. Qed.

Lemma need_pos p e : 1 <= need p e.
Proof. unfold need. destruct (st e); lia. Qed.

(** start hooks *)
Lemma forced_map p g l : (kind_of p = KGroup \/ kind_of p = KEvent) ->
  (forall q, In q l -> In q (children c p)) ->
  forall w, (g = None /\ st (heap w p) = StartT) \/ g = Some p ->
  res (sbelow p) g g w (mapM (fun q => _ <- transition_to c q StartT ;; ret tt) l w)
    (fun _ w' => (forall q, In q l -> st (heap w' q) = StartT) /\
                 (forall q, ~ In q l -> heap w' q = heap w q)).
Proof.
  intros K; induction l as [|x l IH]; intros Hl w Hg; cbn [mapM].
  - apply res_ret. split; [intros q []|reflexivity].
  - assert (HI := Hl x (or_introl eq_refl)). destruct (children_child _ _ HI) as [i Hx].
    assert (Fx : kind_of x = KManeuver \/ kind_of x = KAction).
    { subst x. destruct K as [K|K]; [left; apply kind_len_maneuver; apply kind_len_group in K; simpl; lia
                                    |right; apply kind_len_action; apply kind_len_event in K; simpl; lia]. }
    assert (Hne : p <> x). { subst x; intros H; apply (f_equal (@length nat)) in H; simpl in H; lia. }
    eapply res_seq with (g1 := g) (Q1 := fun _ w' => w' = w_set x StartT w).
    + unfold bind. rewrite transition_to_plain by (left; destruct Fx as [F|F]; rewrite F; discriminate).
      cbn [ret res]. split.
      * apply star_one, P_forced; [exact Fx| | |]; rewrite Hx; cbn [tl]; [exact K|rewrite <- Hx; exact HI|exact Hg].
      * split; [apply fr_w_set; subst x; exists i, []; reflexivity|reflexivity].
    + intros a w1 _ _ ->.
      assert (Hg1 : (g = None /\ st (heap (w_set x StartT w) p) = StartT) \/ g = Some p).
      { destruct Hg as [[Hg1 Hg2]|Hg]; [left; split; [exact Hg1|rewrite heap_w_set_other by exact Hne; exact Hg2]|right; exact Hg]. }
      eapply res_weaken; [intros q H; exact H| |apply IH; [intros q Hq; apply Hl; right; exact Hq|exact Hg1]].
      intros a' w' [H1 H2]; split.
      * intros q [<-|Hq]; [|apply H1; exact Hq].
        destruct (in_dec path_dec x l) as [Hi|Hi]; [apply H1; exact Hi|].
        rewrite H2 by exact Hi. apply st_w_set.
      * intros q Hq. rewrite H2 by (intros H; apply Hq; right; exact H).
        apply heap_w_set_other. intros ->; apply Hq; left; reflexivity.
Qed.

Definition stopped_from (a b : elem) : Prop :=
  cnt b = cnt a /\ ovr b = ovr a /\ (st b = st a \/ st b = StopT).

Lemma override_map p l : kind_of p = KEvent -> prio c p = Override ->
  (forall q, In q l -> exists i, q = i :: tl p) ->
  forall w, st (heap w p) = StartT \/ st (heap w p) = StopT -> SettledX p w ->
  res (region p) (Some p) (Some p) w (mapM (override c) l w)
    (fun _ w' => (forall q, In q l -> q <> p -> st (heap w' q) = Standby \/ st (heap w' q) = StopT) /\
                 (st (heap w' p) = StartT \/ st (heap w' p) = StopT) /\
                 (forall q, stopped_from (heap w q) (heap w' q)) /\
                 (forall q, ~ In q l -> heap w' q = heap w q)).
Proof.
  intros K Hp; induction l as [|x l IH]; intros Hl w Hs HX; cbn [mapM].
  - apply res_ret. split; [intros q []|]. split; [exact Hs|]. split; [|reflexivity].
    intros q; split; [reflexivity|split; [reflexivity|left; reflexivity]].
  - destruct (Hl x (or_introl eq_refl)) as [i Hx].
    assert (Rx : region p x). { right; split; [exact K|exists i; exact Hx]. }
    assert (Kx : kind_of x = KEvent).
    { apply kind_len_event. apply kind_len_event in K. subst x. destruct p; simpl in *; lia. }
    eapply res_seq with (g1 := Some p)
      (Q1 := fun _ w' => (w' = w /\ (st (heap w x) = Standby \/ st (heap w x) = StopT)) \/ w' = w_set x StopT w).
    + destruct (path_dec x p) as [->|Hn].
      * unfold override, bind, get. destruct Hs as [E|E]; rewrite E.
        -- rewrite transition_to_plain by (right; discriminate). cbn [ret res]. split.
           ++ apply star_one. apply P_selfstop; assumption.
           ++ split; [apply fr_w_set; exact Rx|right; reflexivity].
        -- apply res_ret; left; auto.
      * apply override_res; [exact Rx|congruence|apply HX; exact Hn| |intros H; left; auto|intros H1 H2; right; reflexivity].
        right; right; split; [exact Kx|]. exists p; split; [reflexivity|]. split; [rewrite Hx; reflexivity|congruence].
    + intros a w1 _ _ Hw1.
      assert (Hs1 : st (heap w1 p) = StartT \/ st (heap w1 p) = StopT).
      { destruct Hw1 as [[-> _]| ->]; [exact Hs|].
        destruct (path_dec p x) as [->|Hn]; [right; apply st_w_set|rewrite heap_w_set_other by exact Hn; exact Hs]. }
      assert (HX1 : SettledX p w1).
      { destruct Hw1 as [[-> _]| ->]; [exact HX|]. intros q Hq.
        destruct (path_dec q x) as [->|Hn]; [rewrite st_w_set; apply settled_other; discriminate|rewrite heap_w_set_other by exact Hn; apply HX; exact Hq]. }
      assert (Hf1 : forall q, stopped_from (heap w q) (heap w1 q)).
      { intros q. destruct Hw1 as [[-> _]| ->]; [split; [reflexivity|split; [reflexivity|left; reflexivity]]|].
        destruct (path_dec q x) as [->|Hn]; [cbn; rewrite upd_same; split; [reflexivity|split; [reflexivity|right; reflexivity]]|
          rewrite heap_w_set_other by exact Hn; split; [reflexivity|split; [reflexivity|left; reflexivity]]]. }
      eapply res_weaken; [intros q H; exact H| |apply IH; [intros q Hq; apply Hl; right; exact Hq|exact Hs1|exact HX1]].
      intros a' w' (H1 & H2 & H3 & H4). split; [|split; [exact H2|split]].
      * intros q [<-|Hq] Hn; [|apply H1; assumption].
        destruct (H3 x) as (_ & _ & [E|E]); [|right; exact E].
        rewrite E. destruct Hw1 as [[-> Hw1]| ->]; [exact Hw1|right; apply st_w_set].
      * intros q. destruct (H3 q) as (A1 & A2 & A3). destruct (Hf1 q) as (B1 & B2 & B3).
        split; [congruence|split; [congruence|]]. destruct A3 as [A3|A3]; [|right; exact A3].
        rewrite A3; exact B3.
      * intros q Hq. rewrite H4 by (intros H; apply Hq; right; exact H).
        destruct Hw1 as [[-> _]| ->]; [reflexivity|]. apply heap_w_set_other. intros ->; apply Hq; left; reflexivity.
Qed.

Definition start_ghost (p : path) : option path :=
  match kind_of p, prio c p with KEvent, Override => Some p | _, _ => None end.

Lemma start_ghost_some p q : start_ghost p = Some q -> q = p /\ kind_of p = KEvent /\ prio c p = Override.
Proof. unfold start_ghost. destruct (kind_of p), (prio c p); intros H; try discriminate. injection H as ->; auto. Qed.

Lemma start_ghost_none p : start_ghost p = None -> kind_of p = KEvent -> prio c p <> Override.
Proof. unfold start_ghost. intros H K; rewrite K in H. destruct (prio c p); congruence. Qed.

Lemma child_neq i (p : path) : i :: p <> p.
Proof. intros H; apply (f_equal (@length nat)) in H; simpl in H; lia. Qed.

Lemma start_hook_res p w : parent_ok w p -> st (heap w p) = StartT -> SettledX p w ->
  res (region p) None (start_ghost p) w (start_hook c env p w)
    (fun _ w' => cnt (heap w' p) = cnt (heap w p) /\ SettledX p w' /\
      ((start_ghost p = None /\ st (heap w' p) = StartT) \/
       (start_ghost p = Some p /\ (st (heap w' p) = StartT \/ st (heap w' p) = StopT) /\
        forall q, In q (children c (tl p)) -> q <> p -> st (heap w' q) = Standby \/ st (heap w' q) = StopT)) /\
      (kind_of p = KGroup \/ kind_of p = KEvent ->
       forall q, In q (children c p) -> st (heap w' q) = StartT) /\
      (kind_of p = KEvent -> prio c p <> Override -> forall q, kind_of q = KEvent -> heap w' q = heap w q)).
Proof.
  intros HPO Hs Hset. unfold start_hook, start_ghost.
  destruct (kind_of p) eqn:K;
    try (apply res_ret; split; [reflexivity|split; [exact Hset|split; [left; auto|split; [intros [H|H]; discriminate|discriminate]]]]).
  - (* init *) unfold action_start. eapply res_seq with (g1 := None) (Q1 := fun _ w' => w' = w_emit (ActionStart p) w).
    { cbn. split; [apply star_one, P_astart; auto|split; [intros q _; reflexivity|reflexivity]]. }
    intros a w1 _ _ ->. eapply res_bind with (Q1 := fun b w' => w' = w_ask (QStartThrows p) b (w_emit (ActionStart p) w)).
    { apply res_ask; reflexivity. }
    intros b w1 _ _ ->. destruct b.
    + cbn. split; [exists None; apply star_refl|apply fr_refl].
    + apply res_ret. split; [reflexivity|split; [exact Hset|split; [left; auto|split; [intros [H|H]; discriminate|discriminate]]]].
  - (* group *) eapply res_weaken; [| |apply forced_map; [left; exact K|auto|left; auto]].
    + intros q Hq; left; apply sbelow_below; exact Hq.
    + intros a w' [H1 H2].
      assert (Hp : heap w' p = heap w p).
      { apply H2. intros H. apply children_child in H. destruct H as [i H]. symmetry in H. apply child_neq in H; exact H. }
      rewrite Hp. split; [reflexivity|split]; [|split; [left; auto|split; [intros _; exact H1|discriminate]]].
      intros q Hq. destruct (in_dec path_dec q (children c p)) as [Hi|Hi]; [|rewrite H2 by exact Hi; apply Hset; exact Hq].
      rewrite (H1 q Hi). split; [discriminate|]. intros Hf; exfalso; apply Hf. left.
      apply children_child in Hi. destruct Hi as [i ->]. apply kind_len_maneuver. apply kind_len_group in K. simpl; lia.
  - (* event *)
    eapply res_seq with (g1 := match prio c p with Override => Some p | _ => None end)
      (Q1 := fun _ w' => cnt (heap w' p) = cnt (heap w p) /\ SettledX p w' /\
      ((match prio c p with Override => Some p | _ => None end = None /\ st (heap w' p) = StartT) \/
       (match prio c p with Override => Some p | _ => None end = Some p /\ (st (heap w' p) = StartT \/ st (heap w' p) = StopT) /\
        forall q, In q (children c (tl p)) -> q <> p -> st (heap w' q) = Standby \/ st (heap w' q) = StopT)) /\ (prio c p <> Override -> w' = w)).
    + destruct (prio c p) eqn:E.
      * assert (HH := override_map p (children c (tl p)) K E (fun q Hq => children_child _ _ Hq) w (or_introl Hs) Hset).
        assert (H0 : star c (w, None) (w, Some p)) by (apply star_one, P_enter; assumption).
        destruct (mapM (override c) (children c (tl p)) w) as [a w'|w'|]; cbn [res] in HH |- *.
        -- destruct HH as (A & B & C1 & C2 & C3 & C4). split; [eapply star_trans; eassumption|split; [exact B|]].
           split; [apply C3|]. split; [|split; [right; auto|congruence]].
           intros q Hq. destruct (C3 q) as (_ & _ & [D|D]); [rewrite D; apply Hset; assumption|rewrite D; apply settled_other; discriminate].
        -- destruct HH as ((gx & A) & B). split; [exists gx; eapply star_trans; eassumption|exact B].
        -- exact HH.
      * apply res_ret. split; [reflexivity|split; [exact Hset|split; [left; auto|reflexivity]]].
      * apply res_ret. split; [reflexivity|split; [exact Hset|split; [left; auto|reflexivity]]].
    + intros a w1 _ _ (H1 & H2 & H3 & H7).
      eapply res_weaken; [| |apply forced_map; [right; exact K|auto|]].
      * intros q Hq; left; apply sbelow_below; exact Hq.
      * intros a' w' [H4 H5].
        assert (Hp : forall q, kind_of q = KEvent -> heap w' q = heap w1 q).
        { intros q Kq. apply H5. intros H. apply children_child in H. destruct H as [i ->].
          apply kind_len_event in Kq; apply kind_len_event in K; simpl in Kq; lia. }
        rewrite (Hp p K). split; [exact H1|]. split.
        { intros q Hq. destruct (in_dec path_dec q (children c p)) as [Hi|Hi]; [|rewrite H5 by exact Hi; apply H2; exact Hq].
          rewrite (H4 q Hi). split; [discriminate|]. intros Hf; exfalso; apply Hf. right.
          apply children_child in Hi. destruct Hi as [i ->]. apply kind_len_action. apply kind_len_event in K. simpl; lia. }
        split; [|split; [intros _; exact H4|intros _ Ho q Kq; rewrite (Hp q Kq), (H7 Ho); reflexivity]].
        destruct H3 as [H3|(H3 & H3' & H6)]; [left; exact H3|right; split; [exact H3|split; [exact H3'|]]].
        intros q Hq Hn. rewrite Hp; [apply H6; assumption|].
        apply children_child in Hq; destruct Hq as [i ->]. apply kind_len_event. apply kind_len_event in K. destruct p; simpl in *; lia.
      * destruct H3 as [[H3 H3']|[H3 _]]; [left; auto|right; exact H3].
  - (* action *) unfold action_start. eapply res_seq with (g1 := None) (Q1 := fun _ w' => w' = w_emit (ActionStart p) w).
    { cbn. split; [apply star_one, P_astart; auto|split; [intros q _; reflexivity|reflexivity]]. }
    intros a w1 _ _ ->. eapply res_bind with (Q1 := fun b w' => w' = w_ask (QStartThrows p) b (w_emit (ActionStart p) w)).
    { apply res_ask; reflexivity. }
    intros b w1 _ _ ->. destruct b.
    + cbn. split; [exists None; apply star_refl|apply fr_refl].
    + apply res_ret. split; [reflexivity|split; [exact Hset|split; [left; auto|split; [intros [H|H]; discriminate|discriminate]]]].
Qed.


Definition fin (s : state) : Prop := s = Standby \/ s = Running \/ s = Complete.

Definition free_kind (p : path) : Prop := kind_of p <> KAct /\ kind_of p <> KEvent.

Definition EPost (p : path) (s0 : state) (w' : world) : Prop :=
  Settled w' /\ fin (st (heap w' p)) /\
  (s0 = StopT \/ s0 = Complete -> st (heap w' p) = Complete) /\
  (free_kind p -> st (heap w' p) <> Standby).

Definition EvalOK (evalc : path -> M unit) (q : path) : Prop :=
  forall w, CountInv c (w, None) -> Settled w -> parent_ok w q ->
    res (region q) None None w (evalc q w) (fun _ w' => EPost q (st (heap w q)) w').

Lemma Settled_X p w : settled p (st (heap w p)) -> SettledX p w -> Settled w.
Proof. intros H1 H2 q. destruct (path_dec q p) as [->|Hn]; [exact H1|apply H2; assumption]. Qed.

Lemma SettledX_set p s w : SettledX p w -> SettledX p (w_set p s w).
Proof. intros H q Hq. rewrite heap_w_set_other by exact Hq. apply H; assumption. Qed.

Lemma CountInv_fresh p w g : CountInv c (w, g) ->
  st (heap w p) = StartT -> count_ok c w p.
Proof.
  intros H E. unfold count_ok. destruct (kind_of p) eqn:K;
    try (assert (Hn : ~ forced_kind p) by (unfold forced_kind; rewrite K; intros [?|?]; discriminate);
         destruct (H p Hn) as [H1 _]; destruct (H1 (or_intror (or_introl E))); auto).
  - right; right; left; exact K.
  - right; right; right; exact K.
Qed.

Lemma run_hook_res evalc p w : parent_ok w p -> CountInv c (w, None) -> Settled w -> st (heap w p) = Running ->
  (kind_of p <> KAction -> kind_of p <> KInit -> forall q, In q (children c p) -> EvalOK evalc q) ->
  res (sbelow p) None None w (run_hook c env evalc p w) (fun _ w' => Settled w').
Proof.
  intros HPO HC HS E HE. unfold run_hook.
  assert (HA : kind_of p = KAction \/ kind_of p = KInit ->
    res (sbelow p) None None w (action_run env p w) (fun _ w' => Settled w')).
  { intros K. unfold action_run. eapply res_seq with (g1 := None) (Q1 := fun _ w' => w' = w_emit (ActionRun p) w).
    { cbn. split; [apply star_one, P_arun; assumption|split; [intros q _; reflexivity|reflexivity]]. }
    intros a w1 _ _ ->. eapply res_bind with (Q1 := fun b w' => w' = w_ask (QRunThrows p) b (w_emit (ActionRun p) w)).
    { apply res_ask; reflexivity. }
    intros b w1 _ _ ->. destruct b.
    + cbn. split; [exists None; apply star_refl|apply fr_refl].
    + apply res_ret. exact HS. }
  assert (HM : kind_of p <> KAction -> kind_of p <> KInit ->
    res (sbelow p) None None w (mapM evalc (children c p) w) (fun _ w' => Settled w')).
  { intros K1 K2.
    eapply res_weaken with (R := sbelow p) (Q := fun _ w' => CountInv c (w', None) /\ Settled w' /\ st (heap w' p) = Running); [auto|intros a w' (_ & H & _); exact H|].
    apply res_mapM; [|auto].
    intros q w1 Hq (HC1 & HS1 & E1). destruct (children_child _ _ Hq) as [i Hi].
    assert (HPq : parent_ok w1 q) by (right; left; subst q; exact E1).
    assert (HH := HE K1 K2 q Hq w1 HC1 HS1 HPq). apply res_and_star in HH.
    eapply res_weaken; [| |exact HH].
    - intros r Hr; subst q; eapply region_child; exact Hr.
    - intros a w' ((H1 & _) & Hst & Hfr). split; [eapply CountInv_star; eassumption|split; [exact H1|]].
      rewrite Hfr; [exact E1|]. intros Hr; subst q; apply region_child in Hr; apply sbelow_irrefl in Hr; exact Hr. }
  destruct (kind_of p) eqn:K; try (apply HM; discriminate); apply HA; auto.
Qed.

Lemma stop_hook_res evalc p w : parent_ok w p -> CountInv c (w, None) -> Settled w -> st (heap w p) = StopT ->
  kind_of p <> KAction ->
  (kind_of p <> KAction -> kind_of p <> KInit -> forall q, In q (children c p) -> EvalOK evalc q) ->
  res (below p) None None w (stop_hook c evalc p w) (fun _ w' => Settled w' /\ st (heap w' p) = StopT).
Proof.
  intros HPO HC HS E KA HE. unfold stop_hook.
  assert (HM : kind_of p <> KAction -> kind_of p <> KInit ->
    res (below p) None None w (mapM (fun q => override c q ;;; evalc q) (children c p) w)
     (fun _ w' => Settled w' /\ st (heap w' p) = StopT)).
  { intros K1 K2.
    eapply res_weaken with (R := sbelow p) (Q := fun _ w' => CountInv c (w', None) /\ Settled w' /\ st (heap w' p) = StopT);
      [intros q; apply sbelow_below|intros a w' (_ & H & H'); auto|].
    apply res_mapM; [|auto].
    intros q w1 Hq (HC1 & HS1 & E1). destruct (children_child _ _ Hq) as [i Hi].
    assert (Hpq : p <> q) by (subst q; intros H; symmetry in H; apply child_neq in H; exact H).
    eapply res_seq with (g1 := None) (Q1 := fun _ w' => CountInv c (w', None) /\ Settled w' /\ st (heap w' p) = StopT).
    - assert (HO : res (sbelow p) None None w1 (override c q w1)
         (fun _ w' => Settled w' /\ st (heap w' p) = StopT)).
      { apply override_res.
        - subst q; exists i, []; reflexivity.
        - discriminate.
        - apply HS1.
        - right; left; split; [reflexivity|split; [subst q; discriminate|subst q; exact E1]].
        - intros _; split; assumption.
        - intros _ _; split; [|rewrite heap_w_set_other by exact Hpq; exact E1].
          intros r. destruct (path_dec r q) as [->|Hn]; [rewrite st_w_set; apply settled_other; discriminate|rewrite heap_w_set_other by exact Hn; apply HS1]. }
      apply res_and_star in HO. eapply res_weaken; [| |exact HO]; [auto|].
      intros a w' ((H1 & H2) & Hst & _). split; [eapply CountInv_star; eassumption|auto].
    - intros a w2 _ _ (HC2 & HS2 & E2).
      assert (HPq : parent_ok w2 q) by (right; right; subst q; exact E2).
      assert (HH := HE K1 K2 q Hq w2 HC2 HS2 HPq). apply res_and_star in HH.
      eapply res_weaken; [| |exact HH].
      + intros r Hr; subst q; eapply region_child; exact Hr.
      + intros a' w' ((H1 & _) & Hst & Hfr). split; [eapply CountInv_star; eassumption|split; [exact H1|]].
        rewrite Hfr; [exact E2|]. intros Hr; subst q; apply region_child in Hr; apply sbelow_irrefl in Hr; exact Hr. }
  destruct (kind_of p) eqn:K; try (apply HM; discriminate).
  - apply res_ret; auto.
  - contradiction.
Qed.

Lemma accomplished_res (R : path -> Prop) p w (Q : bool -> world -> Prop) :
  (forall w', heap w' = heap w -> done_ok c w' p -> Q true w') ->
  (forall w', heap w' = heap w -> Q false w') ->
  res R None None w (accomplished c env p w) Q.
Proof.
  intros H1 H2. unfold accomplished.
  assert (HM : kind_of p <> KAction -> kind_of p <> KInit ->
     res R None None w (Ok (forallb (fun q => state_eqb (st (heap w q)) Complete) (children c p)) w) Q).
  { intros K1 K2. cbn [res]. split; [apply star_refl|split; [apply fr_refl|]].
    destruct (forallb _ _) eqn:E; [|apply H2; reflexivity].
    apply H1; [reflexivity|]. unfold done_ok.
    assert (HH : forall q, In q (children c p) -> st (heap w q) = Complete).
    { intros q Hq. rewrite forallb_forall in E. apply state_eqb_spec, E, Hq. }
    destruct (kind_of p); try exact HH; congruence. }
  destruct (kind_of p) eqn:K; try (apply HM; discriminate).
  - apply res_ask. intros [|]; [apply H1|apply H2]; try reflexivity. unfold done_ok; rewrite K. eexists; reflexivity.
  - apply res_ask. intros [|]; [apply H1|apply H2]; try reflexivity. unfold done_ok; rewrite K. eexists; reflexivity.
Qed.


Lemma running_events_zero h m : running_events c h m = 0 ->
  forall q, In q (children c m) -> st (h q) <> Running.
Proof.
  unfold running_events. intros H q Hq E.
  assert (HI : In q (filter (fun e => state_eqb (st (h e)) Running) (children c m))).
  { apply filter_In; split; [exact Hq|rewrite E; reflexivity]. }
  destruct (filter _ _); [destruct HI|discriminate].
Qed.

Lemma transition_start_res p w : parent_ok w p -> st (heap w p) = Standby -> trig_ok w p -> SettledX p w ->
  res (region p) None None w (transition_to c p StartT w)
    (fun t w' => (t = true /\ w' = w_set p StartT w /\ StartPre p w') \/
                 (t = false /\ w' = w_set p Standby (w_set p StartT w) /\ kind_of p = KEvent)).
Proof.
  intros HPO E1 Htr HX1.
  destruct (kind_eqb (kind_of p) KEvent) eqn:KE.
  - assert (K : kind_of p = KEvent) by (destruct (kind_of p); try discriminate; reflexivity).
    rewrite (transition_to_event_start p w K E1).
    destruct (_ && _) eqn:B.
    + apply andb_true_iff in B; destruct B as [B1 B2]. apply Nat.ltb_lt in B2.
      assert (Hsk : prio c p = Skip) by (destruct (prio c p); try discriminate; reflexivity).
      cbn [res]. split; [apply star_one, P_skip; auto|]. split; [|right; auto].
      eapply fr_trans; [apply fr_w_set; apply region_self|apply fr_w_set; apply region_self].
    + assert (HR0 : prio c p = Skip -> running_events c (heap w) (tl p) = 0).
      { intros Hsk. rewrite Hsk in B; cbn [andb] in B. apply Nat.ltb_ge in B. lia. }
      cbn [res]. split; [|split; [apply fr_w_set, region_self|left; split; [reflexivity|split; [reflexivity|]]]].
      2:{ intros _ Hsk _ q Hq Hn'. rewrite heap_w_set_other by exact Hn'. apply running_events_zero with (1 := HR0 Hsk); exact Hq. }
      apply star_one, P_start; [exact HPO|exact E1|exact Htr| |].
      * intros _ q Hq Hn'. assert (Kq : kind_of q = KEvent).
        { apply children_child in Hq; destruct Hq as [i ->]. apply kind_len_event. apply kind_len_event in K. destruct p; simpl in *; lia. }
        apply (HX1 q Hn'). intros [Hf|Hf]; congruence.
      * intros _ Hsk. exact (HR0 Hsk).
  - assert (K : kind_of p <> KEvent) by (intros K; rewrite K in KE; discriminate).
    rewrite transition_to_plain by (left; exact K).
    cbn [res]. split; [|split; [apply fr_w_set, region_self|left; split; [reflexivity|split; [reflexivity|intros Ke; contradiction]]]].
    apply star_one, P_start; [exact HPO|exact E1|exact Htr|intros H; contradiction|intros H; contradiction].
Qed.

Lemma dispatch_res evalc p :
  (kind_of p <> KAction -> kind_of p <> KInit -> forall q, In q (children c p) -> EvalOK evalc q) ->
  forall n w, need p (heap w p) <= n -> CountInv c (w, None) -> SettledX p w -> parent_ok w p -> StartPre p w ->
  res (region p) None None w (dispatch c env evalc n p w) (fun _ w' => EPost p (st (heap w p)) w').
Proof.
  intros HE; induction n as [|n IH]; intros w Hn HC HX HPO HSP.
  { assert (H := need_pos p (heap w p)); lia. }
  cbn [dispatch]. unfold bind at 1, get at 1.
  (* continuation *)
  assert (REC : forall s0 w1, need p (heap w1 p) <= n -> CountInv c (w1, None) -> SettledX p w1 -> parent_ok w1 p -> StartPre p w1 ->
     (s0 = StopT \/ s0 = Complete -> st (heap w1 p) = Complete \/ st (heap w1 p) = StopT) ->
     res (region p) None None w1 (dispatch c env evalc n p w1) (fun _ w' => EPost p s0 w')).
  { intros s0 w1 Hn1 HC1 HX1 HPO1 HSP1 Hs0. eapply res_weaken; [| |apply IH; assumption]; [auto|].
    intros a w' (A & B & C & D). split; [exact A|split; [exact B|split; [|exact D]]].
    intros Hs; apply C. destruct (Hs0 Hs); auto. }
  destruct (st (heap w p)) eqn:E.
  - (* Standby *)
    eapply res_bind with (Q1 := fun b w1 => heap w1 = heap w /\ (b = true -> trig_ok w1 p) /\ (b = false -> ~ free_kind p)).
    { unfold start_trigger. destruct (kind_of p) eqn:K;
        try (apply res_ret; split; [reflexivity|split; [intros _ [?|?]; congruence|discriminate]]);
        apply res_ask; intros b; (split; [reflexivity|split; [intros -> _; eexists; reflexivity|intros _ [F1 F2]; congruence]]). }
    intros b w1 Hst Hfr1 (Hh & Htrue & Hfalse).
    assert (HPO1 := parent_ok_fr _ _ _ Hfr1 HPO).
    assert (HC1 : CountInv c (w1, None)) by (eapply CountInv_star; eassumption).
    assert (E1 : st (heap w1 p) = Standby) by (rewrite Hh; exact E).
    assert (HX1 : SettledX p w1) by (intros q Hq; rewrite Hh; apply HX; assumption).
    destruct b.
    + eapply res_bind; [apply transition_start_res; [exact HPO1|exact E1|apply Htrue; reflexivity|exact HX1]|].
      intros t w2 Hst2 Hfr2 [(-> & -> & HSP2)|(-> & -> & K)].
      * apply REC.
        -- unfold need in Hn |- *. rewrite E in Hn. rewrite st_w_set, cnt_w_set, Hh. lia.
        -- eapply CountInv_star; eassumption.
        -- apply SettledX_set; exact HX1.
        -- exact (parent_ok_fr _ _ _ Hfr2 HPO1).
        -- exact HSP2.
        -- intros [?|?]; discriminate.
      * assert (HX2 : SettledX p (w_set p Standby (w_set p StartT w1))) by (apply SettledX_set, SettledX_set, HX1).
        apply res_ret. split; [eapply Settled_X; [|exact HX2]; rewrite st_w_set; apply settled_other; discriminate|].
        rewrite st_w_set. split; [unfold fin; auto|]. split; [intros [?|?]; discriminate|].
        intros [F1 F2]; contradiction.
    + apply res_ret. unfold EPost. rewrite E1. split; [eapply Settled_X; [rewrite E1; apply settled_other; discriminate|exact HX1]|].
      split; [unfold fin; auto|]. split; [intros [?|?]; discriminate|]. intros F; exfalso; apply Hfalse; auto.
  - (* StartT *)
    eapply res_seq; [apply start_hook_res; assumption|].
    intros a w1 Hst1 Hfr1 (Hcnt & HX1 & Hgs & Hch & Hsib).
    assert (HPO1 := parent_ok_fr _ _ _ Hfr1 HPO).
    assert (HC1 := CountInv_star _ _ Hst1 HC).
    assert (HCO : count_ok c w1 p).
    { unfold count_ok; rewrite Hcnt. apply (CountInv_fresh p w None HC E). }
    assert (HR : star c (w1, start_ghost p) (w_inc p (w_set p Running w1), None)).
    { apply star_one, P_run; [exact HPO1| |exact HCO|exact Hch|].
      2:{ intros K Hsk q Hq Hn'. rewrite (Hsib K); [apply (HSP K Hsk E q Hq Hn')|congruence|].
          apply children_child in Hq; destruct Hq as [i ->]. apply kind_len_event. apply kind_len_event in K. destruct p; simpl in *; lia. }
      destruct Hgs as [[H1 H2]|(H1 & H2 & H3)].
      - left. split; [exact H1|split; [exact H2|intros K; apply start_ghost_none; assumption]].
      - right. destruct (start_ghost_some _ _ H1) as (_ & K & Pr). split; [exact H1|split; [exact H2|split; [exact K|split; [exact Pr|exact H3]]]]. }
    unfold bind at 1. rewrite transition_to_plain by (right; discriminate). unfold seqm, bind at 1, inc_count.
    match goal with |- context [dispatch c env evalc n p ?X] => change X with (w_inc p (w_set p Running w1)) end.
    assert (HC2 := CountInv_star _ _ HR HC1).
    assert (HX2 : SettledX p (w_inc p (w_set p Running w1))).
    { intros q Hq. cbn. rewrite !upd_other by exact Hq. apply HX1; assumption. }
    assert (HF : fr (region p) w1 (w_inc p (w_set p Running w1))).
    { eapply fr_trans; [apply fr_w_set, region_self|apply fr_w_inc, region_self]. }
    assert (HPO2 := parent_ok_fr _ _ _ HF HPO1).
    assert (HD : res (region p) None None (w_inc p (w_set p Running w1))
               (dispatch c env evalc n p (w_inc p (w_set p Running w1))) (fun _ w' => EPost p StartT w')).
    { apply REC; [|exact HC2|exact HX2|exact HPO2|intros _ _ X; cbn in X; rewrite !upd_same in X; cbn in X; discriminate|intros [?|?]; discriminate].
      unfold need in Hn |- *. rewrite E in Hn. cbn. rewrite !upd_same. cbn. rewrite Hcnt. lia. }
    destruct (dispatch c env evalc n p (w_inc p (w_set p Running w1))) as [a' w'|w'|]; cbn [res] in HD |- *.
    + destruct HD as (A & B & C). split; [eapply star_trans; eassumption|split; [eapply fr_trans; eassumption|exact C]].
    + destruct HD as ((gx & A) & B). split; [exists gx; eapply star_trans; eassumption|eapply fr_trans; eassumption].
    + exact HD.
  - (* Running *)
    assert (HSt : Settled w) by (eapply Settled_X; [rewrite E; apply settled_other; discriminate|exact HX]).
    eapply res_seq with (g1 := None) (Q1 := fun _ w1 => Settled w1 /\ heap w1 p = heap w p).
    { assert (HH := run_hook_res evalc p w HPO HC HSt E HE). apply res_and_star in HH.
      eapply res_weaken; [| |exact HH].
      - intros q Hq; left; apply sbelow_below; exact Hq.
      - intros a w' (H1 & _ & H2). split; [exact H1|apply H2, sbelow_irrefl]. }
    intros a w1 Hst1 Hfr1 (HS1 & Hp1).
    assert (HPO1 := parent_ok_fr _ _ _ Hfr1 HPO).
    eapply res_bind with (Q1 := fun b w2 => heap w2 = heap w1 /\ (b = true -> done_ok c w2 p)).
    { apply accomplished_res; [intros w' Hh Hd; auto|intros w' Hh; split; [exact Hh|discriminate]]. }
    intros b w2 Hst2 Hfr2 (Hh2 & Hd2).
    assert (HPO2 := parent_ok_fr _ _ _ Hfr2 HPO1).
    assert (HC2 : CountInv c (w2, None)) by (eapply CountInv_star; [exact Hst2|]; eapply CountInv_star; [exact Hst1|exact HC]).
    assert (E2 : st (heap w2 p) = Running) by (rewrite Hh2, Hp1; exact E).
    assert (HX2 : SettledX p w2) by (intros q _; rewrite Hh2; apply HS1).
    destruct b.
    + unfold bind. rewrite transition_to_plain by (right; discriminate).
      assert (HR : star c (w2, None) (w_set p EndT w2, None)) by (apply star_one, P_end; [exact HPO2|exact E2|apply Hd2; reflexivity]).
      assert (HD : res (region p) None None (w_set p EndT w2)
               (dispatch c env evalc n p (w_set p EndT w2)) (fun _ w' => EPost p Running w')).
      { apply REC; [|eapply CountInv_star; eassumption|apply SettledX_set; exact HX2|exact (parent_ok_fr _ _ _ (fr_w_set (region p) p EndT w2 (region_self p)) HPO2)|intros _ _ X; rewrite st_w_set in X; discriminate|intros [?|?]; discriminate].
        unfold need in Hn |- *. rewrite E in Hn. rewrite st_w_set, cnt_w_set, Hh2, Hp1. lia. }
      assert (HF : fr (region p) w2 (w_set p EndT w2)) by (apply fr_w_set, region_self).
      destruct (dispatch c env evalc n p (w_set p EndT w2)) as [a' w'|w'|]; cbn [res] in HD |- *.
      * destruct HD as (A & B & C). split; [eapply star_trans; eassumption|split; [eapply fr_trans; eassumption|exact C]].
      * destruct HD as ((gx & A) & B). split; [exists gx; eapply star_trans; eassumption|eapply fr_trans; eassumption].
      * exact HD.
    + apply res_ret. unfold EPost. rewrite E2. split; [eapply Settled_X; [rewrite E2; apply settled_other; discriminate|exact HX2]|].
      split; [unfold fin; auto|]. split; [intros [?|?]; discriminate|discriminate].
  - (* EndT *)
    unfold bind, get. rewrite transition_to_plain by (right; destruct (Nat.ltb _ _); discriminate).
    set (s' := if Nat.ltb (cnt (heap w p)) (maxc c p) then Standby else Complete).
    assert (HR : star c (w, None) (w_set p s' w, None)) by (apply star_one; apply (P_next c w p HPO E)).
    assert (HD : res (region p) None None (w_set p s' w)
               (dispatch c env evalc n p (w_set p s' w)) (fun _ w' => EPost p EndT w')).
    { apply REC; [|eapply CountInv_star; eassumption|apply SettledX_set; exact HX|exact (parent_ok_fr _ _ _ (fr_w_set (region p) p s' w (region_self p)) HPO)|intros _ _ X; rewrite st_w_set in X; unfold s' in X; destruct (Nat.ltb _ _); discriminate|intros [?|?]; discriminate].
      unfold need in Hn |- *. rewrite E in Hn. rewrite st_w_set, cnt_w_set. unfold s'.
      destruct (Nat.ltb_spec (cnt (heap w p)) (maxc c p)); lia. }
    assert (HF : fr (region p) w (w_set p s' w)) by (apply fr_w_set, region_self).
    destruct (dispatch c env evalc n p (w_set p s' w)) as [a' w'|w'|]; cbn [res] in HD |- *.
    + destruct HD as (A & B & C). split; [eapply star_trans; eassumption|split; [eapply fr_trans; eassumption|exact C]].
    + destruct HD as ((gx & A) & B). split; [exists gx; eapply star_trans; eassumption|eapply fr_trans; eassumption].
    + exact HD.
  - (* Complete *)
    apply res_ret. unfold EPost. rewrite E. split; [eapply Settled_X; [rewrite E; apply settled_other; discriminate|exact HX]|].
    split; [unfold fin; auto|]. split; [reflexivity|discriminate].
  - (* SkipT *)
    cbn. split; [exists None; apply star_refl|apply fr_refl].
  - (* StopT *)
    eapply res_bind with (Q1 := fun b w2 => heap w2 = heap w).
    { apply accomplished_res; auto. }
    intros b w1 Hst1 Hfr1 Hh.
    assert (HPO1 := parent_ok_fr _ _ _ Hfr1 HPO).
    assert (HC1 := CountInv_star _ _ Hst1 HC).
    assert (E1 : st (heap w1 p) = StopT) by (rewrite Hh; exact E).
    assert (HX1 : SettledX p w1) by (intros q Hq; rewrite Hh; apply HX; assumption).
    assert (HS1 : Settled w1) by (eapply Settled_X; [rewrite E1; apply settled_other; discriminate|exact HX1]).
    assert (FINAL : forall w2, star c (w1, None) (w_set p Complete w2, None) -> fr (region p) w1 w2 -> Settled w2 ->
       res (region p) None None w1 (dispatch c env evalc n p (w_set p Complete w2)) (fun _ w' => EPost p StopT w')).
    { intros w2 HR Hfr2 HS2.
      assert (HF : fr (region p) w1 (w_set p Complete w2)) by (eapply fr_trans; [exact Hfr2|apply fr_w_set, region_self]).
      assert (HD : res (region p) None None (w_set p Complete w2)
               (dispatch c env evalc n p (w_set p Complete w2)) (fun _ w' => EPost p StopT w')).
      { apply REC; [|eapply CountInv_star; eassumption|apply SettledX_set; intros q _; apply HS2
                    |exact (parent_ok_fr _ _ _ HF HPO1)|intros _ _ X; rewrite st_w_set in X; discriminate|].
        - unfold need in Hn |- *. rewrite E in Hn. rewrite st_w_set. lia.
        - intros _; left; apply st_w_set. }
      destruct (dispatch c env evalc n p (w_set p Complete w2)) as [a' w'|w'|]; cbn [res] in HD |- *.
      + destruct HD as (A & B & C). split; [eapply star_trans; eassumption|split; [eapply fr_trans; eassumption|exact C]].
      + destruct HD as ((gx & A) & B). split; [exists gx; eapply star_trans; eassumption|eapply fr_trans; eassumption].
      + exact HD. }
    destruct b.
    + unfold seqm, bind, ret. rewrite transition_to_plain by (right; discriminate).
      apply FINAL; [apply star_one, P_complete; assumption|apply fr_refl|exact HS1].
    + destruct (kind_eqb (kind_of p) KAction) eqn:KA.
      * assert (K : kind_of p = KAction) by (destruct (kind_of p); try discriminate; reflexivity).
        unfold seqm, bind, stop_hook. rewrite K. unfold action_stop.
        match goal with |- context [transition_to c p Complete ?X] => change X with (w_astop p w1) end.
        rewrite transition_to_plain by (right; discriminate).
        apply FINAL; [apply star_one, P_astop; assumption|apply fr_w_astop, region_self|].
        intros r. destruct (path_dec r p) as [->|Hr]; [|cbn; rewrite upd_other by exact Hr; apply HS1].
        cbn. rewrite upd_same. destruct (ovr (heap w1 p)); cbn; [apply settled_other; discriminate|rewrite E1; apply settled_other; discriminate].
      * assert (K : kind_of p <> KAction) by (intros K; rewrite K in KA; discriminate).
        assert (HH := stop_hook_res evalc p w1 HPO1 HC1 HS1 E1 K HE).
        unfold seqm, bind. destruct (stop_hook c evalc p w1) as [a w2|w2|]; cbn [res] in HH.
        -- destruct HH as (Hst2 & Hfr2 & HS2 & E2).
           assert (Hfr2' : fr (region p) w1 w2) by (eapply fr_weaken; [|exact Hfr2]; intros q Hq; left; exact Hq).
           rewrite transition_to_plain by (right; discriminate).
           apply FINAL; [|exact Hfr2'|exact HS2].
           eapply star_step; [exact Hst2|]. apply P_complete; [exact (parent_ok_fr _ _ _ Hfr2' HPO1)|exact E2].
        -- destruct HH as (Hst2 & Hfr2). cbn [res]. split; [exact Hst2|].
           eapply fr_weaken; [|exact Hfr2]; intros q Hq; left; exact Hq.
        -- exact HH.
Qed.

Lemma evaluate_res h : forall p, length p <= 6 -> 7 <= h + length p -> EvalOK (evaluate c env h) p.
Proof.
  induction h as [|h IH]; intros p Hl Hh w HC HS HPO; [lia|].
  cbn [evaluate].
  eapply res_bind with (Q1 := fun b w1 => heap w1 = heap w /\
     (b = true -> exists l, log w1 = Ask (QStopTrigger p) true :: l /\ (kind_of p = KStoryboard \/ kind_of p = KAct))).
  { unfold stop_trigger. destruct (kind_of p) eqn:K;
      try (apply res_ret; split; [reflexivity|discriminate]);
      apply res_ask; intros b; (split; [reflexivity|intros ->; eexists; split; [reflexivity|auto]]). }
  intros b w1 Hst1 Hfr1 (Hh1 & Hb).
  assert (HPO1 := parent_ok_fr _ _ _ Hfr1 HPO).
  assert (HC1 := CountInv_star _ _ Hst1 HC).
  assert (HS1 : Settled w1) by (intros q; rewrite Hh1; apply HS).
  eapply res_seq with (g1 := None) (Q1 := fun _ w2 => SettledX p w2 /\ StartPre p w2 /\
     (st (heap w p) = StopT \/ st (heap w p) = Complete -> st (heap w2 p) = StopT \/ st (heap w2 p) = Complete)).
  { destruct b.
    - apply override_res; [apply region_self|discriminate|apply HS1|left; split; [reflexivity|apply Hb; reflexivity]| |].
      + intros H. split; [intros q _; apply HS1|split; [intros Kp _ X; exfalso; apply (proj2 (HS1 p)); [intros [?|?]; congruence|exact X]|rewrite Hh1; auto]].
      + intros _ _. split; [apply SettledX_set; intros q _; apply HS1|split; [intros _ _ X; rewrite st_w_set in X; discriminate|rewrite st_w_set; auto]].
    - apply res_ret. split; [intros q _; apply HS1|split; [intros Kp _ X; exfalso; apply (proj2 (HS1 p)); [intros [?|?]; congruence|exact X]|rewrite Hh1; auto]]. }
  intros a w2 Hst2 Hfr2 (HX2 & HSP2 & Hsc).
  assert (HPO2 := parent_ok_fr _ _ _ Hfr2 HPO1).
  assert (HC2 := CountInv_star _ _ Hst2 HC1).
  eapply res_weaken; [| |apply dispatch_res; [|apply need_fuel|exact HC2|exact HX2|exact HPO2|exact HSP2]]; [auto| |].
  - intros a' w' (A & B & C & D). split; [exact A|split; [exact B|split; [|exact D]]].
    intros H; apply C. destruct (Hsc H); auto.
  - intros K1 K2 q Hq. apply children_child in Hq; destruct Hq as [i ->].
    assert (Hl5 : ~ 6 <= length p) by (intros H; apply kind_len_action in H; contradiction).
    apply IH; simpl; lia.
Qed.

End Refine.
