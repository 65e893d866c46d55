(** Properties of conditions, triggers, rules and state conditions. *)
From Coq Require Import ZArith List Bool Lia Arith QArith Qabs.
From Verif Require Import M_Storyboard M_Condition S_Condition P_Condition.
Import ListNotations.
Local Open Scope Z_scope.

(** * C11: delayed and edged conditions follow the definition. *)

(** For every edge, every delay, every non-decreasing evaluation times and every course of the
    expression, evaluation [n] answers what the definition over the full history says; in
    particular discarding entries never matters. *)
Theorem condition_follows_definition : forall e d t v n,
  monotone t -> answer e d t v n = true <-> spec_answer e t v d n.
Proof. intros. now apply answer_spec. Qed.

(** Without delay the expression of this very evaluation is taken. *)
Theorem condition_without_delay : forall e t v n,
  monotone t ->
  match e with
  | NoEdge => answer e 0 t v n = v n
  | Sticky => answer e 0 t v n = true <-> exists k, (k <= n)%nat /\ v k = true
  | Rising => answer e 0 t v (S n) = v (S n) && negb (v n)
  | Falling => answer e 0 t v (S n) = negb (v (S n)) && v n
  | RisingOrFalling => answer e 0 t v (S n) = xorb (v (S n)) (v n)
  end.
Proof.
  intros e t v n M.
  assert (L : forall m k, latest t 0 m k -> k = m).
  { intros m k (A & B & C). destruct (Nat.eq_dec k m); [assumption|].
    pose proof (C m ltac:(lia)). lia. }
  assert (L' : forall m, latest t 0 m m).
  { intros m. split; [lia|]. split; [lia|]. intros j Hj. lia. }
  assert (X : forall a b : bool, (a = true <-> b = true) -> a = b).
  { intros [] []; intuition congruence. }
  destruct e.
  - apply X. rewrite (condition_follows_definition _ _ _ _ _ M). cbn [spec_answer]. split.
    + intros (k & HL & Ha & Hb). apply L in HL. injection HL as ->. now rewrite Ha, Hb.
    + intros H. apply andb_true_iff in H as [Ha Hb]. apply negb_true_iff in Hb.
      exists n. now split.
  - apply X. rewrite (condition_follows_definition _ _ _ _ _ M). cbn [spec_answer]. split.
    + intros (k & HL & Ha & Hb). apply L in HL. injection HL as ->. now rewrite Ha, Hb.
    + intros H. apply andb_true_iff in H as [Ha Hb]. apply negb_true_iff in Ha.
      exists n. now split.
  - apply X. rewrite (condition_follows_definition _ _ _ _ _ M). cbn [spec_answer]. split.
    + intros (k & HL & Ha). apply L in HL. injection HL as ->.
      destruct (v (S n)), (v n); cbn; congruence.
    + intros H. exists n. split; [apply L'|]. destruct (v (S n)), (v n); cbn in *; congruence.
  - apply X. rewrite (condition_follows_definition _ _ _ _ _ M). cbn [spec_answer]. split.
    + intros (k & HL & Ha). apply L in HL. now subst k.
    + intros H. exists n. now split.
  - rewrite (condition_follows_definition _ _ _ _ _ M). cbn [spec_answer]. split.
    + intros (m & k & Hm & HL & Ha). apply L in HL. subst k. now exists m.
    + intros (k & Hk & Ha). exists k, k. split; [lia|]. now split.
Qed.

(** A sticky condition, once true, stays true. *)
Theorem sticky_stays : forall d t v n m,
  monotone t -> (n <= m)%nat -> answer Sticky d t v n = true -> answer Sticky d t v m = true.
Proof.
  intros d t v n m M Hnm. rewrite !(condition_follows_definition _ _ _ _ _ M). cbn [spec_answer].
  intros (m' & k & A & B & C). exists m', k. split; [lia|]. now split.
Qed.

(** A delayed rising edge. *)
Example condition_follows_definition_case :
  let t := fun i => 10 * Z.of_nat i in
  let v := fun i => (3 <=? i)%nat in
  monotone t /\
  map (answer Rising 25 t v) (seq 0 9) =
    [false; false; false; false; false; false; true; false; false] /\
  map (answer Sticky 15 t v) (seq 0 9) =
    [false; false; false; false; false; true; true; true; true].
Proof. cbv zeta. split; [intros i j H; lia|]. split; vm_compute; reflexivity. Qed.

(** * C12: each edge exactly once under uniform sampling. *)

Lemma uniform_time t dt : uniform t dt -> forall n i, t (n + i)%nat = t n + Z.of_nat i * dt.
Proof.
  intros U n i. induction i as [|i IH]; [rewrite Nat.add_0_r; lia|].
  rewrite Nat.add_succ_r, U, IH. lia.
Qed.

Lemma uniform_monotone t dt : uniform t dt -> 0 < dt -> monotone t.
Proof.
  intros U P i j H. replace j with (i + (j - i))%nat by lia. rewrite (uniform_time t dt U). nia.
Qed.

Lemma uniform_latest t dt d c n k :
  uniform t dt -> 0 < dt -> 0 <= d -> lag d dt c ->
  latest t d n k <-> n = (k + c)%nat.
Proof.
  intros U P D (L1 & L2). unfold latest. split.
  - intros (A & B & C).
    assert (E : t n = t k + Z.of_nat (n - k) * dt)
      by (rewrite <- (uniform_time t dt U); f_equal; lia).
    assert (Hc : (c <= n - k)%nat).
    { assert (Z.of_nat c - 1 < Z.of_nat (n - k)) by nia. lia. }
    destruct (Nat.eq_dec c (n - k)) as [->|Hne]; [lia|].
    pose proof (C (S k) ltac:(lia)) as C'. rewrite U in C'.
    assert (Z.of_nat (n - k) - 1 < Z.of_nat c) by nia. lia.
  - intros ->. split; [lia|]. rewrite (uniform_time t dt U). split; [nia|].
    intros j Hj. replace j with (k + (j - k))%nat by lia. rewrite (uniform_time t dt U).
    assert (1 <= Z.of_nat (j - k)) by lia. nia.
Qed.

(** With an evaluation every [dt] and [c = ceil(d/dt)], evaluation [n] reports a rising (falling)
    edge iff the expression rose (fell) at evaluation [n - c]; evaluation 0 never counts as an
    edge. So every edge is reported once, [c] evaluations later, and nothing else is reported. *)
Theorem edge_reported_exactly_once : forall t dt d c v n,
  uniform t dt -> 0 < dt -> 0 <= d -> lag d dt c ->
  (answer Rising d t v n = true <->
     exists k, n = (S k + c)%nat /\ v k = false /\ v (S k) = true) /\
  (answer Falling d t v n = true <->
     exists k, n = (S k + c)%nat /\ v k = true /\ v (S k) = false) /\
  (answer RisingOrFalling d t v n = true <->
     exists k, n = (S k + c)%nat /\ v k <> v (S k)) /\
  (answer NoEdge d t v n = true <-> exists k, n = (k + c)%nat /\ v k = true).
Proof.
  intros t dt d c v n U P D Hc.
  pose proof (uniform_monotone t dt U P) as M.
  rewrite !(condition_follows_definition _ _ _ _ _ M). cbn [spec_answer].
  assert (E : forall k, latest t d n k <-> n = (k + c)%nat)
    by (intros; now apply (uniform_latest t dt)).
  repeat split; intros (k & H); exists k;
    repeat match goal with H : _ /\ _ |- _ => destruct H end;
    repeat split; try (apply E; assumption); try congruence; try (apply E in H; assumption);
    intuition congruence.
Qed.

Example edge_reported_exactly_once_case :
  let t := fun i => 5 + 10 * Z.of_nat i in
  uniform t 10 /\ lag 25 10 3 /\ answer Rising 25 t (fun i => (2 <=? i)%nat) 5 = true.
Proof. cbv zeta. split; [intros i; lia|]. split; [unfold lag; lia|]. vm_compute; reflexivity. Qed.

(** Without uniform sampling the same edge can be reported twice ... *)
Theorem edge_reported_once_nonuniform_refuted :
  exists t v d n, monotone t /\ answer Rising d t v n = true /\ answer Rising d t v (S n) = true /\
    (forall i j, (1 <= i < j)%nat -> v i = v j).
Proof.
  exists (fun i => match i with O => 0 | S O => 1 | S (S i) => 10 + Z.of_nat i end),
         (fun i => (1 <=? i)%nat), 5, 2%nat.
  split; [intros [|[|i]] [|[|j]] H; lia|]. split; [vm_compute; reflexivity|].
  split; [vm_compute; reflexivity|]. intros [|i] [|j] H; try lia. reflexivity.
Qed.

(** ... and a pulse can be missed entirely, although it is sampled. *)
Theorem edge_missed_nonuniform_refuted :
  exists t v d, monotone t /\ v 0%nat = false /\ v 1%nat = true /\ (forall i, v (S (S i)) = false) /\
    (forall i, t (S i) > t i) /\ forall n, answer Rising d t v n = false.
Proof.
  exists (fun i => match i with O => 0 | S O => 1 | S (S O) => 2 | S (S (S i)) => 10 + Z.of_nat i end),
         (fun i => (i =? 1)%nat), 5.
  assert (M : monotone (fun i => match i with O => 0 | S O => 1 | S (S O) => 2 | S (S (S i)) => 10 + Z.of_nat i end))
    by (intros [|[|[|i]]] [|[|[|j]]] H; lia).
  split; [exact M|]. split; [reflexivity|]. split; [reflexivity|]. split; [reflexivity|].
  split; [intros [|[|[|i]]]; lia|].
  intros n. destruct (answer _ _ _ _ n) eqn:E; [|reflexivity]. exfalso.
  apply (condition_follows_definition _ _ _ _ _ M) in E. cbn [spec_answer] in E.
  destruct E as (k & (A & B & C) & Hv & _). destruct k as [|k]; [|discriminate].
  destruct n as [|[|[|n]]]; try lia.
  - pose proof (C 2%nat ltac:(lia)). lia.
Qed.

(** * C13: the history is bounded by the delay window. *)

Theorem history_bounded : forall e d t v n,
  monotone t ->
  (length (c_hist (run_condition t v (S n) (make_condition e d))) <= in_window t d n + 2)%nat.
Proof.
  intros e d t v n M.
  destruct (step_inv t v M e d n _ (run_inv t v M e d n)) as (_ & F & (A & B & C) & _ & HL).
  change (run_condition t v (S n) (make_condition e d)) with
    (update_condition (run_condition t v n (make_condition e d)) (t n) (v n)).
  assert (W : (S n - F <= in_window t d n)%nat).
  { unfold in_window. replace (S n) with (F + (S n - F))%nat at 2 by lia.
    rewrite seq_app, filter_app, app_length.
    assert (E : filter (fun i => t n - d <? t i) (seq (0 + F) (S n - F)) = seq (0 + F) (S n - F)).
    { apply filter_all. intros i Hi. apply in_seq in Hi. apply Z.ltb_lt. apply C. lia. }
    rewrite E, seq_length. lia. }
  assert (arity e <= 2)%nat by (destruct e; cbn; lia). lia.
Qed.

(** With evaluations every [dt] this is a constant: at most ceil(d/dt) + 2 entries. *)
Theorem history_bounded_uniform : forall e d t dt c v n,
  uniform t dt -> 0 < dt -> 0 <= d -> lag d dt c ->
  (length (c_hist (run_condition t v n (make_condition e d))) <= c + 2)%nat.
Proof.
  intros e d t dt c v n U P D (L1 & L2). destruct n as [|n]; [cbn; lia|].
  pose proof (history_bounded e d t v n (uniform_monotone t dt U P)) as H.
  assert (W : (in_window t d n <= c)%nat).
  { unfold in_window. destruct (Nat.le_gt_cases (S n) c) as [Hs|Hs].
    - rewrite <- (seq_length (S n) 0) in Hs at 1. etransitivity; [|exact Hs].
      generalize (seq 0 (S n)). intros l. induction l as [|x l IH]; cbn; [lia|].
      destruct (_ <? _); cbn; lia.
    - replace (S n) with ((S n - c) + c)%nat at 1 by lia.
      rewrite seq_app, filter_app, app_length.
      replace (filter _ (seq 0 (S n - c))) with (@nil nat).
      + cbn [length]. generalize (seq (0 + (S n - c)) c) (seq_length c (0 + (S n - c))).
        intros l El. rewrite Nat.add_0_l. rewrite <- El at 1. clear El.
        induction l as [|x l IH]; cbn; [lia|]. destruct (_ <? _); cbn; lia.
      + symmetry. assert (Hn : forall l, (forall i, In i l -> (i < S n - c)%nat) ->
          filter (fun i => t n - d <? t i) l = []).
        { induction l as [|x l IH]; intros Hl; [reflexivity|]. cbn [filter].
          destruct (Z.ltb_spec (t n - d) (t x)) as [Hx|Hx].
          - exfalso. pose proof (Hl x (or_introl eq_refl)).
            replace n with (x + (n - x))%nat in Hx by lia.
            rewrite (uniform_time t dt U) in Hx.
            assert (Z.of_nat c <= Z.of_nat (n - x)) by lia. nia.
          - apply IH. intros i Hi. apply Hl. now right. }
        apply Hn. intros i Hi. apply in_seq in Hi. lia. }
  lia.
Qed.

Example history_bounded_case :
  let t := fun i => 10 * Z.of_nat i in
  uniform t 10 /\ lag 25 10 3 /\
  length (c_hist (run_condition t (fun _ => true) 100 (make_condition Rising 25))) = 5%nat.
Proof. cbv zeta. split; [intros i; lia|]. split; [unfold lag; lia|]. vm_compute. reflexivity. Qed.

(** * C10: triggers are ORs of ANDs without short circuit. *)

(** Evaluating a trigger asks every condition's expression exactly once, in document order
    (the log is newest first), whatever the answers. *)
Theorem trigger_evaluates_all_once : forall o now asked tr r asked' tr',
  eval_trigger o now asked tr = (r, asked', tr') ->
  asked' = rev (document_order tr) ++ asked /\ NoDup (document_order tr).
Proof.
  intros o now asked tr r asked' tr' H. split.
  - unfold eval_trigger in H.
    destruct (eval_groups o now 0 false asked (tr_groups tr)) as [[r0 a0] l0] eqn:E.
    injection H as <- <- <-. now apply eval_groups_asked in E.
  - apply document_order_nodup.
Qed.

(** Every condition is updated from its own previous state and the answer its expression gave when
    it was asked, i.e. after exactly the conditions before it in document order. *)
Theorem trigger_updates_each_condition : forall o now asked tr r asked' tr' before n after c,
  eval_trigger o now asked tr = (r, asked', tr') ->
  document_order tr = before ++ n :: after -> cond_at tr n = Some c ->
  cond_at tr' n = Some (update_condition c now (o (rev before ++ asked) n)).
Proof.
  intros o now asked tr r asked' tr' before n after c H Hd Hc.
  unfold eval_trigger in H.
  destruct (eval_groups o now 0 false asked (tr_groups tr)) as [[r0 a0] l0] eqn:E.
  injection H as <- <- <-. pose proof (eval_groups_conds _ _ _ _ _ _ _ _ _ E before n after c Hd) as G.
  unfold cond_from in G. rewrite Nat.sub_0_r in G. exact (G Hc).
Qed.

(** The answer: some group has all its conditions true in this evaluation. *)
Theorem trigger_is_or_of_ands : forall o now asked tr r asked' tr',
  eval_trigger o now asked tr = (r, asked', tr') ->
  tr_value tr' = r /\ length (tr_groups tr') = length (tr_groups tr) /\
  (r = true <-> exists g gr, nth_error (tr_groups tr') g = Some gr /\
                 forall i c, nth_error (g_conds gr) i = Some c -> c_value c = true).
Proof.
  intros o now asked tr r asked' tr' H. unfold eval_trigger in H.
  destruct (eval_groups o now 0 false asked (tr_groups tr)) as [[r0 a0] l0] eqn:E.
  injection H as <- <- <-. split; [reflexivity|]. cbn [tr_groups].
  apply eval_groups_value in E as [E1 E2]. split; [exact E1|].
  rewrite E2. cbn [orb]. rewrite existsb_exists. split.
  - intros (gr & Hin & Hg). apply In_nth_error in Hin as [g Hg']. exists g, gr. split; [exact Hg'|].
    intros i c Hi. rewrite forallb_forall in Hg. apply Hg. now apply nth_error_In in Hi.
  - intros (g & gr & Hg & Hall). exists gr. split; [now apply nth_error_In in Hg|].
    apply forallb_forall. intros c Hin. apply In_nth_error in Hin as [i Hi]. now apply (Hall i).
Qed.

(** Corner cases: no group is false, an empty group is true. *)
Theorem trigger_corner_cases : forall o now asked,
  fst (fst (eval_trigger o now asked {| tr_groups := []; tr_value := true |})) = false /\
  fst (fst (eval_trigger o now asked truthy)) = true.
Proof. intros. split; reflexivity. Qed.

(** After a true evaluation the reported active group is the first one all of whose conditions are
    true, and describing it is well defined. *)
Theorem active_group_is_first_true : forall o now asked tr asked' tr',
  eval_trigger o now asked tr = (true, asked', tr') ->
  exists gr, active_group_described tr' = Some gr /\
    (forall c, In c (g_conds gr) -> c_value c = true) /\
    forall g gr', (g < active_group tr')%nat -> nth_error (tr_groups tr') g = Some gr' ->
      exists c, In c (g_conds gr') /\ c_value c = false.
Proof.
  intros o now asked tr asked' tr' H.
  pose proof (trigger_is_or_of_ands _ _ _ _ _ _ _ H) as (_ & _ & [A _]).
  destruct (A eq_refl) as (g & gr & Hg & Hall). clear A H.
  unfold active_group_described, active_group. revert g Hg.
  induction (tr_groups tr') as [|g0 l IH]; intros g Hg; [now destruct g|].
  cbn [find_group]. destruct (forallb c_value (g_conds g0)) eqn:E.
  - exists g0. split; [reflexivity|]. split; [now apply forallb_forall|]. intros; lia.
  - destruct g as [|g].
    + exfalso. injection Hg as ->. enough (forallb c_value (g_conds gr) = true) by congruence.
      apply forallb_forall. intros c Hc. apply In_nth_error in Hc as [i Hi]. now apply (Hall i).
    + destruct (IH g Hg) as (gr1 & B & C & D). exists gr1. split; [exact B|]. split; [exact C|].
      intros [|g'] gr' Hlt Hn.
      * injection Hn as <-. clear - E. induction (g_conds g0) as [|c l IH]; [discriminate|].
        cbn in E. destruct (c_value c) eqn:Ec.
        -- destruct (IH E) as (c' & Hin & Hv). exists c'. split; [now right|exact Hv].
        -- exists c. split; [now left|exact Ec].
      * apply (D g'); [lia|exact Hn].
Qed.

(** After a false evaluation it is not: the end iterator is dereferenced. *)
Theorem active_group_description_undefined_refuted : forall o now asked tr asked' tr',
  eval_trigger o now asked tr = (false, asked', tr') -> active_group_described tr' = None.
Proof.
  intros o now asked tr asked' tr' H.
  pose proof (trigger_is_or_of_ands _ _ _ _ _ _ _ H) as (_ & _ & [_ A]).
  unfold active_group_described, active_group.
  assert (B : forall g gr, nth_error (tr_groups tr') g = Some gr -> forallb c_value (g_conds gr) = false).
  { intros g gr Hg. destruct (forallb c_value (g_conds gr)) eqn:E; [|reflexivity].
    enough (false = true) by discriminate. apply A. exists g, gr. split; [exact Hg|].
    intros i c Hi. rewrite forallb_forall in E. apply E. now apply nth_error_In in Hi. }
  clear - B. induction (tr_groups tr') as [|g0 l IH]; [reflexivity|].
  cbn [find_group]. rewrite (B 0%nat g0 eq_refl). cbn [nth_error]. apply IH.
  intros g gr Hg. exact (B (S g) gr Hg).
Qed.

Example active_group_description_undefined_case :
  let tr := {| tr_groups := [ {| g_conds := [make_condition NoEdge 0]; g_value := false |} ];
               tr_value := false |} in
  fst (fst (eval_trigger (fun _ _ => false) 7 [] tr)) = false.
Proof. vm_compute. reflexivity. Qed.

(** A trigger whose first group decides the outcome; the delayed condition of the second one is
    still evaluated. *)
Example trigger_case :
  let c1 := make_condition NoEdge 0 in
  let tr := {| tr_groups := [ {| g_conds := [c1]; g_value := false |};
                              {| g_conds := [c1; make_condition Rising 5]; g_value := false |} ];
               tr_value := false |} in
  let o : oracle := fun asked n => Nat.even (length asked) in
  let '(r, asked, tr') := eval_trigger o 7 [] tr in
  r = true /\ asked = [(1, 1); (1, 0); (0, 0)]%nat /\ active_group tr' = 0%nat /\
  option_map c_hist (cond_at tr' (1, 1)%nat) = Some [ {| h_time := 7; h_result := true |} ].
Proof. vm_compute. auto. Qed.

(** * C14: StoryboardElementStateCondition. *)

(** The first half holds: if the element entered the monitored state since the condition was
    created (even if it has left it again), evaluation is true. *)
Theorem state_condition_sees_every_visit : forall s el ops el' c' bs,
  srun el (make_scond s) ops = (el', c', bs) -> visited ops s ->
  snd (sstep el' c' Evaluate) = Some true.
Proof.
  intros s el ops el' c' bs H Hv.
  destruct (srun_sees ops el (make_scond s) _ _ _ H) as (A & B & _).
  cbn [sc_state make_scond] in *. cbn [sstep]. rewrite A.
  destruct (state_eqb (sc_current c') s) eqn:E; [reflexivity|].
  rewrite (B (or_intror Hv)) in E. now rewrite state_eqb_refl in E.
Qed.

(** What it really answers: whether the element has ever been seen in the monitored state - the
    condition latches. An element that starts out in standby satisfies a standbyState condition for
    ever. *)
Theorem state_condition_is_ever_visited : forall s ops el' c' bs,
  srun Standby (make_scond s) ops = (el', c', bs) ->
  snd (sstep el' c' Evaluate) = Some true <-> s = Standby \/ visited ops s.
Proof.
  intros s ops el' c' bs H.
  destruct (srun_sees ops Standby (make_scond s) _ _ _ H) as (A & B & C & D).
  cbn [sc_state sc_current make_scond] in *. cbn [sstep]. rewrite A. split.
  - destruct (state_eqb (sc_current c') s) eqn:E.
    + intros _. apply state_eqb_eq in E. destruct (D E) as [D'|[D'|D']]; auto.
    + intros E'. injection E' as E'. apply state_eqb_eq in E'. destruct (C E') as [C'|C']; auto.
  - intros Hv. destruct (state_eqb (sc_current c') s) eqn:E; [reflexivity|].
    assert (Hc : sc_current c' = s) by (apply B; destruct Hv as [->|Hv]; [now left|now right]).
    rewrite Hc, state_eqb_refl in E. discriminate.
Qed.

(** Hence the second half is false: true although the element left the state before the previous
    evaluation. *)
Theorem state_condition_only_if_refuted :
  exists s ops, snd (srun Standby (make_scond s) ops) = [true; true; true] /\
    ops = [Enter StartT; Enter Running; Evaluate; Enter EndT; Enter Complete; Evaluate; Evaluate]
    /\ s = Running.
Proof. eexists _, _. split; [|split; reflexivity]. vm_compute. reflexivity. Qed.

(** * C15: rules. *)

Definition finite (a : num) : Prop := match a with Fin _ => True | _ => False end.

(** On finite values the four order rules are the order of the rationals. *)
Theorem rules_are_the_relations : forall f x y,
  (apply_rule f LessThan (Fin x) (Fin y) = true <-> (x < y)%Q) /\
  (apply_rule f LessOrEqual (Fin x) (Fin y) = true <-> (x <= y)%Q) /\
  (apply_rule f GreaterThan (Fin x) (Fin y) = true <-> (y < x)%Q) /\
  (apply_rule f GreaterOrEqual (Fin x) (Fin y) = true <-> (y <= x)%Q) /\
  (apply_rule f NotEqualTo (Fin x) (Fin y) = true <-> ~ (x == y)%Q) /\
  (apply_rule false EqualTo (Fin x) (Fin y) = true <-> (x == y)%Q) /\
  (apply_rule true EqualTo (Fin x) (Fin y) = true <-> (Qabs (x - y) < epsilon)%Q).
Proof.
  intros f x y. cbn [apply_rule lt_num eq_num equal_to_floating].
  assert (L : forall a b, negb (Qle_bool b a) = true <-> (a < b)%Q).
  { intros a b. rewrite negb_true_iff. split.
    - intros H. apply Qnot_le_lt. intros H'. apply Qle_bool_iff in H'. congruence.
    - intros H. destruct (Qle_bool b a) eqn:E; [|reflexivity]. apply Qle_bool_iff in E.
      exfalso. now apply (Qlt_not_le a b). }
  assert (LE : forall a b, (a < b)%Q \/ (a == b)%Q <-> (a <= b)%Q).
  { intros a b. split.
    - intros [H|H]; [now apply Qlt_le_weak|]. rewrite H. apply Qle_refl.
    - intros H. now apply Qle_lteq. }
  rewrite !orb_true_iff, !L, !Qeq_bool_iff.
  split; [reflexivity|]. split; [apply LE|]. split; [reflexivity|].
  split; [rewrite <- LE; split; (intros [H|H]; [now left|right; now symmetry])|].
  split; [|split; reflexivity].
  rewrite negb_true_iff. split.
  - intros H H'. apply Qeq_bool_iff in H'. congruence.
  - intros H. destruct (Qeq_bool x y) eqn:E; [|reflexivity]. apply Qeq_bool_iff in E. contradiction.
Qed.

(** Complementary pairs, for every pair of values that are not NaN (infinities included). *)
Theorem order_rules_complementary : forall f a b,
  a <> NaN -> b <> NaN ->
  apply_rule f GreaterOrEqual a b = negb (apply_rule f LessThan a b) /\
  apply_rule f LessOrEqual a b = negb (apply_rule f GreaterThan a b).
Proof.
  intros f a b Ha Hb.
  destruct a as [x| | |], b as [y| | |]; try congruence; try (split; reflexivity).
  cbn [apply_rule lt_num eq_num]. rewrite !negb_involutive.
  assert (T : forall a b, negb (Qle_bool b a) || Qeq_bool a b = Qle_bool a b).
  { intros p q. destruct (Qle_bool p q) eqn:E1.
    - destruct (Qle_bool q p) eqn:E2; [|reflexivity]. cbn [negb orb]. apply Qeq_bool_iff.
      apply Qle_bool_iff in E1, E2. now apply Qle_antisym.
    - destruct (Qle_bool q p) eqn:E2; cbn [negb orb].
      + destruct (Qeq_bool p q) eqn:E3; [|reflexivity]. apply Qeq_bool_iff in E3.
        exfalso. enough (Qle_bool p q = true) by congruence. apply Qle_bool_iff. rewrite E3.
        apply Qle_refl.
      + exfalso. destruct (Qlt_le_dec p q) as [H|H].
        * apply Qlt_le_weak, Qle_bool_iff in H. congruence.
        * apply Qle_bool_iff in H. congruence. }
  split; [|apply T]. rewrite <- (T y x). f_equal. apply eq_true_iff_eq.
  rewrite !Qeq_bool_iff. split; intros H; now symmetry.
Qed.

(** The equality rules are complementary for SimulationTimeCondition and ParameterCondition ... *)
Theorem equality_rules_complementary : forall a b,
  apply_rule false NotEqualTo a b = negb (apply_rule false EqualTo a b).
Proof. reflexivity. Qed.

(** ... and for entity conditions at least never both false on finite values, ... *)
Theorem equality_rules_cover : forall x y,
  apply_rule true EqualTo (Fin x) (Fin y) = false -> apply_rule true NotEqualTo (Fin x) (Fin y) = true.
Proof.
  intros x y H. destruct (rules_are_the_relations true x y) as (_ & _ & _ & _ & A & _ & B).
  apply A. intros E. enough (apply_rule true EqualTo (Fin x) (Fin y) = true) by congruence.
  apply B. assert (x - y == 0)%Q as -> by (rewrite E; ring). reflexivity.
Qed.

(** ... but equalTo (with tolerance) and notEqualTo (exact) can both hold, and on infinite values
    neither holds. *)
Theorem equality_rules_complementary_refuted :
  (exists x y, apply_rule true EqualTo (Fin x) (Fin y) = true /\
               apply_rule true NotEqualTo (Fin x) (Fin y) = true) /\
  apply_rule true EqualTo PInf PInf = false /\ apply_rule true NotEqualTo PInf PInf = false.
Proof.
  split; [|split; reflexivity]. exists 0%Q, (1 # 9007199254740992)%Q. split; vm_compute; reflexivity.
Qed.

(** all / any / none are the quantifiers over the triggering entities. *)
Theorem triggering_entities_rules : forall {A} (f : A -> bool) l,
  (fst (apply_te All f l) = true <-> forall x, In x l -> f x = true) /\
  (fst (apply_te Any f l) = true <-> exists x, In x l /\ f x = true) /\
  (fst (apply_te NoneOf f l) = true <-> forall x, In x l -> f x = false).
Proof.
  intros A f l. cbn [apply_te]. destruct (any_of f l) as [b s] eqn:E.
  rewrite (all_of_forallb f l).
  assert (b = existsb f l) as ->.
  { rewrite <- (any_of_existsb f l), E. reflexivity. }
  cbn [fst]. rewrite forallb_forall, existsb_exists. split; [reflexivity|]. split; [reflexivity|].
  rewrite negb_true_iff. split.
  - intros H x Hx. destruct (f x) eqn:Ef; [|reflexivity].
    assert (existsb f l = true) by (apply existsb_exists; now exists x). congruence.
  - intros H. destruct (existsb f l) eqn:Ee; [|reflexivity]. apply existsb_exists in Ee as (x & Hx & Hf).
    rewrite (H x Hx) in Hf. discriminate.
Qed.

(** An entity condition holds for a selection iff all members satisfy the comparison, and then is
    quantified over the triggering entities: the negation of 'any' is 'none', but the negation of
    'all greaterThan' is not 'any lessOrEqual' for selections with two members. *)
Theorem entity_condition_meaning : forall r th es,
  (entity_condition All r th es = true <->
     forall e x, In e es -> In x e -> apply_rule true r x th = true) /\
  (entity_condition Any r th es = true <->
     exists e, In e es /\ forall x, In x e -> apply_rule true r x th = true) /\
  entity_condition NoneOf r th es = negb (entity_condition Any r th es).
Proof.
  intros r th es. unfold entity_condition.
  assert (P : forall e, entity_predicate r th e = true <->
                   forall x, In x e -> apply_rule true r x th = true).
  { intros e. unfold entity_predicate. destruct e as [|y e]; [split; [intros _ x []|reflexivity]|].
    now rewrite forallb_forall. }
  destruct (triggering_entities_rules (entity_predicate r th) es) as (A & B & C).
  split; [|split].
  - rewrite A. split.
    + intros H e x He Hx. exact (proj1 (P e) (H e He) x Hx).
    + intros H e He. apply P. intros x Hx. now apply (H e).
  - rewrite B. split; intros (e & He & H); exists e; (split; [exact He|]); now apply P.
  - cbn [apply_te]. destruct (any_of _ es). reflexivity.
Qed.

Example entity_condition_case :
  entity_condition All GreaterThan (Fin 3) [[Fin 4; Fin 5]; []; [PInf]] = true /\
  entity_condition Any GreaterThan (Fin 3) [[Fin 4; Fin 2]] = false /\
  entity_condition NoneOf LessThan (Fin 3) [[Fin 4; Fin 2]] = true /\
  entity_condition All LessThan (Fin 3) [[Fin 1; NaN]] = false.
Proof. vm_compute. auto. Qed.

Print Assumptions condition_follows_definition.
Print Assumptions condition_without_delay.
Print Assumptions sticky_stays.
Print Assumptions edge_reported_exactly_once.
Print Assumptions edge_reported_once_nonuniform_refuted.
Print Assumptions edge_missed_nonuniform_refuted.
Print Assumptions history_bounded.
Print Assumptions history_bounded_uniform.
Print Assumptions trigger_evaluates_all_once.
Print Assumptions trigger_updates_each_condition.
Print Assumptions trigger_is_or_of_ands.
Print Assumptions trigger_corner_cases.
Print Assumptions active_group_is_first_true.
Print Assumptions active_group_description_undefined_refuted.
Print Assumptions state_condition_sees_every_visit.
Print Assumptions state_condition_is_ever_visited.
Print Assumptions state_condition_only_if_refuted.
Print Assumptions rules_are_the_relations.
Print Assumptions order_rules_complementary.
Print Assumptions equality_rules_complementary.
Print Assumptions equality_rules_cover.
Print Assumptions equality_rules_complementary_refuted.
Print Assumptions triggering_entities_rules.
Print Assumptions entity_condition_meaning.
