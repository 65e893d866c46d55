(** * Theorems about traffic signal controllers: C19 - C23, C47, C48. *)
From Coq Require Import ZArith List Bool Lia Arith.
From Verif Require Import M_Signal S_Signal P_Signal.
Import ListNotations.
Local Open Scope Z_scope.

(** A system used in the examples: 10 ticks per second; an unreferenced controller with phases of
    2 s, 1 s and 3 s and a controller that follows it by 0.5 s. *)
Definition sig (id : Z) (st : nat) : signal :=
  {| s_id := id; s_channel := V2I; s_detected := false; s_state := st |}.
Definition ph (n : nat) (d : Z) (l : list signal) : phase := {| ph_name := n; ph_dur := Dur d; ph_signals := l |}.
Definition phases1 := [ph 1 20 [sig 7 1]; ph 2 10 [sig 7 2]; ph 3 30 [sig 7 3]].
Definition phases2 := [ph 1 30 [sig 8 1]; ph 2 30 [sig 8 2]].
Definition two : list spec := [(0, None, phases1); (5, Some 0%nat, phases2)].
Definition every_second (n : nat) : list event := map (fun k => Frame (100 + Z.of_nat k * 10)) (seq 0 n).
Definition yes (_ : Z) := true.

Example two_accepted : accepted 10 two = true.
Proof. reflexivity. Qed.

(** ** C19 *)
Theorem C19_phases_in_order : forall tps enabled l es c d ps,
  nth_error l c = Some (d, None, ps) -> ps <> [] -> untouched c es ->
  let h := begins c (history (run tps enabled es (init l))) in
  (forall t ts, frames es = t :: ts -> exists h', h = (0%nat, t) :: h') /\
  (forall i a j b, consecutive h (i, a) (j, b) ->
     j = (S i mod length ps)%nat /\ exists d, lasts ps i d /\ d <= b - a).
Proof.
  intros tps enabled l es c d ps Ec NE U h.
  pose proof (run_local tps enabled l c d ps Ec NE es U) as R.
  assert (E : h = snd (lrun ps (frames es))).
  { unfold h. rewrite nb_history. rewrite <- R. reflexivity. }
  rewrite E. destruct (lrun_inv ps (frames es) NE) as [A B C D]. split.
  - intros t ts EF. rewrite EF in *. exact A.
  - intros i a j b HC. destruct (C i a j b HC) as (_ & X). exact X.
Qed.
(** Every begin of a phase after the first follows another one, so [consecutive] covers all. *)
Example C19_example :
  begins 0 (history (run 10 yes (every_second 13) (init two))) =
  [(0%nat, 100); (1%nat, 120); (2%nat, 130); (0%nat, 160); (1%nat, 180); (2%nat, 190); (0%nat, 220)].
Proof. vm_compute. reflexivity. Qed.
Example C19_example_premises :
  nth_error two 0 = Some (0, None, phases1) /\ phases1 <> [] /\ untouched 0 (every_second 13).
Proof.
  split; [reflexivity|]. split; [discriminate|]. intros t n H. unfold every_second in H. apply in_map_iff in H.
  destruct H as (x & H & _). discriminate.
Qed.

(** ** C20 *)
(** Shown for at least its duration, and less than one frame longer; a phase without duration is
    shown for one frame. *)
Theorem C20_phase_lasts : forall tps enabled l es c d ps t0 dt,
  nth_error l c = Some (d, None, ps) -> ps <> [] -> untouched c es ->
  0 < dt -> uniform t0 dt (frames es) ->
  forall i a j b, consecutive (begins c (history (run tps enabled es (init l)))) (i, a) (j, b) ->
  exists d, lasts ps i d /\ d <= b - a /\ (0 < d -> b - a < d + dt) /\ (d = 0 -> b - a = dt).
Proof.
  intros tps enabled l es c d ps t0 dt Ec NE U DT UF i a j b HC.
  pose proof (run_local tps enabled l c d ps Ec NE es U) as R.
  rewrite nb_history in HC. change (nb c ?s) with (snd (local c s)) in HC. rewrite R in HC.
  destruct (lrun_inv ps (frames es) NE) as [A B C D].
  destruct (C i a j b HC) as (_ & _ & d0 & L & G). exists d0. split; auto. split; auto.
  pose proof (lrun_step_gap ps t0 dt (frames es) NE DT UF i a j b HC) as Y.
  destruct (lrun_uniform ps t0 dt (frames es) NE DT UF i a j b HC d0 L) as [X|X]; split; intros; lia.
Qed.

(** The excess accumulates: the k-th phase change is late by at most k frames. *)
Theorem C20_drift : forall tps enabled l es c d ps t0 dt,
  nth_error l c = Some (d, None, ps) -> ps <> [] -> untouched c es ->
  0 < dt -> uniform t0 dt (frames es) -> finite ps -> non_negative ps ->
  forall k i b, nth_error (begins c (history (run tps enabled es (init l)))) k = Some (i, b) ->
  i = (k mod length ps)%nat /\ t0 + total ps 0 k <= b <= t0 + total ps 0 k + Z.of_nat k * dt.
Proof.
  intros tps enabled l es c d ps t0 dt Ec NE U DT UF F NN k i b E.
  pose proof (run_local tps enabled l c d ps Ec NE es U) as R.
  rewrite nb_history in E. change (nb c ?s) with (snd (local c s)) in E. rewrite R in E.
  eapply lrun_kth; eauto.
Qed.

(** No phase is overdue: after the last frame, at [t], the phase begun last has begun just now or
    its duration has not elapsed yet. *)
Theorem C20_no_phase_overdue : forall tps enabled l es c d ps ts t,
  nth_error l c = Some (d, None, ps) -> ps <> [] -> untouched c es -> frames es = ts ++ [t] ->
  exists h i a, begins c (history (run tps enabled es (init l))) = h ++ [(i, a)] /\
    (a = t \/ forall d, lasts ps i d -> t - a < d).
Proof.
  intros tps enabled l es c d ps ts t Ec NE U EF.
  pose proof (run_local tps enabled l c d ps Ec NE es U) as R.
  rewrite nb_history. change (nb c ?s) with (snd (local c s)). rewrite R.
  destruct (lrun_inv ps (frames es) NE) as [A B C D].
  destruct (B ltac:(rewrite EF; destruct ts; discriminate)) as (h & E & _).
  destruct (lrun ps (frames es)) as [[cur st] hh]. simpl in *. exists h, cur, st. split; auto.
  apply (D ts t EF).
Qed.
Example C20_example : uniform 100 10 (frames (every_second 13)).
Proof.
  intros k t E. unfold every_second in E.
  do 13 (destruct k as [|k]; [inversion E; reflexivity|]). destruct k; discriminate.
Qed.
(** Frames every 0.7 s: each phase change is late. *)
Example C20_example_drift :
  begins 0 (history (run 10 yes (map (fun k => Frame (Z.of_nat k * 7)) (seq 0 20)) (init two))) =
  [(0%nat, 0); (1%nat, 21); (2%nat, 35); (0%nat, 70); (1%nat, 91); (2%nat, 105)].
Proof. vm_compute. reflexivity. Qed.

(** ** C21 *)
(** The full claim: whenever R began its first phase at [b], the first evaluation of the referencing
    controller later than [b + d] begins its first phase. *)
Definition C21_claim : Prop :=
  forall tps enabled l es c r d dr rr ps prs,
  accepted tps l = true ->
  nth_error l c = Some (d, Some r, ps) -> nth_error l r = Some (dr, rr, prs) -> ps <> [] -> prs <> [] ->
  forall h1 b h2 now h3,
  marks (run tps enabled es (init l)) = h1 ++ OBegin r 0 b :: h2 ++ OEval c now :: h3 ->
  (forall t, In (OEval c t) h2 -> t <= b + d) -> b + d < now ->
  exists h4, h3 = OBegin c 0 now :: h4.

(** It fails if R begins again before the delay is over: the pending begin is postponed. *)
Definition impatient : list spec := [(0, None, [ph 1 10 []]); (15, Some 0%nat, [ph 1 10 []])].
Theorem C21_referencing_controller_follows_refuted : ~ C21_claim.
Proof.
  intros H.
  specialize (H 10 yes impatient [Frame 0; Frame 10; Frame 20] 1%nat 0%nat 15 0 None [ph 1 10 []] [ph 1 10 []]
     eq_refl eq_refl eq_refl ltac:(discriminate) ltac:(discriminate)
     [OEval 0 0] 0 [OEval 1 0; OEval 0 10; OBegin 0 0 10; OEval 1 10; OEval 0 20; OBegin 0 0 20] 20 []
     ltac:(vm_compute; reflexivity)).
  destruct H as (h4 & E); [|lia|discriminate].
  intros t Ht. simpl in Ht. intuition; try discriminate; match goal with E : _ = _ |- _ => inversion E; subst; lia end.
Qed.

(** It holds for the latest begin of R, whatever happens in between, including actions. *)
Theorem C21_referencing_controller_follows :
  forall tps enabled l es c r d dr rr ps prs,
  nth_error l c = Some (d, Some r, ps) -> nth_error l r = Some (dr, rr, prs) -> ps <> [] -> prs <> [] ->
  forall h1 now h2 b,
  marks (run tps enabled es (init l)) = h1 ++ OEval c now :: h2 ->
  due c r d h1 b -> b + d < now ->
  exists h3, h2 = OBegin c 0 now :: h3.
Proof.
  intros tps enabled l es c r d dr rr ps prs Ec Er NEc NEr h1 now h2 b E D LT.
  assert (R : RInv l c r d ps true (run tps enabled es (init l))).
  { eapply run_R; eauto; [discriminate|]. eapply init_R; eauto. }
  destruct R as [_ _ _ A].
  rewrite marks_mk in E. apply (f_equal (@rev _)) in E. rewrite rev_involutive, rev_app_distr in E.
  simpl in E. rewrite <- app_assoc in E. simpl in E.
  destruct (A _ _ _ E) as (A1 & _).
  assert (P : pend c r d (rev h1) = Some (b + d)) by (apply due_pend; rewrite rev_involutive; auto).
  destruct (A1 _ P LT) as (m3 & E3). apply (f_equal (@rev _)) in E3. rewrite rev_involutive, rev_app_distr in E3.
  simpl in E3. eauto.
Qed.

(** And it begins its first phase at an evaluation for no other reason, except that its own cycle is
    complete. *)
Theorem C21_referencing_controller_begins_only_then :
  forall tps enabled l es c r d dr rr ps prs,
  nth_error l c = Some (d, Some r, ps) -> nth_error l r = Some (dr, rr, prs) -> ps <> [] -> prs <> [] ->
  untouched c es ->
  forall h1 now t h2,
  marks (run tps enabled es (init l)) = h1 ++ OEval c now :: OBegin c 0 t :: h2 ->
  t = now /\ ((exists b, due c r d h1 b /\ b + d < now) \/ completed c ps h1 now).
Proof.
  intros tps enabled l es c r d dr rr ps prs Ec Er NEc NEr U h1 now t h2 E.
  assert (R : RInv l c r d ps false (run tps enabled es (init l))).
  { eapply run_R; eauto. eapply init_R; eauto. }
  destruct R as [_ _ _ A].
  rewrite marks_mk in E. apply (f_equal (@rev _)) in E. rewrite rev_involutive, rev_app_distr in E.
  simpl in E. rewrite <- !app_assoc in E. simpl in E.
  change (rev h2 ++ OBegin c 0 t :: OEval c now :: rev h1) with (rev h2 ++ [OBegin c 0 t] ++ OEval c now :: rev h1) in E.
  rewrite app_assoc in E.
  destruct (A _ _ _ E) as (_ & A2). destruct (A2 eq_refl t (rev h2) eq_refl) as (-> & Q). split; auto.
  destruct Q as [(x & P & LT)|Q]; [left|right].
  - apply pend_due in P. destruct P as (b & -> & D). rewrite rev_involutive in D. eauto.
  - rewrite rev_involutive in Q. exact Q.
Qed.
(** Each begin of the first controller at 100, 160, 220 is followed by the second, at the first
    evaluation later than 105, 165, 225. *)
Example C21_example :
  begins 1 (history (run 10 yes (every_second 16) (init two))) =
  [(0%nat, 110); (1%nat, 140); (0%nat, 170); (1%nat, 200); (0%nat, 230)].
Proof. vm_compute. reflexivity. Qed.
Example C21_example_due : due 1 0 5 [OEval 0 100; OBegin 0 0 100; OEval 1 100; OEval 0 110] 100 /\
  exists h, marks (run 10 yes (every_second 16) (init two)) =
    [OEval 0 100; OBegin 0 0 100; OEval 1 100; OEval 0 110] ++ OEval 1 110 :: h.
Proof.
  split.
  - exists [OEval 0 100], [OEval 1 100; OEval 0 110]. split; [reflexivity|]. split.
    + intros t [E|[E|[]]]; discriminate.
    + intros t [E|[E|[]]]; inversion E; subst. lia.
  - eexists. vm_compute. reflexivity.
Qed.

(** A delay longer than the cycle: the referencing controller never begins, however long the run. *)
Record imp (t : Z) (s : system) : Prop := {
  imp_good : Good impatient s;
  imp_cur0 : k_current (ctrl s 0) = 0%nat;
  imp_sta0 : k_started (ctrl s 0) = t;
  imp_cur1 : k_current (ctrl s 1) = 1%nat;
  imp_beg1 : k_begin (ctrl s 1) = Some (t + 15);
  imp_obs : existsb (Nat.eqb 1) (k_observers (ctrl s 0)) = true;
  imp_nb : nb 1 s = [] }.
Lemma imp_step t s : imp t s -> imp (t + 10) (step 10 yes s (Frame (t + 10))).
Proof.
  intros [G C0 S0 C1 B1 OB NB]. unfold step, evaluate_all. rewrite (proj1 G). cbn [impatient length seq fold_left].
  set (s1 := evaluate 10 yes (t + 10) s 0). set (s2 := evaluate 10 yes (t + 10) s1 1).
  pose proof (proj1 G) as L. cbn in L.
  destruct (proj2 G 0%nat 0 None [ph 1 10 []] eq_refl) as (D0 & R0 & P0 & _).
  destruct (proj2 G 1%nat 15 (Some 0%nat) [ph 1 10 []] eq_refl) as (D1 & R1 & P1 & _).
  assert (G1 : Good impatient s1) by (apply evaluate_Good; auto; simpl; lia).
  assert (G2 : Good impatient s2) by (apply evaluate_Good; auto; simpl; lia).
  assert (MV : move (t + 10) (ctrl s 0) = Some 0%nat).
  { unfold move, should_begin, exceeded, phase_at. rewrite R0, P0, C0. cbn. rewrite S0.
    replace (t + 10 - t) with 10 by ring. reflexivity. }
  destruct (evaluate_spec 10 yes (t + 10) s 0 ltac:(lia)) as (L1 & M1 & H1). fold s1 in L1, M1, H1.
  rewrite MV in M1, H1.
  destruct (H1 0%nat ltac:(lia)) as (SS0 & A0 & T0 & _). destruct (H1 1%nat ltac:(lia)) as (SS1 & A1 & T1 & Bg1).
  cbn in A0, T0, A1, T1, Bg1. cbn in OB. rewrite OB, D1 in Bg1.
  destruct (proj2 G1 1%nat 15 (Some 0%nat) [ph 1 10 []] eq_refl) as (D1' & R1' & P1' & _).
  assert (MV1 : move (t + 10) (ctrl s1 1) = None).
  { unfold move, should_begin, exceeded, phase_at. rewrite R1', P1', Bg1, A1, C1.
    destruct (Z.ltb_spec (t + 10 + 15) (t + 10)); [lia|]. reflexivity. }
  destruct (evaluate_spec 10 yes (t + 10) s1 1 ltac:(lia)) as (L2 & M2 & H2). fold s2 in L2, M2, H2.
  rewrite MV1 in M2, H2.
  assert (SB : should_begin (t + 10) (ctrl s1 1) = false).
  { unfold should_begin. rewrite R1', Bg1. apply Z.ltb_ge. lia. }
  rewrite SB in H2.
  destruct (H2 0%nat ltac:(lia)) as (SS0' & A0' & T0' & _). destruct (H2 1%nat ltac:(lia)) as (SS1' & A1' & T1' & Bg1').
  cbn in A0', T0', A1', T1', Bg1'.
  constructor; auto; try congruence.
  - destruct SS0' as (_ & _ & _ & O2). destruct SS0 as (_ & _ & _ & O1). rewrite O2, O1. exact OB.
  - unfold nb in *. rewrite M2, M1. unfold begun, phase_at. rewrite P0. cbn.
    rewrite !begins_app, NB. reflexivity.
Qed.
Theorem C21_never_begins : forall n,
  accepted 10 impatient = true /\
  begins 1 (history (run 10 yes (map (fun k => Frame (Z.of_nat k * 10)) (seq 0 n)) (init impatient))) = [].
Proof.
  intros n. split; [reflexivity|].
  destruct n as [|n]; [reflexivity|]. rewrite nb_history.
  enough (E : imp (Z.of_nat n * 10) (run 10 yes (map (fun k => Frame (Z.of_nat k * 10)) (seq 0 (S n))) (init impatient)))
    by apply E.
  induction n as [|n IH].
  - constructor; try (vm_compute; reflexivity). apply run_Good. apply init_spec.
  - rewrite seq_S, map_app. unfold run in *. rewrite fold_left_app. cbn [map fold_left].
    replace (Z.of_nat (0 + S n) * 10) with (Z.of_nat n * 10 + 10) by lia.
    replace (Z.of_nat (S n) * 10) with (Z.of_nat n * 10 + 10) by lia.
    apply imp_step. exact IH.
Qed.

(** ** C22 *)
Definition C22_claim : Prop :=
  forall tps ps, 0 < tps -> finite ps -> non_negative ps -> cycle_time tps ps = Some (cycle ps).
(** Two phases of 1.9 s: the cycle time is taken to be 2 s instead of 3.8 s. *)
Theorem C22_cycle_time_is_the_sum_refuted : ~ C22_claim.
Proof.
  intros H. specialize (H 10 [ph 1 19 []; ph 2 19 []] ltac:(lia)).
  assert (X : cycle_time 10 [ph 1 19 []; ph 2 19 []] = Some 38).
  { apply H; intros p.
    - intros [<-|[<-|[]]]; eexists; reflexivity.
    - intros d [<-|[<-|[]]] E; inversion E; lia. }
  vm_compute in X. discriminate.
Qed.
(** So a controller with a cycle of 3.8 s is accepted as following one with a cycle of 2 s. *)
Theorem C22_unequal_cycles_accepted :
  exists l d r ps prs dr, accepted 10 l = true /\
    nth_error l 1 = Some (d, Some r, ps) /\ nth_error l r = Some (dr, None, prs) /\
    finite ps /\ finite prs /\ cycle ps <> cycle prs.
Proof.
  exists [(0, None, [ph 1 20 []]); (0, Some 0%nat, [ph 1 19 []; ph 2 19 []])].
  exists 0, 0%nat, [ph 1 19 []; ph 2 19 []], [ph 1 20 []], 0.
  split; [reflexivity|]. split; [reflexivity|]. split; [reflexivity|]. split; [|split].
  - intros p [<-|[<-|[]]]; eexists; reflexivity.
  - intros p [<-|[]]; eexists; reflexivity.
  - discriminate.
Qed.
(** With durations of whole seconds it is the sum. *)
Theorem C22_cycle_time_is_the_sum :
  forall tps ps, 0 < tps -> finite ps -> whole_seconds tps ps -> cycle_time tps ps = Some (cycle ps).
Proof. intros. apply cycle_time_exact; auto. Qed.
(** In general it is too small by less than a second per phase, never too large. *)
Theorem C22_cycle_time_bounds :
  forall tps ps, 0 < tps -> finite ps -> non_negative ps ->
  exists ct, cycle_time tps ps = Some ct /\ ct <= cycle ps <= ct + Z.of_nat (length ps) * (tps - 1).
Proof.
  intros tps ps HT F N. destruct (cycle_seconds_bounds tps ps HT F N 0 ltac:(lia)) as (r & A & B).
  exists (r * tps). unfold cycle_time. rewrite A. simpl. split; [reflexivity|lia].
Qed.
(** An infinite phase makes it undefined. *)
Theorem C22_cycle_time_undefined : forall tps ps p, In p ps -> ph_dur p = Forever -> cycle_time tps ps = None.
Proof.
  intros tps ps p H E. unfold cycle_time.
  assert (X : forall sum, cycle_seconds tps sum ps = None).
  { induction ps as [|q ps IH]; [contradiction|]. intros sum. simpl. destruct H as [->|H].
    - rewrite E. reflexivity.
    - destruct (ph_dur q); auto. }
  rewrite X. reflexivity.
Qed.
Example C22_example : cycle_time 10 phases1 = Some 60 /\ cycle phases1 = 60.
Proof. split; reflexivity. Qed.

(** ** C23 *)
(** The full claim: the predictions published at the last phase change are those for the next six
    phases. *)
Definition C23_claim : Prop :=
  forall tps enabled l es,
  0 < tps -> (forall j d r ps, nth_error l j = Some (d, r, ps) -> finite ps /\ non_negative ps) ->
  let s := run tps enabled es (init l) in
  forall c i t, last_change (out s) = Some (c, i, t) ->
  exists d r ps, nth_error l c = Some (d, r, ps) /\
    forall id, predictions s id = forecast enabled ps i id.
(** A phase of half a second: nothing is predicted, because its duration exceeds the truncated cycle
    time. *)
Theorem C23_predictions_refuted : ~ C23_claim.
Proof.
  intros H. specialize (H 10 yes [(0, None, [ph 1 5 [sig 7 1]])] [Frame 0] ltac:(lia)).
  destruct (fun X => H X 0%nat 0%nat 0 eq_refl) as (d & r & ps & E & P).
  - intros j d r ps E. destruct j as [|[|]]; inversion E; subst. split.
    + intros p [<-|[]]; eexists; reflexivity.
    + intros p d [<-|[]] X; inversion X; lia.
  - inversion E; subst. specialize (P 7). vm_compute in P. discriminate.
Qed.
(** With durations of whole seconds they are, after every run with any number of controllers and
    actions: six phases, in cyclic order, each with the time until it begins. *)
Theorem C23_predictions :
  forall tps enabled l es,
  0 < tps ->
  (forall j d r ps, nth_error l j = Some (d, r, ps) -> finite ps /\ non_negative ps /\ whole_seconds tps ps) ->
  let s := run tps enabled es (init l) in
  forall c i t, last_change (out s) = Some (c, i, t) ->
  exists d r ps, nth_error l c = Some (d, r, ps) /\ (i < length ps)%nat /\
    forall id, predictions s id = forecast enabled ps i id.
Proof.
  intros tps enabled l es HT HA s c i t E.
  assert (P : PInv enabled l s).
  { apply run_PInv; auto; [apply init_spec|apply init_PInv]. }
  unfold PInv in P. rewrite E in P. exact P.
Qed.
Example C23_example :
  last_change (out (run 10 yes (every_second 4) (init two))) = Some (0%nat, 2%nat, 130) /\
  forecast yes phases1 2 7 = [(1%nat, 30); (2%nat, 50); (3%nat, 60); (1%nat, 90); (2%nat, 110); (3%nat, 120)] /\
  predictions (run 10 yes (every_second 4) (init two)) 7 = forecast yes phases1 2 7.
Proof. repeat split. Qed.

(** ** C47: a controller's predictions stay published until its own next phase change *)
Definition C47_claim : Prop :=
  forall tps enabled l es e c i t i' t' id,
  let s := run tps enabled es (init l) in
  let s' := step tps enabled s e in
  last_change (out s) = Some (c, i, t) -> predictions s id <> [] ->
  last_change (filter (fun o => match o with OBegin j _ _ => (j =? c)%nat | _ => false end) (out s')) = Some (c, i', t') ->
  t' = t -> i' = i ->
  predictions s' id = predictions s id.
(** A phase change of another controller removes them. *)
Theorem C47_predictions_stay_refuted : ~ C47_claim.
Proof.
  intros H.
  specialize (H 10 yes [(0, None, phases1); (0, None, phases2)] [Frame 0; Frame 20] (Action 25 1 2)
    0%nat 1%nat 20 1%nat 20 7 ltac:(vm_compute; reflexivity) ltac:(vm_compute; discriminate)
    ltac:(vm_compute; reflexivity) eq_refl eq_refl).
  vm_compute in H. discriminate.
Qed.
(** They stay as long as no controller changes its phase. *)
Theorem C47_predictions_stay :
  forall tps enabled l es es',
  let s := run tps enabled es (init l) in
  let s' := run tps enabled es' s in
  (forall c, begins c (history s') = begins c (history s)) ->
  forall id, predictions s' id = predictions s id.
Proof.
  intros tps enabled l es es' s s' NB id. destruct (run_grows tps enabled es' s) as (a & E & Q). fold s' in E.
  assert (N : forall c, begins c (rev a) = []).
  { intros c. specialize (NB c). unfold history in NB. rewrite E, rev_app_distr, begins_app in NB.
    rewrite <- (app_nil_r (begins c (rev (out s)))) in NB at 2. apply app_inv_head in NB. exact NB. }
  destruct Q as [(c & i & t & Hin)|Q].
  - exfalso. specialize (N c). apply in_rev in Hin. revert N Hin. generalize (rev a). clear.
    intros m. induction m as [|o m IH]; simpl; intros N H; [contradiction|]. destruct H as [H|H].
    + subst. rewrite Nat.eqb_refl in N. discriminate.
    + destruct o; auto. destruct (_ =? _)%nat; [discriminate|auto].
  - unfold predictions. rewrite E. rewrite published_app_quiet; auto.
    intros x Hx. specialize (Q x Hx). destruct x; auto.
Qed.
Example C47_example :
  let s := run 10 yes (every_second 4) (init two) in
  let s' := run 10 yes [Frame 135] s in
  (begins 0 (history s') = begins 0 (history s)) /\ (begins 1 (history s') = begins 1 (history s)) /\
  length (predictions s' 7) = 6%nat.
Proof. vm_compute. auto. Qed.

(** ** C48: asking for the current phase *)
(** The full claim: after the first frame every controller with phases has a current phase. *)
Definition C48_claim : Prop :=
  forall tps enabled l es c d r ps t,
  accepted tps l = true -> nth_error l c = Some (d, r, ps) -> ps <> [] -> In (Frame t) es ->
  current_phase_name (ctrl (run tps enabled es (init l)) c) <> None.
(** A referencing controller has none before its delay is over: the query is undefined. *)
Theorem C48_current_phase_defined_refuted : ~ C48_claim.
Proof.
  intros H. apply (H 10 yes two [Frame 100] 1%nat 5 (Some 0%nat) phases2 100); try reflexivity.
  - discriminate.
  - left. reflexivity.
Qed.
(** An unreferenced one has: it is the phase begun last. *)
Theorem C48_current_phase_defined :
  forall tps enabled l es c d ps ts t,
  nth_error l c = Some (d, None, ps) -> ps <> [] -> untouched c es -> frames es = ts ++ [t] ->
  exists h i a p, begins c (history (run tps enabled es (init l))) = h ++ [(i, a)] /\ nth_error ps i = Some p /\
    current_phase_name (ctrl (run tps enabled es (init l)) c) = Some (ph_name p).
Proof.
  intros tps enabled l es c d ps ts t Ec NE U EF.
  pose proof (run_local tps enabled l c d ps Ec NE es U) as R.
  destruct (lrun_inv ps (frames es) NE) as [_ B _ _].
  destruct (B ltac:(rewrite EF; destruct ts; discriminate)) as (h & E & LT).
  rewrite <- R in E, LT. unfold local in E, LT. simpl in E, LT.
  set (s := run tps enabled es (init l)) in *.
  destruct (nth_error ps (k_current (ctrl s c))) as [p|] eqn:EP; [|apply nth_error_None in EP; lia].
  exists h, (k_current (ctrl s c)), (k_started (ctrl s c)), p. rewrite nb_history. split; auto. split; auto.
  unfold current_phase_name, phase_at.
  assert (G : Good l s) by (apply run_Good, init_spec).
  destruct (proj2 G _ _ _ _ Ec) as (_ & _ & -> & _). rewrite EP. reflexivity.
Qed.

(** ** C48, any controller: from its first begin on, the current phase is the one begun last; before,
    there is none. *)
Section LastBegin.
Variable tps : Z.
Variable enabled : Z -> bool.
Variable l : list spec.
Variable c : nat.
Variable d : Z.
Variable r : option nat.
Variable ps : list phase.
Hypothesis Ec : nth_error l c = Some (d, r, ps).
Hypothesis NE : ps <> [].
Definition LB (s : system) : Prop :=
  (k_current (ctrl s c) = length ps /\ nb c s = []) \/
  ((k_current (ctrl s c) < length ps)%nat /\ exists h, nb c s = h ++ [(k_current (ctrl s c), k_started (ctrl s c))]).
Lemma LB_len s : Good l s -> (c < length (ctrls s))%nat.
Proof. intros [L _]. rewrite L. apply nth_error_Some. congruence. Qed.
Lemma LB_phases s : Good l s -> k_phases (ctrl s c) = ps.
Proof. intros [_ H]. apply (H c d r ps Ec). Qed.
Lemma LB_le s : LB s -> (k_current (ctrl s c) <= length ps)%nat.
Proof. intros [[-> _]|[H _]]; lia. Qed.
Lemma LB_move s s' a i : LB s -> (i < length ps)%nat -> nb c s' = nb c s ++ [(i, a)] ->
  k_current (ctrl s' c) = i -> k_started (ctrl s' c) = a -> LB s'.
Proof. intros _ Hi E E1 E2. right. rewrite E1, E2. split; [exact Hi|]. exists (nb c s). exact E. Qed.
Lemma LB_stay s s' : LB s -> nb c s' = nb c s -> k_current (ctrl s' c) = k_current (ctrl s c) ->
  k_started (ctrl s' c) = k_started (ctrl s c) -> LB s'.
Proof. intros H E E1 E2. unfold LB. rewrite E, E1, E2. exact H. Qed.
Lemma LB_change now s j i : Good l s -> (j < length (ctrls s))%nat -> phase_at (ctrl s j) i <> None -> LB s ->
  LB (change_phase tps enabled now s j i).
Proof.
  intros G Hj HP H. destruct (change_phase_spec tps enabled now s j i Hj) as (_ & M & A).
  destruct (A c (LB_len s G)) as (_ & B & C & _).
  destruct (phase_at (ctrl s j) i) as [p|] eqn:EP; [|congruence].
  destruct (Nat.eqb_spec c j) as [<-|N].
  - apply (LB_move s _ now i H).
    + unfold phase_at in EP. rewrite (LB_phases s G) in EP. apply nth_error_Some. congruence.
    + unfold nb. rewrite M. simpl. rewrite begins_app. simpl. rewrite Nat.eqb_refl. reflexivity.
    + exact B.
    + exact C.
  - apply (LB_stay s _ H); [|exact B|exact C]. unfold nb. rewrite M. simpl. rewrite begins_app. simpl.
    destruct (Nat.eqb_spec j c); [congruence|]. apply app_nil_r.
Qed.
Lemma LB_evaluate now s j : Good l s -> (j < length (ctrls s))%nat -> LB s -> LB (evaluate tps enabled now s j).
Proof.
  intros G Hj H. destruct (evaluate_spec tps enabled now s j Hj) as (_ & M & A).
  destruct (A c (LB_len s G)) as (_ & B & C & _).
  destruct (Nat.eqb_spec c j) as [<-|N].
  - assert (L := LB_le s H). assert (P : (0 < length ps)%nat) by (destruct ps; [congruence|simpl; lia]).
    destruct (move now (ctrl s c)) as [i|] eqn:EM.
    + assert (Hi : (i < length ps)%nat).
      { unfold move in EM. destruct (should_begin now (ctrl s c)); [injection EM as <-; exact P|].
        destruct (exceeded now (ctrl s c)); [|discriminate]. injection EM as <-.
        rewrite (LB_phases s G). apply circular_next_lt; assumption. }
      apply (LB_move s _ now i H Hi); [|exact B|exact C].
      unfold nb. rewrite M. unfold begun, phase_at. rewrite (LB_phases s G).
      destruct (nth_error ps i) eqn:EN; [|apply nth_error_None in EN; lia].
      simpl. rewrite !begins_app. simpl. rewrite Nat.eqb_refl, app_nil_r. reflexivity.
    + apply (LB_stay s _ H); [|exact B|exact C]. unfold nb. rewrite M. simpl. rewrite begins_app. simpl. apply app_nil_r.
  - apply (LB_stay s _ H); [|exact B|exact C]. unfold nb. rewrite M.
    rewrite rev_app_distr. simpl. rewrite !begins_app. simpl. rewrite app_nil_r.
    unfold begun. destruct (move now (ctrl s j)) as [i|]; [|apply app_nil_r].
    destruct (phase_at (ctrl s j) i); simpl; [|apply app_nil_r].
    destruct (Nat.eqb_spec j c); [congruence|]. apply app_nil_r.
Qed.
Lemma LB_evaluates now js : forall s, Good l s -> (forall j, In j js -> (j < length l)%nat) -> LB s ->
  LB (fold_left (evaluate tps enabled now) js s).
Proof.
  induction js as [|j js IH]; simpl; intros s G Hj H; auto.
  apply IH; [apply evaluate_Good; auto|auto|]. apply LB_evaluate; auto. rewrite (proj1 G). auto.
Qed.
Lemma LB_run es : forall s, Good l s -> LB s -> LB (run tps enabled es s).
Proof.
  induction es as [|e es IH]; intros s G H; [exact H|]. apply IH; [apply step_Good; exact G|].
  destruct e as [now|now j name].
  - simpl. apply LB_evaluates; auto. intros j Hj. apply in_seq in Hj. rewrite (proj1 G) in Hj. lia.
  - destruct (action_cases tps enabled now s j name) as [E|(i & Hj & HP & E)]; rewrite E; auto.
    apply LB_change; auto.
Qed.
End LastBegin.

Theorem C48_current_phase :
  forall tps enabled l es c d r ps, nth_error l c = Some (d, r, ps) -> ps <> [] ->
  let s := run tps enabled es (init l) in
  (begins c (history s) = [] -> current_phase_name (ctrl s c) = None) /\
  (forall h i a, begins c (history s) = h ++ [(i, a)] ->
     exists p, nth_error ps i = Some p /\ current_phase_name (ctrl s c) = Some (ph_name p)).
Proof.
  intros tps enabled l es c d r ps Ec NE s. destruct (init_spec l) as (G & I).
  assert (H : LB c ps s).
  { apply (LB_run tps enabled l c d r ps Ec NE es (init l) G). left.
    destruct (I c d r ps Ec) as (A & _). split; [exact A|reflexivity]. }
  assert (EP : k_phases (ctrl s c) = ps) by (apply (LB_phases l c d r ps Ec), run_Good, G).
  rewrite nb_history. unfold current_phase_name, phase_at. rewrite EP.
  destruct H as [[E1 E2]|[L (h & E)]].
  - rewrite E1, E2. split.
    + intros _. rewrite (proj2 (nth_error_None ps (length ps))); auto.
    + intros h i a X. destruct h; discriminate X.
  - rewrite E. split; [intros X; destruct h; discriminate X|].
    intros h' i a X. apply app_inj_tail in X. destruct X as [_ X]. injection X as <- _.
    destruct (nth_error ps (k_current (ctrl s c))) as [p|] eqn:EN; [|apply nth_error_None in EN; lia].
    exists p. auto.
Qed.

(** ** C22, C21: what is checked when a scenario is loaded. *)
Theorem C22_accepted : forall tps l, accepted tps l = true <->
  forall c d r ps, nth_error l c = Some (d, Some r, ps) ->
  0 <= d /\ exists dr rr prs t, nth_error l r = Some (dr, rr, prs) /\
  cycle_time tps ps = Some t /\ cycle_time tps prs = Some t.
Proof.
  intros tps l. unfold accepted. rewrite forallb_forall. split.
  - intros H c d r ps E. apply nth_error_In in E. specialize (H _ E). cbn in H.
    apply andb_true_iff in H; destruct H as [H H3]. apply andb_true_iff in H; destruct H as [H1 H2].
    apply Z.leb_le in H1. apply Nat.ltb_lt in H2. split; [exact H1|].
    destruct (nth r l (0, None, [])) as [[dr rr] prs] eqn:En. cbn in H3.
    destruct (cycle_time tps ps) as [a|] eqn:E1; [|discriminate].
    destruct (cycle_time tps prs) as [b|] eqn:E2; [|discriminate]. apply Z.eqb_eq in H3. subst b.
    exists dr, rr, prs, a. split; [|auto]. rewrite <- En. apply nth_error_nth'. exact H2.
  - intros H [[d [r|]] ps] Hin; [|reflexivity]. apply In_nth_error in Hin. destruct Hin as [c Ec].
    destruct (H c d r ps Ec) as (H1 & dr & rr & prs & t & H2 & H3 & H4).
    assert (L : (r < length l)%nat) by (apply nth_error_Some; congruence).
    rewrite (nth_error_nth l r _ H2). cbn [snd]. rewrite H3, H4.
    rewrite (proj2 (Z.leb_le 0 d) H1), (proj2 (Nat.ltb_lt r (length l)) L), Z.eqb_refl. reflexivity.
Qed.
(** With whole seconds: a controller and the one it references have the same sum of durations. *)
Corollary C22_equal_cycles : forall tps l c d r ps dr rr prs, 0 < tps -> accepted tps l = true ->
  nth_error l c = Some (d, Some r, ps) -> nth_error l r = Some (dr, rr, prs) ->
  finite ps -> whole_seconds tps ps -> finite prs -> whole_seconds tps prs -> cycle ps = cycle prs.
Proof.
  intros tps l c d r ps dr rr prs HT HA E1 E2 F1 W1 F2 W2.
  destruct (proj1 (C22_accepted tps l) HA c d r ps E1) as (_ & dr' & rr' & prs' & t & E & A & B).
  rewrite E2 in E. injection E as <- <- <-.
  rewrite cycle_time_exact in A, B by assumption. congruence.
Qed.

Print Assumptions C48_current_phase.
Print Assumptions C22_accepted.
Print Assumptions C22_equal_cycles.
Print Assumptions C19_phases_in_order.
Print Assumptions C20_phase_lasts.
Print Assumptions C20_drift.
Print Assumptions C20_no_phase_overdue.
Print Assumptions C21_referencing_controller_follows_refuted.
Print Assumptions C21_referencing_controller_follows.
Print Assumptions C21_referencing_controller_begins_only_then.
Print Assumptions C21_never_begins.
Print Assumptions C22_cycle_time_is_the_sum_refuted.
Print Assumptions C22_unequal_cycles_accepted.
Print Assumptions C22_cycle_time_is_the_sum.
Print Assumptions C22_cycle_time_bounds.
Print Assumptions C22_cycle_time_undefined.
Print Assumptions C23_predictions_refuted.
Print Assumptions C23_predictions.
Print Assumptions C47_predictions_stay_refuted.
Print Assumptions C47_predictions_stay.
Print Assumptions C48_current_phase_defined_refuted.
Print Assumptions C48_current_phase_defined.
