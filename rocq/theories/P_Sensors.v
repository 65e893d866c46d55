(** * Proofs about the sensors *)

From Coq Require Import ZArith QArith List Bool Lia Lqa String.
From Verif Require Import M_Sensors S_Sensors.
Import ListNotations.
Open Scope Q_scope.

Lemma nth_error_ext {B : Type} (l : list B) : forall l', (forall k, nth_error l k = nth_error l' k) -> l = l'.
Proof.
  induction l as [|a l IH]; intros [|b l'] H; auto.
  - specialize (H O). discriminate.
  - specialize (H O). discriminate.
  - f_equal; [specialize (H O); simpl in H; congruence|]. apply IH. intros k. exact (H (S k)).
Qed.

(** ** Delays *)
Section delays.
Context {A : Type}.

Definition push (t : Q) (o : option A) : list (A * Q) :=
  match o with Some a => [(a, t)] | None => [] end.

Fixpoint deliver (delay : Q) (q : list (A * Q)) (l : list (Q * option A))
  : list (A * Q) * list (option (A * Q)) :=
  match l with
  | [] => (q, [])
  | (t, o) :: r =>
      let (q1, out) := release t delay (q ++ push t o) in
      let (q2, outs) := deliver delay q1 r in
      (q2, out :: outs)
  end.

Definition pushes (n : nat) (l : list (Q * option A)) : list (nat * (A * Q)) :=
  numbered n (map (fun x => option_map (fun a => (a, fst x)) (snd x)) l).

Lemma numbered_app {B : Type} (l l' : list (option B)) : forall n,
  numbered n (l ++ l') = (numbered n l ++ numbered (n + List.length l) l')%list.
Proof.
  induction l as [|[b|] l IH]; intros n; simpl.
  - rewrite Nat.add_0_r. reflexivity.
  - rewrite IH, Nat.add_succ_r. reflexivity.
  - rewrite IH, Nat.add_succ_r. reflexivity.
Qed.

Lemma numbered_nth {B : Type} (l : list (option B)) : forall n k i b,
  nth_error (numbered n l) k = Some (i, b) ->
  (n <= i < n + List.length l)%nat /\ nth_error l (i - n) = Some (Some b).
Proof.
  induction l as [|[c|] l IH]; intros n k i b E; simpl in E.
  - destruct k; discriminate.
  - destruct k; simpl in E.
    + injection E as <- <-. rewrite Nat.sub_diag. simpl. split; [lia|reflexivity].
    + apply IH in E. destruct E as [E1 E2]. simpl. split; [lia|].
      replace (i - n)%nat with (S (i - S n)) by lia. exact E2.
  - apply IH in E. destruct E as [E1 E2]. simpl. split; [lia|].
    replace (i - n)%nat with (S (i - S n)) by lia. exact E2.
Qed.

Lemma deliver_app delay l : forall q l',
  deliver delay q (l ++ l') =
  let (q1, o1) := deliver delay q l in
  let (q2, o2) := deliver delay q1 l' in (q2, (o1 ++ o2)%list).
Proof.
  induction l as [|[t o] l IH]; intros q l'; simpl.
  - destruct (deliver delay q l'). reflexivity.
  - destruct (release t delay (q ++ push t o)) as [q1 out]. rewrite IH.
    destruct (deliver delay q1 l) as [q2 outs]. destruct (deliver delay q2 l') as [q3 outs']. reflexivity.
Qed.

Lemma deliver_length delay l : forall q q' outs,
  deliver delay q l = (q', outs) -> List.length outs = List.length l.
Proof.
  induction l as [|[t o] l IH]; intros q q' outs E; simpl in E.
  - injection E as <- <-. reflexivity.
  - destruct (release t delay (q ++ push t o)) as [q1 out].
    destruct (deliver delay q1 l) as [q2 os] eqn:D. injection E as <- <-. simpl. f_equal. eauto.
Qed.

Lemma may_go_extend delay steps t i b j : (j < List.length steps)%nat ->
  may_go delay (steps ++ [t]) i b j <-> may_go delay steps i b j.
Proof.
  intros J. unfold may_go. split.
  - intros (I & B & ti & tj & E1 & E2 & L). split; [auto|]. split; [auto|]. exists ti, tj.
    rewrite nth_error_app1 in E1 by lia. rewrite nth_error_app1 in E2 by lia. auto.
  - intros (I & B & ti & tj & E1 & E2 & L). split; [auto|]. split; [auto|]. exists ti, tj.
    rewrite !nth_error_app1 by lia. auto.
Qed.

Lemma may_go_bound delay steps i b j : may_go delay steps i b j -> (j < List.length steps)%nat.
Proof. intros (_ & _ & ti & tj & _ & E & _). apply nth_error_Some. congruence. Qed.

Lemma deliver_spec delay l : forall q outs, deliver delay [] l = (q, outs) ->
  (map snd (numbered 0 outs) ++ q)%list = map snd (pushes 0 l) /\
  handed_on delay (map fst l) (map fst (pushes 0 l)) (map fst (numbered 0 outs)).
Proof.
  induction l as [|[t o] l IH] using rev_ind; intros q outs E.
  - simpl in E. injection E as <- <-. simpl. split; auto. split.
    + intros k j H. destruct k; discriminate.
    + intros i H. destruct i; discriminate.
  - rewrite deliver_app in E. destruct (deliver delay [] l) as [q0 outs0] eqn:D.
    pose proof (deliver_length delay l [] q0 outs0 D) as LEN.
    destruct (IH q0 outs0 eq_refl) as [F [H1 H2]]. clear IH. simpl in E.
    destruct (release t delay (q0 ++ push t o)) as [q1 out] eqn:R. injection E as <- <-.
    set (P := pushes 0 l) in *. set (W := numbered 0 outs0) in *. set (steps := map fst l) in *.
    assert (LS : List.length steps = List.length l) by apply map_length.
    assert (EP : pushes 0 (l ++ [(t, o)]) = (P ++ map (fun x => (List.length l, x)) (push t o))%list).
    { unfold pushes. rewrite map_app, numbered_app, map_length. simpl. fold (pushes 0 l). destruct o; reflexivity. }
    assert (EW : numbered 0 (outs0 ++ [out]) =
       (W ++ match out with Some x => [(List.length l, x)] | None => [] end)%list).
    { rewrite numbered_app, LEN. simpl. fold W. destruct out; reflexivity. }
    assert (ES : map fst (l ++ [(t, o)]) = (steps ++ [t])%list) by (rewrite map_app; reflexivity).
    assert (ALL : (map snd W ++ (q0 ++ push t o))%list = map snd (pushes 0 (l ++ [(t, o)]))).
    { rewrite EP, map_app, map_map. simpl. rewrite app_assoc, F, map_id. reflexivity. }
    assert (WB : forall k j, nth_error (map fst W) k = Some j -> (j < List.length l)%nat).
    { intros k j X. rewrite nth_error_map in X. destruct (nth_error W k) as [[j' x]|] eqn:Y; [|discriminate].
      injection X as <-. apply numbered_nth in Y. lia. }
    assert (LW : List.length (map fst W) = List.length W) by apply map_length.
    assert (BEF : forall k X, (k <= List.length W)%nat -> before (map fst W ++ X) k = before (map fst W) k).
    { intros k X K. destruct k; simpl; auto. rewrite nth_error_app1; auto. lia. }
    (* items that went before *)
    assert (OLD : forall k j X Y, nth_error (map fst W) k = Some j ->
       exists i, nth_error (map fst P ++ Y) k = Some i /\
         may_go delay (steps ++ [t]) i (before (map fst W ++ X) k) j /\
         forall j', (j' < j)%nat -> ~ may_go delay (steps ++ [t]) i (before (map fst W ++ X) k) j').
    { intros k j X Y N. destruct (H1 k j N) as (i & I & M & LEAST). pose proof (WB k j N) as JB.
      exists i. split.
      - rewrite nth_error_app1; auto. apply nth_error_Some. congruence.
      - rewrite BEF by (rewrite <- LW; apply Nat.lt_le_incl, nth_error_Some; congruence). split.
        + apply may_go_extend; auto. lia.
        + intros j' J' Z. apply (LEAST j' J'). rewrite may_go_extend in Z by lia. exact Z. }
    (* the item at the front *)
    assert (FRONT : forall a t0 r, (q0 ++ push t o)%list = (a, t0) :: r ->
       exists i, nth_error (map fst (pushes 0 (l ++ [(t, o)]))) (List.length W) = Some i /\
         (i <= List.length l)%nat /\ nth_error (steps ++ [t]) i = Some t0 /\
         forall j, (j < List.length l)%nat -> ~ may_go delay (steps ++ [t]) i (before (map fst W) (List.length W)) j).
    { intros a t0 r EQ. rewrite EQ in ALL.
      assert (N : nth_error (map snd (pushes 0 (l ++ [(t, o)]))) (List.length W) = Some (a, t0)).
      { rewrite <- ALL. rewrite nth_error_app2 by (rewrite map_length; lia).
        rewrite map_length, Nat.sub_diag. reflexivity. }
      rewrite nth_error_map in N.
      destruct (nth_error (pushes 0 (l ++ [(t, o)])) (List.length W)) as [[i x]|] eqn:Y; [|discriminate].
      simpl in N. injection N as ->. exists i. split; [rewrite nth_error_map, Y; reflexivity|].
      pose proof Y as Y'. unfold pushes in Y'. apply numbered_nth in Y'. destruct Y' as [IB Y'].
      rewrite map_length, app_length in IB. simpl in IB.
      rewrite Nat.sub_0_r, nth_error_map in Y'.
      destruct (nth_error (l ++ [(t, o)]) i) as [[t' [a'|]]|] eqn:Z; simpl in Y'; try discriminate.
      injection Y' as <- <-. split; [lia|]. split.
      - rewrite <- ES, nth_error_map, Z. reflexivity.
      - intros j J M. destruct (Nat.eq_dec i (List.length l)) as [->|NE].
        + destruct M as [M _]. lia.
        + rewrite may_go_extend in M by lia.
          apply (H2 i) with j; [|rewrite LW; auto].
          rewrite LW, nth_error_map. rewrite EP in Y.
          destruct (lt_dec (List.length W) (List.length P)) as [LT|GE].
          * rewrite nth_error_app1 in Y by lia. rewrite Y. reflexivity.
          * rewrite nth_error_app2 in Y by lia. exfalso. apply NE.
            destruct o as [oa|]; simpl in Y.
            -- destruct (List.length W - List.length P)%nat as [|[|]]; simpl in Y; congruence.
            -- destruct (List.length W - List.length P)%nat; discriminate. }
    unfold release in R. destruct (q0 ++ push t o)%list as [|[a t0] r] eqn:Q.
    + injection R as <- <-. rewrite EW, !app_nil_r. rewrite app_nil_r in ALL. split.
      { exact ALL. }
      rewrite ES. split.
      * intros k j N. destruct (OLD k j [] (map fst (map (fun x => (List.length l, x)) (push t o))) N)
          as (i & I & M & LEAST). rewrite app_nil_r in M, LEAST. exists i. split; auto.
        rewrite EP, map_app. exact I.
      * intros i I. exfalso. assert (X : nth_error (map fst (pushes 0 (l ++ [(t, o)]))) (List.length (map fst W)) <> None) by congruence.
        apply nth_error_Some in X. apply (f_equal (@List.length _)) in ALL.
        rewrite !map_length in *. lia.
    + destruct (FRONT a t0 r eq_refl) as (i & I & IB & IT & NOT).
      destruct (Qle_bool delay (t - t0)) eqn:L; injection R as <- <-; rewrite EW.
      * (* it goes *)
        split.
        { rewrite map_app. simpl. rewrite <- app_assoc. exact ALL. }
        rewrite ES, map_app. simpl map. split.
        -- intros k j N. destruct (lt_dec k (List.length W)) as [LT|GE].
           ++ rewrite nth_error_app1 in N by lia.
              destruct (OLD k j [List.length l] (map fst (map (fun x => (List.length l, x)) (push t o))) N)
                as (i' & I' & M & LEAST). exists i'. split; auto. rewrite EP, map_app. exact I'.
           ++ rewrite nth_error_app2 in N by lia. rewrite LW in N.
              destruct (k - List.length W)%nat as [|z] eqn:KW; [|destruct z; discriminate].
              simpl in N. injection N as <-. assert (k = List.length W) by lia. subst k.
              exists i. split; auto. rewrite BEF by lia. split.
              ** split; [auto|]. split.
                 --- intros b B. destruct (List.length W) eqn:LL; simpl in B; [discriminate|]. eauto.
                 --- exists t0, t. split; [auto|]. split.
                     +++ rewrite nth_error_app2 by lia. rewrite LS, Nat.sub_diag. reflexivity.
                     +++ apply Qle_bool_iff. exact L.
              ** intros j' J'. apply NOT. lia.
        -- intros i' I' j M. rewrite app_length in M. simpl in M. rewrite Nat.add_1_r in M. simpl in M.
           pose proof (may_go_bound _ _ _ _ _ M) as JB. rewrite app_length in JB. simpl in JB.
           destruct M as (_ & B & _).
           rewrite nth_error_app2 in B by lia. rewrite Nat.sub_diag in B.
           specialize (B (List.length l) eq_refl). lia.
      * (* it waits *)
        rewrite app_nil_r. split; [exact ALL|]. rewrite ES. split.
        -- intros k j N. destruct (OLD k j [] (map fst (map (fun x => (List.length l, x)) (push t o))) N)
             as (i' & I' & M & LEAST). rewrite app_nil_r in M, LEAST. exists i'. split; auto.
           rewrite EP, map_app. exact I'.
        -- intros i' I' j M. rewrite LW in I', M. rewrite I in I'. injection I' as <-.
           pose proof (may_go_bound _ _ _ _ _ M) as JB. rewrite app_length in JB. simpl in JB.
           destruct (Nat.eq_dec j (List.length l)) as [->|NE].
           ++ destruct M as (_ & _ & ti & tj & E1 & E2 & LE). rewrite IT in E1. injection E1 as <-.
              rewrite nth_error_app2 in E2 by lia. rewrite LS, Nat.sub_diag in E2. injection E2 as <-.
              apply Qle_bool_iff in LE. congruence.
           ++ apply (NOT j); auto. lia.
Qed.
End delays.

Lemma uniform_delay delay steps p t0 d went : (0 < p)%Q ->
  (forall i t, nth_error steps i = Some t -> t == t0 + inject_Z (Z.of_nat i) * p) ->
  delay <= inject_Z (Z.of_nat d) * p ->
  (forall d', (d' < d)%nat -> ~ delay <= inject_Z (Z.of_nat d') * p) ->
  handed_on delay steps (seq 0 (List.length steps)) went ->
  went = seq d (List.length steps - d).
Proof.
  intros P U D LEAST [H1 H2]. set (n := List.length steps) in *.
  assert (T : forall i, (i < n)%nat -> exists t, nth_error steps i = Some t).
  { intros i I. destruct (nth_error steps i) eqn:E; eauto. apply nth_error_None in E. unfold n in I. lia. }
  assert (SEQ : forall k, (k < n)%nat -> nth_error (seq 0 n) k = Some k).
  { intros k K. rewrite nth_error_nth' with (d := 0%nat) by (rewrite seq_length; lia). rewrite seq_nth by lia. reflexivity. }
  assert (GO : forall i j b, (i + d <= j)%nat -> (j < n)%nat -> (forall x, b = Some x -> (x < j)%nat) -> may_go delay steps i b j).
  { intros i j b IJ J B. split; [lia|]. split; [auto|].
    destruct (T i ltac:(lia)) as [ti Ei]. destruct (T j J) as [tj Ej]. exists ti, tj. split; [auto|]. split; [auto|].
    rewrite (U _ _ Ei), (U _ _ Ej).
    assert (inject_Z (Z.of_nat i) + inject_Z (Z.of_nat d) <= inject_Z (Z.of_nat j)).
    { rewrite <- inject_Z_plus, <- Zle_Qle. lia. }
    assert ((inject_Z (Z.of_nat i) + inject_Z (Z.of_nat d)) * p <= inject_Z (Z.of_nat j) * p) by (apply Qmult_le_compat_r; lra).
    lra. }
  assert (GONE : forall i j b, may_go delay steps i b j -> (i + d <= j)%nat).
  { intros i j b (IJ & _ & ti & tj & Ei & Ej & L). rewrite (U _ _ Ei), (U _ _ Ej) in L.
    destruct (le_lt_dec (i + d) j) as [|LT]; auto. exfalso. apply (LEAST (j - i)%nat); [lia|].
    rewrite Nat2Z.inj_sub by lia. unfold Z.sub. rewrite inject_Z_plus, inject_Z_opp. lra. }
  assert (AT : forall k j, nth_error went k = Some j -> j = (k + d)%nat).
  { induction k as [k IH] using lt_wf_ind. intros j N.
    destruct (H1 k j N) as (i & I & M & LE).
    assert (KN : (k < n)%nat). { replace n with (List.length (seq 0 n)) by apply seq_length. apply nth_error_Some. congruence. }
    rewrite SEQ in I by lia. injection I as <-.
    pose proof (GONE _ _ _ M). pose proof (may_go_bound _ _ _ _ _ M) as B. fold n in B.
    destruct (Nat.eq_dec j (k + d)) as [|NE]; auto. exfalso. apply (LE (k + d)%nat); [lia|].
    apply GO; [lia|lia|]. intros x X. destruct k; simpl in X; [discriminate|].
    apply IH in X; lia. }
  assert (LEN : List.length went = (n - d)%nat).
  { assert (UP : forall k j, nth_error went k = Some j -> (k + d < n)%nat).
    { intros k j N. pose proof (AT k j N). subst j. destruct (H1 _ _ N) as (i & I & M & _).
      apply may_go_bound in M. exact M. }
    destruct (lt_dec (List.length went + d) n) as [LT|GE].
    - exfalso. apply (H2 (List.length went)) with (List.length went + d)%nat; [apply SEQ; lia|].
      apply GO; [lia|lia|]. intros x X. destruct (List.length went) as [|w] eqn:W; simpl in X; [discriminate|].
      apply AT in X. lia.
    - destruct (List.length went) as [|w] eqn:W; [lia|].
      assert (X : nth_error went w <> None) by (apply nth_error_Some; lia).
      destruct (nth_error went w) as [j|] eqn:N; [|congruence]. apply UP in N. lia. }
  apply nth_error_ext. intros k.
  destruct (nth_error went k) as [j|] eqn:N.
  - pose proof (AT _ _ N). subst j.
    assert (k < List.length went)%nat by (apply nth_error_Some; congruence).
    rewrite nth_error_nth' with (d := 0%nat) by (rewrite seq_length; lia). rewrite seq_nth by lia. f_equal. lia.
  - symmetry. apply nth_error_None. rewrite seq_length. apply nth_error_None in N. lia.
Qed.

(** ** Detection sensors *)
Section detection.
Context {G : geometry} {N : Type}.
Variable noise : pose G -> N -> list (status G) -> Q -> N * list (status G).

Local Notation det_step := (detection_step noise).

(** What is sampled in each frame. *)
Fixpoint sampling (c : detection_config) (previous : Q) (kept : option (plane G))
  (fs : list (frame G * list nat)) : option (list (option (list (status G)))) :=
  match fs with
  | [] => Some []
  | (f, lidars) :: r =>
      if due (now f) previous (update_duration c) then
        match find (own c) (statuses f) with
        | None => None
        | Some ego =>
            let (chosen, kept) := select c lidars (where_ ego) kept (statuses f) in
            option_map (cons (Some chosen)) (sampling c (now f) kept r)
        end
      else option_map (cons None) (sampling c previous kept r)
  end.

(** Samples only, with their times. *)
Fixpoint compact {B : Type} (fs : list (frame G * list nat)) (ch : list (option B)) : list (Q * option B) :=
  match fs, ch with
  | x :: fs, Some b :: ch => (now (fst x), Some b) :: compact fs ch
  | _ :: fs, None :: ch => compact fs ch
  | _, _ => []
  end.

(** Back to frames. *)
Fixpoint spread {B C : Type} (ch : list (option B)) (outs : list (option C)) : list (option C) :=
  match ch, outs with
  | Some _ :: ch, o :: outs => o :: spread ch outs
  | None :: ch, outs => None :: spread ch outs
  | _, _ => []
  end.

Lemma run_sampling c fs : forall d d' ms,
  run (det_step c) d fs = Some (d', ms) ->
  exists ch, sampling c (d_previous d) (d_plane d) fs = Some ch /\ List.length ch = List.length fs /\
    map snd ms = map (option_map fst) (spread ch (snd (deliver (truth_delay c) (untrue d) (compact fs ch)))).
Proof.
  induction fs as [|[f li] fs IH]; intros d d' ms R; cbn [run] in R.
  - injection R as <- <-. exists []. auto.
  - unfold detection_step in R at 1. unfold detection_update in R. cbn [fst snd] in R. cbn [sampling].
    destruct (due (now f) (d_previous d) (update_duration c)) eqn:DUE.
    + destruct (find (own c) (statuses f)) as [ego|]; [|discriminate].
      destruct (select c li (where_ ego) (d_plane d) (statuses f)) as [chosen kept].
      destruct (release (now f) (detection_delay c) (undetected d ++ [(chosen, now f)])) as [q1 out1].
      destruct (match out1 with Some _ => _ | None => _ end) as [n msg1].
      destruct (release (now f) (truth_delay c) (untrue d ++ [(chosen, now f)])) as [q2 out2] eqn:REL.
      destruct (run _ _ fs) as [[d2 ms2]|] eqn:R2; [|discriminate]. injection R as <- <-.
      destruct (IH _ _ _ R2) as (ch & E1 & E2 & E3). cbn [d_previous d_plane untrue] in *.
      rewrite E1. exists (Some chosen :: ch). split; [reflexivity|]. split; [simpl; auto|].
      cbn [compact deliver fst push]. rewrite REL.
      destruct (deliver (truth_delay c) q2 (compact fs ch)) as [q3 outs]. cbn [snd spread map] in *.
      rewrite E3. reflexivity.
    + destruct (run _ _ fs) as [[d2 ms2]|] eqn:R2; [|discriminate]. injection R as <- <-.
      destruct (IH _ _ _ R2) as (ch & E1 & E2 & E3). rewrite E1. exists (None :: ch).
      split; [reflexivity|]. split; [simpl; auto|]. cbn [compact spread map snd]. rewrite E3. reflexivity.
Qed.

(** Other delays: the same samples. *)
Lemma sampling_run c fs : forall d ch,
  sampling c (d_previous d) (d_plane d) fs = Some ch -> exists d' ms, run (det_step c) d fs = Some (d', ms).
Proof.
  induction fs as [|[f li] fs IH]; intros d ch S; cbn [run].
  - eauto.
  - unfold detection_step at 1. unfold detection_update. cbn [fst snd]. cbn [sampling] in S.
    destruct (due (now f) (d_previous d) (update_duration c)) eqn:DUE.
    + destruct (find (own c) (statuses f)) as [ego|]; [|discriminate].
      destruct (select c li (where_ ego) (d_plane d) (statuses f)) as [chosen kept].
      destruct (release (now f) (detection_delay c) (undetected d ++ [(chosen, now f)])) as [q1 out1].
      destruct (match out1 with Some _ => _ | None => _ end) as [n msg1].
      destruct (release (now f) (truth_delay c) (untrue d ++ [(chosen, now f)])) as [q2 out2] eqn:REL.
      destruct (sampling c (now f) kept fs) as [ch'|] eqn:S'; [|discriminate].
      destruct (IH (Detection (now f) kept q1 q2 n) ch' S') as (d' & ms & ->). eauto.
    + destruct (sampling c (d_previous d) (d_plane d) fs) as [ch'|] eqn:S'; [|discriminate].
      destruct (IH d ch' S') as (d' & ms & ->). eauto.
Qed.

Lemma deliver_all {B : Type} delay (l : list (Q * option B)) : delay <= 0 ->
  (forall x, In x l -> snd x <> None) ->
  deliver delay [] l = ([], map (fun x => option_map (fun a => (a, fst x)) (snd x)) l).
Proof.
  intros D. induction l as [|[t [a|]] l IH]; intros A; simpl.
  - reflexivity.
  - replace (Qle_bool delay (t - t)) with true by (symmetry; apply Qle_bool_iff; lra).
    rewrite IH; auto. intros x X. apply A. simpl. auto.
  - exfalso. apply (A (t, None)); simpl; auto.
Qed.

Lemma compact_some {B : Type} (fs : list (frame G * list nat)) : forall (ch : list (option B)) x,
  In x (compact fs ch) -> snd x <> None.
Proof.
  induction fs as [|f fs IH]; intros [|[b|] ch] x I; simpl in I; try contradiction.
  - destruct I as [<-|I]; [discriminate|eauto].
  - eauto.
Qed.

Lemma spread_all {B : Type} (fs : list (frame G * list nat)) : forall (ch : list (option B)),
  List.length ch = List.length fs ->
  map (option_map fst) (spread ch (map (fun x => option_map (fun a => (a, fst x)) (snd x)) (compact fs ch))) = ch.
Proof.
  induction fs as [|f fs IH]; intros [|[b|] ch] L; simpl in *; try discriminate; auto.
  - f_equal. apply IH. congruence.
  - f_equal. apply IH. congruence.
Qed.

(** The message of each frame: the noise on what is due. *)
Fixpoint noisy (c : detection_config) (n : N) (fs : list (frame G * list nat))
  (ch : list (option (list (status G)))) (outs : list (option (list (status G) * Q)))
  : list (option (list (status G))) :=
  match fs, ch, outs with
  | x :: fs, Some _ :: ch, Some (a, t) :: outs =>
      match find (own c) (statuses (fst x)) with
      | Some ego => let (n, l) := noise (where_ ego) n a t in Some l :: noisy c n fs ch outs
      | None => []
      end
  | _ :: fs, Some _ :: ch, None :: outs => None :: noisy c n fs ch outs
  | _ :: fs, None :: ch, outs => None :: noisy c n fs ch outs
  | _, _, _ => []
  end.

Lemma run_noisy c fs : forall d d' ms ch,
  run (det_step c) d fs = Some (d', ms) -> sampling c (d_previous d) (d_plane d) fs = Some ch ->
  map fst ms =
  noisy c (d_noise d) fs ch (snd (deliver (detection_delay c) (undetected d) (compact fs ch))).
Proof.
  induction fs as [|[f li] fs IH]; intros d d' ms ch R S; cbn [run] in R.
  - injection R as <- <-. cbn [sampling] in S. injection S as <-. reflexivity.
  - unfold detection_step in R at 1. unfold detection_update in R. cbn [fst snd] in R. cbn [sampling] in S.
    destruct (due (now f) (d_previous d) (update_duration c)) eqn:DUE.
    + destruct (find (own c) (statuses f)) as [ego|] eqn:EGO; [|discriminate].
      destruct (select c li (where_ ego) (d_plane d) (statuses f)) as [chosen kept].
      destruct (sampling c (now f) kept fs) as [ch'|] eqn:S'; [|discriminate]. injection S as <-.
      cbn [compact deliver fst push].
      destruct (release (now f) (detection_delay c) (undetected d ++ [(chosen, now f)])) as [q1 out1] eqn:REL.
      destruct (release (now f) (truth_delay c) (untrue d ++ [(chosen, now f)])) as [q2 out2].
      destruct out1 as [[a t]|].
      * destruct (noise (where_ ego) (d_noise d) a t) as [n l] eqn:NO.
        destruct (run _ _ fs) as [[d2 ms2]|] eqn:R2; [|discriminate]. injection R as <- <-.
        specialize (IH _ _ _ ch' R2 S'). cbn [undetected d_noise] in IH.
        destruct (deliver (detection_delay c) q1 (compact fs ch')) as [q3 outs]. cbn [snd noisy map fst] in *.
        rewrite EGO, NO, IH. reflexivity.
      * destruct (run _ _ fs) as [[d2 ms2]|] eqn:R2; [|discriminate]. injection R as <- <-.
        specialize (IH _ _ _ ch' R2 S'). cbn [undetected d_noise] in IH.
        destruct (deliver (detection_delay c) q1 (compact fs ch')) as [q3 outs]. cbn [snd noisy map fst] in *.
        rewrite IH. reflexivity.
    + destruct (sampling c (d_previous d) (d_plane d) fs) as [ch'|] eqn:S'; [|discriminate]. injection S as <-.
      destruct (run _ _ fs) as [[d2 ms2]|] eqn:R2; [|discriminate]. injection R as <- <-.
      cbn [compact noisy map fst]. f_equal. eauto.
Qed.
End detection.

(** ** Positions *)

Lemma numbered_shift {B : Type} (l : list (option B)) : forall n,
  numbered (S n) l = map (fun x => (S (fst x), snd x)) (numbered n l).
Proof.
  induction l as [|[b|] l IH]; intros n; simpl; auto. f_equal. auto.
Qed.

Lemma numbered_all {B : Type} (l : list (option B)) : (forall o, In o l -> o <> None) -> forall n,
  map fst (numbered n l) = seq n (List.length l).
Proof.
  induction l as [|[b|] l IH]; intros A n; simpl; auto.
  - f_equal. apply IH. intros o O. apply A. simpl. auto.
  - exfalso. apply (A None); simpl; auto.
Qed.

Definition time_of {G : geometry} (fs : list (frame G * list nat)) (i : nat) : Q :=
  match nth_error fs i with Some x => now (fst x) | None => 0 end.

Lemma compact_numbered {G : geometry} {B : Type} (fs : list (frame G * list nat)) : forall (ch : list (option B)),
  List.length ch = List.length fs ->
  compact fs ch = map (fun x => (time_of fs (fst x), Some (snd x))) (numbered 0 ch).
Proof.
  induction fs as [|f fs IH]; intros [|[b|] ch] L; simpl in L; try discriminate; auto.
  - cbn [compact numbered map fst snd]. rewrite numbered_shift, map_map, IH by lia. reflexivity.
  - cbn [compact numbered]. rewrite numbered_shift, map_map, IH by lia. reflexivity.
Qed.

Lemma spread_nth {B C : Type} (ch : list (option B)) : forall (outs : list (option C)) k j x,
  List.length outs = List.length (numbered 0 ch) ->
  nth_error (numbered 0 outs) k = Some (j, x) ->
  exists i b, nth_error (numbered 0 ch) j = Some (i, b) /\ nth_error (numbered 0 (spread ch outs)) k = Some (i, x).
Proof.
  induction ch as [|[b|] ch IH]; intros outs k j x L E; cbn [numbered] in L.
  - destruct outs; [|discriminate]. destruct k; discriminate.
  - destruct outs as [|o outs]; [discriminate|]. rewrite numbered_shift in L. cbn [List.length] in L.
    rewrite map_length in L. cbn [spread]. cbn [numbered]. rewrite (numbered_shift ch).
    destruct o as [y|]; cbn [numbered] in *; rewrite numbered_shift in E; rewrite numbered_shift.
    + destruct k; cbn [nth_error] in *.
      * injection E as <- <-. exists 0%nat, b. auto.
      * rewrite nth_error_map in E. destruct (nth_error (numbered 0 outs) k) as [[j' y']|] eqn:E'; [|discriminate].
        injection E as <- <-. destruct (IH outs k j' y' ltac:(lia) E') as (i & b' & E1 & E2).
        exists (S i), b'. cbn [nth_error fst snd]. rewrite !nth_error_map, E1, E2. auto.
    + rewrite nth_error_map in E. destruct (nth_error (numbered 0 outs) k) as [[j' y']|] eqn:E'; [|discriminate].
      injection E as <- <-. destruct (IH outs k j' y' ltac:(lia) E') as (i & b' & E1 & E2).
      exists (S i), b'. cbn [nth_error fst snd]. rewrite !nth_error_map, E1, E2. auto.
  - rewrite numbered_shift in L. rewrite map_length in L. cbn [spread numbered]. rewrite (numbered_shift ch), (numbered_shift (spread ch outs)).
    destruct (IH outs k j x L E) as (i & b' & E1 & E2). exists (S i), b'. rewrite !nth_error_map, E1, E2. auto.
Qed.

Lemma spread_length {B C : Type} (ch : list (option B)) : forall (outs : list (option C)),
  List.length outs = List.length (numbered 0 ch) ->
  List.length (numbered 0 (spread ch outs)) = List.length (numbered 0 outs).
Proof.
  induction ch as [|[b|] ch IH]; intros outs L; cbn [numbered] in L.
  - destruct outs; [reflexivity|discriminate].
  - destruct outs as [|o outs]; [discriminate|]. rewrite numbered_shift in L. cbn [List.length] in L.
    rewrite map_length in L. cbn [spread numbered]. destruct o; cbn [List.length];
      rewrite !(numbered_shift _ 0), !map_length, IH; lia.
  - rewrite numbered_shift in L. rewrite map_length in L. cbn [spread numbered].
    rewrite numbered_shift, map_length. auto.
Qed.

Lemma numbered_option_map {B C : Type} (f : B -> C) (l : list (option B)) : forall n,
  numbered n (map (option_map f) l) = map (fun x => (fst x, f (snd x))) (numbered n l).
Proof. induction l as [|[b|] l IH]; intros n; simpl; auto. f_equal. auto. Qed.

(** What was handed on of the samples, and when. *)
Lemma handed_samples {G : geometry} {B : Type} (fs : list (frame G * list nat)) (ch : list (option B)) delay :
  List.length ch = List.length fs ->
  let P0 := numbered 0 ch in
  let outs := snd (deliver delay [] (compact fs ch)) in
  List.length outs = List.length P0 /\
  handed_on delay (map (fun x => time_of fs (fst x)) P0) (seq 0 (List.length P0)) (map fst (numbered 0 outs)) /\
  forall k j x, nth_error (numbered 0 outs) k = Some (j, x) ->
    exists i, nth_error P0 k = Some (i, fst x) /\ snd x = time_of fs i.
Proof.
  intros L. cbv zeta. destruct (deliver delay [] (compact fs ch)) as [q outs] eqn:D. cbn [snd].
  pose proof (deliver_length _ _ _ _ _ D) as LEN. pose proof (compact_numbered fs ch L) as C.
  destruct (deliver_spec _ _ _ _ D) as [F H].
  assert (ALL : forall o, In o (map (fun x => option_map (fun a => (a, fst x)) (snd x)) (compact fs ch)) -> o <> None).
  { intros o O. apply in_map_iff in O. destruct O as (x & <- & I). rewrite C in I. apply in_map_iff in I.
    destruct I as (y & <- & _). discriminate. }
  assert (E1 : map fst (pushes 0 (compact fs ch)) = seq 0 (List.length (numbered 0 ch))).
  { unfold pushes. rewrite numbered_all by auto. rewrite C, !map_length. reflexivity. }
  assert (E2 : map fst (compact fs ch) = map (fun x => time_of fs (fst x)) (numbered 0 ch)).
  { rewrite C, map_map. reflexivity. }
  assert (E3 : map snd (pushes 0 (compact fs ch)) = map (fun x => (snd x, time_of fs (fst x))) (numbered 0 ch)).
  { rewrite C. unfold pushes. rewrite map_map. cbn [snd fst option_map].
    generalize (numbered 0 ch) as l. generalize 0%nat as n.
    intros n l. revert n. induction l as [|y l IH]; intros n; [reflexivity|]. cbn. f_equal. apply IH. }
  split; [rewrite LEN, C, map_length; reflexivity|].
  rewrite E1, E2 in H. split; [exact H|].
  intros k j x K. rewrite E3 in F.
  assert (X : nth_error (map (fun x => (snd x, time_of fs (fst x))) (numbered 0 ch)) k = Some x).
  { rewrite <- F, nth_error_app1.
    - rewrite nth_error_map, K. reflexivity.
    - rewrite map_length. apply nth_error_Some. congruence. }
  rewrite nth_error_map in X. destruct (nth_error (numbered 0 ch) k) as [[i b]|] eqn:Y; [|discriminate].
  injection X as <-. exists i. auto.
Qed.
