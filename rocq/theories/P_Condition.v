From Coq Require Import ZArith List Bool Lia Arith FinFun.
From Verif Require Import M_Storyboard M_Condition S_Condition.
Import ListNotations.
Local Open Scope Z_scope.

Lemma edge_eq_dec_sticky (e : edge) : {e = Sticky} + {e <> Sticky}.
Proof. destruct e; (now left) || (right; discriminate). Defined.

Section Hist.
Variables (t : nat -> Z) (v : nat -> bool).
Hypothesis mono : monotone t.

Definition sample (i : nat) : hist := {| h_time := t i; h_result := v i |}.

(** [F] is the number of evaluations up to [n] that are not later than [t n - d]. *)
Definition cut (d : Z) (n F : nat) : Prop :=
  (F <= S n)%nat /\ (forall i, (i < F)%nat -> t i <= t n - d) /\
  (forall i, (F <= i <= n)%nat -> t n - d < t i).

Lemma find_later_spec L m : forall s,
  let k := find_later L (map sample (seq s m)) in
  (k <= m)%nat /\ (forall i, (s <= i < s + k)%nat -> t i <= L) /\
  (forall i, (s + k <= i < s + m)%nat -> L < t i).
Proof.
  induction m as [|m IH]; intros s; cbn [seq map find_later].
  - split; [lia|]. split; intros i Hi; lia.
  - cbn [h_time sample]. destruct (Z.ltb_spec L (t s)) as [Hl|Hl].
    + split; [lia|]. split; [intros i Hi; lia|].
      intros i Hi. pose proof (mono s i ltac:(lia)). lia.
    + destruct (IH (S s)) as (A & B & C).
      split; [lia|]. split.
      * intros i Hi. destruct (Nat.eq_dec i s) as [->|]; [lia|]. apply B. lia.
      * intros i Hi. apply C. lia.
Qed.

Lemma result_at_sample s m i :
  (i < m)%nat -> result_at (map sample (seq s m)) i = v (s + i).
Proof.
  intros Hi. unfold result_at. rewrite nth_error_map.
  replace (nth_error (seq s m) i) with (Some (s + i)%nat); [reflexivity|].
  symmetry. rewrite (nth_error_nth' _ 0%nat) by (rewrite seq_length; lia).
  now rewrite seq_nth by lia.
Qed.

Lemma skipn_seq j : forall s m, (j <= m)%nat -> skipn j (seq s m) = seq (s + j) (m - j).
Proof.
  induction j as [|j IH]; intros s m Hj.
  - cbn [skipn]. now rewrite Nat.add_0_r, Nat.sub_0_r.
  - destruct m as [|m]; [lia|]. cbn [seq skipn]. rewrite IH by lia.
    f_equal; lia.
Qed.

Variables (e : edge) (d : Z).

Definition val (prev : bool) (F : nat) : bool :=
  if (arity e <=? F)%nat then edge_fun e prev (v (F - 1)) (v (F - 2)) else false.

(** The invariant after [n] evaluations: the stored history is the suffix from evaluation [s] on;
    anything discarded lies before the entries that are still needed. *)
Definition hist_inv (n : nat) (c : condition) : Prop :=
  c_edge c = e /\ c_delay c = d /\
  exists s, (s <= n)%nat /\ c_hist c = map sample (seq s (n - s)) /\
    (s = 0%nat \/ (s + arity e <= n /\ 0 < n)%nat /\ t (s + arity e - 1)%nat <= t (n - 1)%nat - d).

Lemma step_inv n c : hist_inv n c ->
  let c' := update_condition c (t n) (v n) in
  hist_inv (S n) c' /\
  exists F, cut d n F /\ c_value c' = val (c_value c) F /\
    (length (c_hist c') <= arity e + (S n - F))%nat.
Proof.
  intros (He & Hd & s & Hs & Hh & Hk). cbn zeta.
  set (h := c_hist c ++ [ {| h_time := t n; h_result := v n |} ]).
  assert (Eh : h = map sample (seq s (S n - s))).
  { unfold h. rewrite Hh. replace (S n - s)%nat with (n - s + 1)%nat by lia.
    rewrite seq_app, map_app. replace (s + (n - s))%nat with n by lia. reflexivity. }
  pose proof (find_later_spec (t n - d) (S n - s) s) as HF.
  set (k := find_later (t n - d) (map sample (seq s (S n - s)))) in *.
  cbn zeta in HF. destruct HF as (K1 & K2 & K3).
  assert (Har : (1 <= arity e <= 2)%nat) by (destruct e; cbn; lia).
  assert (Cut : cut d n (s + k)).
  { split; [lia|]. split.
    - intros i Hi. destruct (Nat.lt_ge_cases i s) as [Lt|Ge]; [|apply K2; lia].
      destruct Hk as [->|((H1 & H2) & H3)]; [lia|].
      pose proof (mono i (s + arity e - 1)%nat ltac:(lia)).
      pose proof (mono (n - 1)%nat n ltac:(lia)). lia.
    - intros i Hi. apply K3. lia. }
  assert (Big : (s = 0 \/ arity e <= k)%nat).
  { destruct Hk as [->|((H1 & H2) & H3)]; [now left|right].
    destruct (Nat.lt_ge_cases k (arity e)) as [Lt|Ge]; [|lia].
    pose proof (K3 (s + arity e - 1)%nat ltac:(lia)).
    pose proof (mono (n - 1)%nat n ltac:(lia)). lia. }
  unfold update_condition. fold h. rewrite Eh, He, Hd. fold k.
  destruct (Nat.leb_spec (arity e) k) as [Hle|Hgt].
  - split.
    + split; [reflexivity|]. split; [reflexivity|]. cbn [c_hist].
      exists (s + (k - arity e))%nat. split; [lia|]. split.
      * rewrite <- map_skipn || rewrite skipn_map. rewrite skipn_seq by lia. do 2 f_equal; lia.
      * right. split; [lia|].
        replace (s + (k - arity e) + arity e - 1)%nat with (s + k - 1)%nat by lia.
        replace (S n - 1)%nat with n by lia. apply K2. lia.
    + exists (s + k)%nat. split; [exact Cut|]. cbn [c_value c_hist]. split.
      * unfold val. destruct (Nat.leb_spec (arity e) (s + k)); [|lia].
        rewrite result_at_sample by lia.
        replace (s + (k - 1))%nat with (s + k - 1)%nat by lia.
        assert (E2 : (2 <= arity e)%nat ->
                     result_at (map sample (seq s (S n - s))) (k - 2) = v (s + k - 2)).
        { intros. rewrite result_at_sample by lia. f_equal. lia. }
        destruct e; cbn [edge_fun arity] in *; rewrite ?E2 by lia; reflexivity.
      * rewrite skipn_length, map_length, seq_length. lia.
  - destruct Big as [->|]; [|lia]. split.
    + split; [reflexivity|]. split; [reflexivity|]. exists 0%nat. split; [lia|].
      split; [reflexivity|now left].
    + exists (0 + k)%nat. split; [exact Cut|]. cbn [c_value c_hist]. split.
      * unfold val. destruct (Nat.leb_spec (arity e) (0 + k)); [lia|reflexivity].
      * rewrite map_length, seq_length. lia.
Qed.

Lemma run_inv n : hist_inv n (run_condition t v n (make_condition e d)).
Proof.
  induction n as [|n IH].
  - split; [reflexivity|]. split; [reflexivity|]. exists 0%nat.
    split; [lia|]. split; [reflexivity|now left].
  - exact (proj1 (step_inv n _ IH)).
Qed.

Lemma cut_latest n F k : cut d n F -> latest t d n k <-> F = S k.
Proof.
  intros (A & B & C). split.
  - intros (L1 & L2 & L3).
    destruct (Nat.lt_trichotomy F (S k)) as [H|[H|H]]; [|exact H|].
    + pose proof (C k ltac:(lia)). lia.
    + pose proof (L3 (S k) ltac:(lia)). pose proof (B (S k) H). lia.
  - intros ->. split; [lia|]. split; [apply B; lia|]. intros j Hj. apply C. lia.
Qed.

Lemma answer_spec n : answer e d t v n = true <-> spec_answer e t v d n.
Proof.
  unfold answer.
  assert (Stk : e = Sticky -> forall m, (m <= n)%nat ->
    c_value (run_condition t v (S m) (make_condition e d)) = true <-> spec_answer Sticky t v d m).
  { intros Ee. induction m as [|m IH]; intros Hm.
    - destruct (step_inv 0 _ (run_inv 0)) as (_ & F & HF & Hv & _).
      cbn [run_condition] in *. rewrite Hv. unfold val. rewrite Ee. cbn [arity edge_fun make_condition c_value orb].
      cbn [spec_answer]. split.
      + destruct (Nat.leb_spec 1 F) as [H1|H1]; [|discriminate]. intros HvF.
        exists 0%nat, (F - 1)%nat. split; [lia|]. split; [|exact HvF].
        apply (cut_latest _ _ _ HF). lia.
      + intros (m' & k & Hm' & HL & Hvk). assert (m' = 0)%nat as -> by lia.
        apply (cut_latest _ _ _ HF) in HL. subst F. cbn [Nat.leb Nat.sub].
        now rewrite Nat.sub_0_r.
    - specialize (IH ltac:(lia)).
      destruct (step_inv (S m) _ (run_inv (S m))) as (_ & F & HF & Hv & _).
      change (run_condition t v (S (S m)) (make_condition e d)) with
        (update_condition (run_condition t v (S m) (make_condition e d)) (t (S m)) (v (S m))).
      rewrite Hv. unfold val.
      replace (arity e) with 1%nat by (now rewrite Ee).
      replace (edge_fun e) with (edge_fun Sticky) by (now rewrite Ee). cbn [edge_fun].
      destruct (Nat.leb_spec 1 F) as [H1|H1].
      + rewrite orb_true_iff, IH. cbn [spec_answer]. split.
        * intros [(m' & k & Hm' & HL & Hvk)|HvF].
          -- exists m', k. split; [lia|]. now split.
          -- exists (S m), (F - 1)%nat. split; [lia|]. split; [|exact HvF].
             apply (cut_latest _ _ _ HF). lia.
        * intros (m' & k & Hm' & HL & Hvk).
          destruct (Nat.eq_dec m' (S m)) as [->|Hne].
          -- right. apply (cut_latest _ _ _ HF) in HL. subst F. cbn [Nat.sub].
             now rewrite Nat.sub_0_r.
          -- left. exists m', k. split; [lia|]. now split.
      + split; [discriminate|]. cbn [spec_answer]. intros (m' & k & Hm' & (L1 & L2 & L3) & _).
        destruct HF as (_ & _ & C). pose proof (C 0%nat ltac:(lia)).
        pose proof (mono 0%nat k ltac:(lia)). pose proof (mono m' (S m) Hm'). lia. }
  destruct (step_inv n _ (run_inv n)) as (_ & F & HF & Hv & _).
  change (run_condition t v (S n) (make_condition e d)) with
    (update_condition (run_condition t v n (make_condition e d)) (t n) (v n)) in *.
  assert (Two : (2 <= F)%nat -> latest t d n (S (F - 2))).
  { intros H. apply (cut_latest _ _ _ HF). lia. }
  assert (B2 : forall k, latest t d n (S k) -> F = S (S k)).
  { intros k HL. now apply (cut_latest _ _ _ HF) in HL. }
  destruct (edge_eq_dec_sticky e) as [Es|Hns]; [rewrite Es in *; now apply Stk|].
  rewrite Hv. unfold val. clear Stk Hv.
  destruct e; cbn [arity edge_fun spec_answer] in *; try congruence.
  - split.
    + destruct (Nat.leb_spec 2 F) as [H|H]; [|discriminate]. intros Hb.
      apply andb_true_iff in Hb as [Ha Hb]. apply negb_true_iff in Hb.
      exists (F - 2)%nat. split; [now apply Two|].
      replace (S (F - 2)) with (F - 1)%nat by lia. now split.
    + intros (k & HL & Ha & Hb). apply B2 in HL. subst F. cbn [Nat.leb Nat.sub].
      rewrite Nat.sub_0_r. now rewrite Ha, Hb.
  - split.
    + destruct (Nat.leb_spec 2 F) as [H|H]; [|discriminate]. intros Hb.
      apply andb_true_iff in Hb as [Ha Hb]. apply negb_true_iff in Ha.
      exists (F - 2)%nat. split; [now apply Two|].
      replace (S (F - 2)) with (F - 1)%nat by lia. now split.
    + intros (k & HL & Ha & Hb). apply B2 in HL. subst F. cbn [Nat.leb Nat.sub].
      rewrite Nat.sub_0_r. now rewrite Ha, Hb.
  - split.
    + destruct (Nat.leb_spec 2 F) as [H|H]; [|discriminate]. intros Hb.
      exists (F - 2)%nat. split; [now apply Two|].
      replace (S (F - 2)) with (F - 1)%nat by lia.
      destruct (v (F - 1)), (v (F - 2)); cbn in Hb; congruence.
    + intros (k & HL & Hab). apply B2 in HL. subst F. cbn [Nat.leb Nat.sub].
      rewrite Nat.sub_0_r. destruct (v (S k)), (v k); cbn; congruence.
  - split.
    + destruct (Nat.leb_spec 1 F) as [H|H]; [|discriminate]. intros Hb.
      exists (F - 1)%nat. split; [|exact Hb]. apply (cut_latest _ _ _ HF). lia.
    + intros (k & HL & Ha). apply (cut_latest _ _ _ HF) in HL. subst F. cbn [Nat.leb Nat.sub].
      now rewrite Nat.sub_0_r.
Qed.

End Hist.

Lemma filter_all {A} (f : A -> bool) l : (forall x, In x l -> f x = true) -> filter f l = l.
Proof.
  induction l as [|x l IH]; intros H; [reflexivity|]. cbn [filter].
  rewrite (H x (or_introl eq_refl)). f_equal. apply IH. intros y Hy. apply H. now right.
Qed.

Lemma app_inv_len {A} (a b c d : list A) :
  a ++ b = c ++ d -> length a = length c -> a = c /\ b = d.
Proof.
  revert c. induction a as [|x a IH]; intros [|y c] H L; try discriminate; [now split|].
  injection H as -> H. injection L as L. destruct (IH c H L) as [-> ->]. now split.
Qed.

(** ** Triggers *)

Definition order_from (g : nat) (l : list group) : list name :=
  concat (map (fun '(g, gr) => map (fun i => (g, i)) (seq 0 (length (g_conds gr))))
              (combine (seq g (length l)) l)).

Lemma order_from_cons g gr l :
  order_from g (gr :: l) = map (fun i => (g, i)) (seq 0 (length (g_conds gr))) ++ order_from (S g) l.
Proof. reflexivity. Qed.

Lemma eval_conds_asked o now g l : forall i acc asked r asked' l',
  eval_conds o now g i acc asked l = (r, asked', l') ->
  asked' = rev (map (fun j => (g, j)) (seq i (length l))) ++ asked /\ length l' = length l /\
  r = acc && forallb c_value l'.
Proof.
  induction l as [|c l IH]; intros i acc asked r asked' l' H; cbn [eval_conds] in H.
  - injection H as <- <- <-. split; [reflexivity|]. split; [reflexivity|]. now rewrite andb_true_r.
  - destruct (eval_conds _ _ _ _ _ _ l) as [[r0 a0] l0] eqn:E. injection H as <- <- <-.
    apply IH in E as (E1 & E2 & E3). split.
    + rewrite E1. cbn [length seq map rev]. now rewrite <- app_assoc.
    + split; [cbn; now rewrite E2|]. rewrite E3. cbn [forallb]. now rewrite andb_assoc.
Qed.

Lemma eval_groups_asked o now l : forall g acc asked r asked' l',
  eval_groups o now g acc asked l = (r, asked', l') -> asked' = rev (order_from g l) ++ asked.
Proof.
  induction l as [|gr l IH]; intros g acc asked r asked' l' H; cbn [eval_groups] in H.
  - injection H as <- <- <-. reflexivity.
  - unfold eval_group in H.
    destruct (eval_conds o now g 0 true asked (g_conds gr)) as [[r0 a0] l0] eqn:E.
    destruct (eval_groups o now (S g) (acc || r0) a0 l) as [[r1 a1] l1] eqn:E1.
    injection H as <- <- <-. apply eval_conds_asked in E as (E & _). apply IH in E1.
    rewrite E1, E, order_from_cons, rev_app_distr. now rewrite app_assoc.
Qed.

Lemma eval_groups_value o now l : forall g acc asked r asked' l',
  eval_groups o now g acc asked l = (r, asked', l') ->
  length l' = length l /\ r = acc || existsb (fun gr => forallb c_value (g_conds gr)) l'.
Proof.
  induction l as [|gr l IH]; intros g acc asked r asked' l' H; cbn [eval_groups] in H.
  - injection H as <- <- <-. split; [reflexivity|]. now rewrite orb_false_r.
  - unfold eval_group in H.
    destruct (eval_conds o now g 0 true asked (g_conds gr)) as [[r0 a0] l0] eqn:E.
    destruct (eval_groups o now (S g) (acc || r0) a0 l) as [[r1 a1] l1] eqn:E1.
    injection H as <- <- <-. apply eval_conds_asked in E as (_ & _ & E). apply IH in E1 as [E1 E2].
    split; [cbn; now rewrite E1|]. rewrite E2. cbn [existsb g_conds]. rewrite E. cbn [andb].
    now rewrite orb_assoc.
Qed.

Lemma order_from_in g l n : In n (order_from g l) -> (g <= fst n)%nat.
Proof.
  revert g. induction l as [|gr l IH]; intros g; [intros []|].
  rewrite order_from_cons. intros H. apply in_app_or in H as [H|H].
  - apply in_map_iff in H as (i & <- & _). cbn. lia.
  - apply IH in H. lia.
Qed.

Lemma NoDup_app_intro {A} (l1 l2 : list A) :
  NoDup l1 -> NoDup l2 -> (forall x, In x l1 -> In x l2 -> False) -> NoDup (l1 ++ l2).
Proof.
  induction l1 as [|x l1 IH]; intros H1 H2 H; [exact H2|]. inversion H1; subst. cbn. constructor.
  - intros Hi. apply in_app_or in Hi as [Hi|Hi]; [contradiction|]. apply (H x); [now left|exact Hi].
  - apply IH; auto. intros y Hy. apply H. now right.
Qed.

Lemma document_order_nodup tr : NoDup (document_order tr).
Proof.
  unfold document_order. generalize 0%nat at 2. induction (tr_groups tr) as [|gr l IH]; intros g.
  - constructor.
  - change (NoDup (order_from g (gr :: l))). rewrite order_from_cons.
    apply NoDup_app_intro; [|apply IH|].
    + apply Injective_map_NoDup; [|apply seq_NoDup]. intros i j E. now injection E.
    + intros n Hn Hn'. apply order_from_in in Hn'. apply in_map_iff in Hn as (i & <- & _).
      cbn in Hn'. lia.
Qed.

Lemma eval_conds_nth o now g l : forall i acc asked r asked' l' j c,
  eval_conds o now g i acc asked l = (r, asked', l') -> nth_error l j = Some c ->
  nth_error l' j = Some (update_condition c now
     (o (rev (map (fun k => (g, k)) (seq i j)) ++ asked) (g, (i + j)%nat))).
Proof.
  induction l as [|c0 l IH]; intros i acc asked r asked' l' j c H Hj; cbn [eval_conds] in H.
  - now destruct j.
  - destruct (eval_conds _ _ _ _ _ _ l) as [[r0 a0] l0] eqn:E. injection H as <- <- <-.
    destruct j as [|j].
    + injection Hj as ->. cbn. now rewrite Nat.add_0_r.
    + cbn [nth_error] in *. rewrite (IH _ _ _ _ _ _ _ _ E Hj). cbn [seq map rev].
      rewrite <- app_assoc. cbn [app]. now replace (S i + j)%nat with (i + S j)%nat by lia.
Qed.

Definition cond_from (g : nat) (l : list group) (n : name) : option condition :=
  match nth_error l (fst n - g) with Some gr => nth_error (g_conds gr) (snd n) | None => None end.

Lemma order_from_split g gr l before n after :
  order_from g (gr :: l) = before ++ n :: after ->
  (exists j, (j < length (g_conds gr))%nat /\ n = (g, j) /\ before = map (fun i => (g, i)) (seq 0 j))
  \/ (exists before', before = map (fun i => (g, i)) (seq 0 (length (g_conds gr))) ++ before' /\
        order_from (S g) l = before' ++ n :: after).
Proof.
  rewrite order_from_cons. remember (length (g_conds gr)) as m. clear Heqm.
  generalize (order_from (S g) l) as rest. intros rest H.
  destruct (Nat.lt_ge_cases (length before) m) as [Hlt|Hge].
  - left. exists (length before). split; [exact Hlt|].
    assert (Hs : map (fun i => (g, i)) (seq 0 m) =
                 map (fun i => (g, i)) (seq 0 (length before)) ++
                 (g, length before) :: map (fun i => (g, i)) (seq (S (length before)) (m - S (length before)))).
    { replace m with (length before + S (m - S (length before)))%nat at 1 by lia.
      rewrite seq_app, map_app. reflexivity. }
    rewrite Hs, <- app_assoc in H. cbn [app] in H.
    apply app_inv_len in H as [H1 H2]; [|now rewrite map_length, seq_length].
    injection H2 as H2 _. now split.
  - right. exists (skipn m before).
    assert (Hb : before = firstn m before ++ skipn m before) by now rewrite firstn_skipn.
    rewrite Hb, <- app_assoc in H.
    apply app_inv_len in H as [H1 H2].
    + split; [|exact H2]. rewrite H1. symmetry. exact (firstn_skipn m before).
    + rewrite map_length, seq_length, firstn_length. lia.
Qed.

Lemma eval_groups_conds o now l : forall g acc asked r asked' l',
  eval_groups o now g acc asked l = (r, asked', l') ->
  forall before n after c,
  order_from g l = before ++ n :: after -> cond_from g l n = Some c ->
  cond_from g l' n = Some (update_condition c now (o (rev before ++ asked) n)).
Proof.
  induction l as [|gr l IH]; intros g acc asked r asked' l' H before n after c Hd Hc;
    cbn [eval_groups] in H.
  - now destruct before.
  - unfold eval_group in H.
    destruct (eval_conds o now g 0 true asked (g_conds gr)) as [[r0 a0] l0] eqn:E.
    destruct (eval_groups o now (S g) (acc || r0) a0 l) as [[r1 a1] l1] eqn:E1.
    injection H as <- <- <-.
    destruct (order_from_split _ _ _ _ _ _ Hd) as [(j & Hj & -> & ->)|(before' & -> & Hd')].
    + unfold cond_from in *. cbn [fst snd] in *. rewrite Nat.sub_diag in *. cbn [nth_error g_conds] in *.
      exact (eval_conds_nth _ _ _ _ _ _ _ _ _ _ _ _ E Hc).
    + assert (Hn : (S g <= fst n)%nat).
      { apply (order_from_in (S g) l). rewrite Hd'. apply in_or_app. right. now left. }
      assert (Hs : (fst n - g = S (fst n - S g))%nat) by lia.
      unfold cond_from in *. rewrite Hs in *. cbn [nth_error] in *.
      rewrite (IH _ _ _ _ _ _ E1 _ _ _ _ Hd' Hc).
      apply eval_conds_asked in E as (-> & _). now rewrite rev_app_distr, app_assoc.
Qed.

(** ** State condition *)

Lemma state_eqb_refl s : state_eqb s s = true.
Proof. now destruct s. Qed.
Lemma state_eqb_eq a b : state_eqb a b = true -> a = b.
Proof. now destruct a, b. Qed.

Lemma srun_sees ops : forall el c el' c' bs,
  srun el c ops = (el', c', bs) ->
  sc_state c' = sc_state c /\
  (sc_current c = sc_state c \/ visited ops (sc_state c) -> sc_current c' = sc_state c) /\
  (el' = sc_state c -> el = sc_state c \/ visited ops (sc_state c)) /\
  (sc_current c' = sc_state c ->
     sc_current c = sc_state c \/ el = sc_state c \/ visited ops (sc_state c)).
Proof.
  induction ops as [|op ops IH]; intros el c el' c' bs H; cbn [srun] in H.
  - injection H as <- <- <-. split; [reflexivity|]. cbn [visited]. split; [tauto|]. split; tauto.
  - destruct op as [s|]; cbn [sstep visited] in *.
    + destruct (state_eqb s (sc_state c)) eqn:Es.
      * destruct (srun s _ ops) as [[e1 c1] b1] eqn:E. injection H as <- <- <-.
        apply IH in E. cbn [sc_state sc_current] in E. apply state_eqb_eq in Es.
        destruct E as (A & B & C & D). split; [exact A|]. split; [intros _; apply B; now left|].
        split; intros _; auto.
      * destruct (srun s c ops) as [[e1 c1] b1] eqn:E. injection H as <- <- <-.
        apply IH in E as (A & B & C & D). split; [exact A|].
        assert (s <> sc_state c) by (intros ->; now rewrite state_eqb_refl in Es).
        split; [intros [X|[X|X]]; auto; contradiction|]. split.
        -- intros X. destruct (C X) as [X'|X']; auto.
        -- intros X. destruct (D X) as [X'|[X'|X']]; auto.
    + destruct (state_eqb (sc_current c) (sc_state c)) eqn:Es.
      * destruct (srun el c ops) as [[e1 c1] b1] eqn:E. injection H as <- <- <-.
        apply IH in E as (A & B & C & D). now repeat split.
      * destruct (srun el _ ops) as [[e1 c1] b1] eqn:E. injection H as <- <- <-.
        apply IH in E. cbn [sc_state sc_current] in E. destruct E as (A & B & C & D).
        assert (sc_current c <> sc_state c) by (intros X; now rewrite X, state_eqb_refl in Es).
        split; [exact A|]. split; [intros [X|X]; [contradiction|apply B; now right]|].
        split; [exact C|]. intros X. destruct (D X) as [X'|[X'|X']]; auto.
Qed.

(** ** Quantifiers *)

Lemma all_of_forallb {A} (f : A -> bool) l : fst (all_of f l) = forallb f l.
Proof.
  induction l as [|x l IH]; [reflexivity|]. cbn. destruct (f x); [|reflexivity].
  destruct (all_of f l). exact IH.
Qed.
Lemma any_of_existsb {A} (f : A -> bool) l : fst (any_of f l) = existsb f l.
Proof.
  induction l as [|x l IH]; [reflexivity|]. cbn. destruct (f x); [reflexivity|].
  destruct (any_of f l). exact IH.
Qed.
