(** * Proofs about traffic signal controllers. *)
From Coq Require Import ZArith List Bool Lia Arith.
From Verif Require Import M_Signal S_Signal.
Import ListNotations.
Local Open Scope Z_scope.

Lemma upd_length {A} (l : list A) i f : length (upd l i f) = length l.
Proof. revert i; induction l; intros [|i]; simpl; auto. Qed.
Lemma nth_upd_same {A} (l : list A) i f d : (i < length l)%nat -> nth i (upd l i f) d = f (nth i l d).
Proof. revert i; induction l; intros [|i] H; simpl in *; try lia; auto. apply IHl; lia. Qed.
Lemma nth_upd_other {A} (l : list A) i j f d : i <> j -> nth j (upd l i f) d = nth j l d.
Proof. revert i j; induction l; intros [|i] [|j] H; simpl in *; try lia; auto. Qed.
Lemma upd_out {A} (l : list A) i f : (length l <= i)%nat -> upd l i f = l.
Proof. revert i; induction l; intros [|i] H; simpl in *; try lia; auto. f_equal. apply IHl; lia. Qed.

Lemma emits_ctrls l s : ctrls (emits l s) = ctrls s.
Proof. unfold emits. revert s; induction l; simpl; intros; auto. rewrite IHl. reflexivity. Qed.
Lemma emits_out l s : out (emits l s) = rev l ++ out s.
Proof.
  unfold emits. revert s; induction l; simpl; intros; auto. rewrite IHl. simpl. rewrite <- app_assoc. reflexivity.
Qed.
Lemma emits_ctrl l s j : ctrl (emits l s) j = ctrl s j.
Proof. unfold ctrl. rewrite emits_ctrls. reflexivity. Qed.

Definition mk (s : system) : list output := filter is_mark (out s).

Lemma filter_rev' {A} (f : A -> bool) l : filter f (rev l) = rev (filter f l).
Proof.
  induction l; simpl; auto. rewrite filter_app, IHl. simpl. destruct (f a); simpl; auto.
  rewrite app_nil_r. reflexivity.
Qed.
Lemma marks_mk s : marks s = rev (mk s).
Proof. unfold marks, history, mk. apply filter_rev'. Qed.

Definition quiet (l : list output) : Prop := forall o, In o l -> is_mark o = false.
Lemma filter_quiet l : quiet l -> filter is_mark l = [].
Proof.
  unfold quiet. induction l; simpl; intros H; auto. rewrite (H a) by auto. apply IHl. auto.
Qed.
Lemma emits_mk l s : quiet l -> mk (emits l s) = mk s.
Proof.
  intros H. unfold mk. rewrite emits_out, filter_app, filter_quiet; auto.
  intros o Ho. apply H. apply in_rev. auto.
Qed.

(** static fields *)
Definition same_static (a b : controller) : Prop :=
  k_delay a = k_delay b /\ k_ref a = k_ref b /\ k_phases a = k_phases b /\ k_observers a = k_observers b.
Lemma same_static_refl a : same_static a a.
Proof. repeat split. Qed.
Lemma same_static_trans a b c : same_static a b -> same_static b c -> same_static a c.
Proof. unfold same_static. intuition congruence. Qed.

Section K.
Variable tps : Z.
Variable enabled : Z -> bool.

Lemma ctrl_modify s c f j :
  ctrl (modify s c f) j = if (j =? c)%nat && (c <? length (ctrls s))%nat then f (ctrl s c) else ctrl s j.
Proof.
  unfold ctrl, modify; simpl. destruct (Nat.eqb_spec j c); simpl.
  - subst. destruct (Nat.ltb_spec c (length (ctrls s))).
    + apply nth_upd_same; auto.
    + rewrite upd_out; auto.
  - apply nth_upd_other; auto.
Qed.

Lemma predict_quiet k left first acc i cur : quiet (predict tps enabled k left first acc i cur).
Proof.
  revert first acc i cur; induction left; simpl; intros first acc i cur o H; [contradiction|].
  destruct (phase_at k _) as [p|]; [|contradiction].
  destruct acc as [a|]; [|contradiction]. destruct (ph_dur p) as [d|]; [|contradiction].
  destruct (first && _); [contradiction|].
  apply in_app_or in H. destruct H as [H|H].
  - apply in_concat in H. destruct H as (x & Hx & Ho). apply in_map_iff in Hx.
    destruct Hx as ((id, sts) & <- & _). apply in_map_iff in Ho. destruct Ho as (st & <- & _). reflexivity.
  - eapply IHleft; eauto.
Qed.

Definition notify_all now obs s := fold_left (notify_begin now) obs s.

Lemma notify_all_spec now obs s :
  let s' := notify_all now obs s in
  length (ctrls s') = length (ctrls s) /\ out s' = out s /\
  forall j, (j < length (ctrls s))%nat ->
    same_static (ctrl s' j) (ctrl s j) /\
    k_current (ctrl s' j) = k_current (ctrl s j) /\ k_started (ctrl s' j) = k_started (ctrl s j) /\
    k_begin (ctrl s' j) = if existsb (Nat.eqb j) obs then Some (now + k_delay (ctrl s j)) else k_begin (ctrl s j).
Proof.
  unfold notify_all. revert s; induction obs as [|o obs IH]; simpl; intros s.
  - repeat split.
  - specialize (IH (notify_begin now s o)). cbv zeta in IH. destruct IH as (L & O & H).
    assert (L0 : length (ctrls (notify_begin now s o)) = length (ctrls s))
      by (unfold notify_begin, modify; simpl; apply upd_length).
    split; [etransitivity; [exact L|exact L0]|]. split; [rewrite O; reflexivity|].
    intros j Hj. specialize (H j ltac:(lia)). destruct H as (S0 & C & T & B).
    assert (E : ctrl (notify_begin now s o) j = if (j =? o)%nat then
              {| k_delay := k_delay (ctrl s j); k_ref := k_ref (ctrl s j); k_phases := k_phases (ctrl s j);
                 k_current := k_current (ctrl s j); k_begin := Some (now + k_delay (ctrl s j));
                 k_started := k_started (ctrl s j); k_observers := k_observers (ctrl s j) |} else ctrl s j).
    { unfold notify_begin. rewrite ctrl_modify. destruct (Nat.eqb_spec j o) as [E|NE]; simpl; [|reflexivity].
      subst o. destruct (Nat.ltb_spec j (length (ctrls s))) as [_|G]; [reflexivity|lia]. }
    rewrite E in S0, C, T, B.
    destruct (j =? o)%nat; simpl in *.
    +      split; [exact S0|]. split; [exact C|]. split; [exact T|]. rewrite B.
      destruct (existsb _ obs); reflexivity.
    + split; [exact S0|]. split; [exact C|]. split; [exact T|]. exact B.
Qed.

Lemma clear_states_quiet p : quiet (map OClear (ph_signals p)).
Proof. intros o H. apply in_map_iff in H. destruct H as (x & <- & _). reflexivity. Qed.
Lemma add_states_quiet p : quiet (map OAdd (ph_signals p)).
Proof. intros o H. apply in_map_iff in H. destruct H as (x & <- & _). reflexivity. Qed.

Lemma update_predictions_ctrls now s c : ctrls (update_predictions tps enabled now s c) = ctrls s.
Proof.
  unfold update_predictions. destruct (phase_at _ _); auto. apply emits_ctrls.
Qed.
Lemma update_predictions_mk now s c : mk (update_predictions tps enabled now s c) = mk s.
Proof.
  unfold update_predictions. destruct (phase_at _ _); auto. apply emits_mk.
  intros o [<-|Ho]; [reflexivity|]. eapply predict_quiet; eauto.
Qed.

Lemma change_phase_spec now s c next :
  (c < length (ctrls s))%nat ->
  let s' := change_phase tps enabled now s c next in
  length (ctrls s') = length (ctrls s) /\
  mk s' = (match phase_at (ctrl s c) next with Some _ => [OBegin c next now] | None => [] end) ++ mk s /\
  forall j, (j < length (ctrls s))%nat ->
    same_static (ctrl s' j) (ctrl s j) /\
    k_current (ctrl s' j) = (if (j =? c)%nat then next else k_current (ctrl s j)) /\
    k_started (ctrl s' j) = (if (j =? c)%nat then now else k_started (ctrl s j)) /\
    k_begin (ctrl s' j) = (if (next =? 0)%nat && existsb (Nat.eqb j) (k_observers (ctrl s c))
                           then Some (now + k_delay (ctrl s j)) else k_begin (ctrl s j)).
Proof.
  intros Hc. unfold change_phase.
  set (s1 := if (next =? 0)%nat then _ else s).
  assert (H1 : length (ctrls s1) = length (ctrls s) /\ out s1 = out s /\
    forall j, (j < length (ctrls s))%nat ->
    same_static (ctrl s1 j) (ctrl s j) /\
    k_current (ctrl s1 j) = k_current (ctrl s j) /\ k_started (ctrl s1 j) = k_started (ctrl s j) /\
    k_begin (ctrl s1 j) = (if (next =? 0)%nat && existsb (Nat.eqb j) (k_observers (ctrl s c))
                           then Some (now + k_delay (ctrl s j)) else k_begin (ctrl s j))).
  { subst s1. destruct (next =? 0)%nat; simpl.
    - apply notify_all_spec.
    - repeat split. }
  clearbody s1. destruct H1 as (L1 & O1 & H1).
  set (s2 := match phase_at (ctrl s1 c) _ with Some p => _ | None => s1 end).
  assert (H2 : ctrls s2 = ctrls s1 /\ mk s2 = mk s1).
  { subst s2. destruct (phase_at _ _); auto. unfold clear_states.
    rewrite emits_ctrls, emits_mk; auto using clear_states_quiet. }
  clearbody s2. destruct H2 as (C2 & M2).
  match goal with |- context [modify s2 c ?f] => set (s3 := modify s2 c f) end.
  assert (L3 : length (ctrls s3) = length (ctrls s)).
  { subst s3. unfold modify; simpl. rewrite upd_length, C2. auto. }
  assert (H3 : mk s3 = mk s /\ forall j, (j < length (ctrls s))%nat ->
    same_static (ctrl s3 j) (ctrl s j) /\
    k_current (ctrl s3 j) = (if (j =? c)%nat then next else k_current (ctrl s j)) /\
    k_started (ctrl s3 j) = (if (j =? c)%nat then now else k_started (ctrl s j)) /\
    k_begin (ctrl s3 j) = (if (next =? 0)%nat && existsb (Nat.eqb j) (k_observers (ctrl s c))
                           then Some (now + k_delay (ctrl s j)) else k_begin (ctrl s j))).
  { split.
    - subst s3. transitivity (mk s2); [reflexivity|]. rewrite M2. unfold mk. rewrite O1. reflexivity.
    - intros j Hj. subst s3. rewrite ctrl_modify. rewrite C2, L1.
      destruct (Nat.ltb_spec c (length (ctrls s))); [|lia].
      assert (E : forall j, ctrl s2 j = ctrl s1 j) by (intros; unfold ctrl; rewrite C2; reflexivity).
      destruct (Nat.eqb_spec j c) as [->|NE]; simpl; rewrite E.
      + destruct (H1 c Hj) as (A & B & C & D). destruct A as (A1 & A2 & A3 & A4).
        repeat split; simpl; auto.
      + destruct (H1 j Hj) as (A & B & C & D). auto. }
  clearbody s3. destruct H3 as (M3 & H3).
  assert (PE : phase_at (ctrl s3 c) next = phase_at (ctrl s c) next).
  { unfold phase_at. destruct (H3 c Hc) as ((_ & _ & A & _) & _). rewrite A. reflexivity. }
  rewrite PE. destruct (phase_at (ctrl s c) next) as [p|] eqn:EP.
  - unfold evaluate_phase, clear_states.
    set (s4 := update_predictions _ _ _ _ _).
    assert (H4 : ctrls s4 = ctrls s3 /\ mk s4 = OBegin c next now :: mk s3).
    { subst s4. rewrite update_predictions_ctrls, update_predictions_mk. split; reflexivity. }
    clearbody s4. destruct H4 as (C4 & M4).
    rewrite !emits_ctrls, !emits_mk by auto using clear_states_quiet, add_states_quiet.
    split; [congruence|]. split; [rewrite M4, M3; reflexivity|].
    intros j Hj. rewrite !emits_ctrl.
    assert (E : ctrl s4 j = ctrl s3 j) by (unfold ctrl; rewrite C4; reflexivity). rewrite E. auto.
  - split; [auto|]. split; [exact M3|]. auto.
Qed.

(** ** Evaluation *)
Definition move (now : Z) (k : controller) : option nat :=
  if should_begin now k then Some 0%nat
  else if exceeded now k then Some (circular_next (length (k_phases k)) (k_current k))
  else None.

Definition begun (s : system) (c : nat) (now : Z) (m : option nat) : list output :=
  match m with
  | Some i => match phase_at (ctrl s c) i with Some _ => [OBegin c i now] | None => [] end
  | None => []
  end.

Lemma evaluate_spec now s c :
  (c < length (ctrls s))%nat ->
  let s' := evaluate tps enabled now s c in
  let m := move now (ctrl s c) in
  length (ctrls s') = length (ctrls s) /\
  mk s' = begun s c now m ++ OEval c now :: mk s /\
  forall j, (j < length (ctrls s))%nat ->
    same_static (ctrl s' j) (ctrl s j) /\
    k_current (ctrl s' j) = (if (j =? c)%nat then match m with Some i => i | None => k_current (ctrl s j) end
                             else k_current (ctrl s j)) /\
    k_started (ctrl s' j) = (if (j =? c)%nat then match m with Some i => now | None => k_started (ctrl s j) end
                             else k_started (ctrl s j)) /\
    k_begin (ctrl s' j) =
      (if match m with Some i => (i =? 0)%nat | None => false end && existsb (Nat.eqb j) (k_observers (ctrl s c))
       then Some (now + k_delay (ctrl s j))
       else if (j =? c)%nat && should_begin now (ctrl s c) then k_begin (served (ctrl s c))
       else k_begin (ctrl s j)).
Proof.
  intros Hc. unfold evaluate, move. change (ctrl (emit (OEval c now) s) c) with (ctrl s c). cbv zeta.
  set (s0 := emit (OEval c now) s).
  assert (L0 : length (ctrls s0) = length (ctrls s)) by reflexivity.
  destruct (should_begin now (ctrl s c)) eqn:SB.
  - set (s1 := modify s0 c served).
    assert (L1 : length (ctrls s1) = length (ctrls s)) by (unfold s1, modify; simpl; apply upd_length).
    assert (E1 : forall j, ctrl s1 j = if (j =? c)%nat then served (ctrl s c) else ctrl s j).
    { intros j. unfold s1. rewrite ctrl_modify. rewrite L0.
      destruct (Nat.ltb_spec c (length (ctrls s))); [|lia].
      destruct (j =? c)%nat; reflexivity. }
    assert (SS : same_static (served (ctrl s c)) (ctrl s c)).
    { unfold served. destruct (k_ref (ctrl s c)) eqn:E; repeat split; simpl; auto. }
    destruct (change_phase_spec now s1 c 0 ltac:(lia)) as (L & M & H).
    split; [congruence|]. split.
    + rewrite M. simpl. rewrite E1, Nat.eqb_refl. unfold phase_at. destruct SS as (_ & _ & -> & _).
      reflexivity.
    + intros j Hj. destruct (H j ltac:(lia)) as (A & B & C & D).
      rewrite B, C, D. rewrite E1 in A. rewrite !E1, (Nat.eqb_refl c).
      destruct SS as (S1 & S2 & S3 & S4).
      rewrite S4. destruct (Nat.eqb_spec j c) as [E|NE]; simpl; [subst j; rewrite S1|].
      * split; [eapply same_static_trans; [exact A|repeat split; auto]|]. auto.
      * auto.
  - destruct (exceeded now (ctrl s c)) eqn:EX.
    + destruct (change_phase_spec now s0 c
                  (circular_next (length (k_phases (ctrl s c))) (k_current (ctrl s c))) ltac:(rewrite L0; auto))
        as (L & M & H).
      split; [congruence|]. split.
      * rewrite M. reflexivity.
      * intros j Hj. destruct (H j ltac:(lia)) as (A & B & C & D).
        split; [exact A|]. rewrite B, C, D, andb_false_r.
        change (ctrl s0 c) with (ctrl s c). change (ctrl s0 j) with (ctrl s j). auto.
    + split; [reflexivity|]. split; [reflexivity|].
      intros j Hj. rewrite andb_false_r. change (ctrl s0 j) with (ctrl s j). simpl.
      destruct (j =? c)%nat; repeat split.
Qed.
End K.

(** ** Construction *)
Lemma add_observers_spec xs L :
  length (fold_left add_observer xs L) = length L /\
  forall j, (j < length L)%nat ->
    let k := nth j (fold_left add_observer xs L) none in
    k_delay k = k_delay (nth j L none) /\ k_ref k = k_ref (nth j L none) /\
    k_phases k = k_phases (nth j L none) /\ k_current k = k_current (nth j L none) /\
    k_begin k = k_begin (nth j L none) /\ k_started k = k_started (nth j L none) /\
    forall i, In i (k_observers k) <-> In i (k_observers (nth j L none)) \/ In (i, Some j) xs.
Proof.
  revert L; induction xs as [|[i0 r0] xs IH]; intros L; simpl.
  - split; [reflexivity|]. intros j Hj. repeat split; auto. intros [H|[]]; auto.
  - destruct (IH (add_observer L (i0, r0))) as (Len & H).
    assert (L1 : length (add_observer L (i0, r0)) = length L).
    { unfold add_observer; simpl. destruct r0; auto. apply upd_length. }
    split; [congruence|]. intros j Hj. specialize (H j ltac:(lia)). cbv zeta in H.
    destruct H as (A & B & C & D & E & F & G).
    unfold add_observer in A, B, C, D, E, F, G; simpl in A, B, C, D, E, F, G.
    destruct r0 as [r|].
    + destruct (Nat.eq_dec r j) as [->|NE].
      * rewrite nth_upd_same in A, B, C, D, E, F, G by auto. simpl in *.
        do 6 (split; auto). intros i. rewrite G. rewrite in_app_iff. simpl. 
        split; [intros [[?|[?|[]]]|?]; subst; auto|intros [?|[X|?]]; auto]. inversion X; auto.
      * rewrite nth_upd_other in A, B, C, D, E, F, G by auto.
        do 6 (split; auto). intros i. rewrite G. split; [intuition|intros [?|[X|?]]; auto].
        inversion X; congruence.
    + do 6 (split; auto). intros i. rewrite G. split; [intuition|intros [?|[X|?]]; auto]. inversion X.
Qed.

Definition Good (l : list spec) (s : system) : Prop :=
  length (ctrls s) = length l /\
  forall j d r ps, nth_error l j = Some (d, r, ps) ->
    k_delay (ctrl s j) = d /\ k_ref (ctrl s j) = r /\ k_phases (ctrl s j) = ps /\
    forall i, In i (k_observers (ctrl s j)) <-> exists d' ps', nth_error l i = Some (d', Some j, ps').

Lemma combine_seq_in {A} (l : list A) i x n :
  In (i, x) (combine (seq n (length l)) l) <-> (n <= i)%nat /\ nth_error l (i - n) = Some x.
Proof.
  revert n; induction l; simpl; intros n.
  - split; [tauto|]. intros [_ H]. destruct (i - n)%nat; discriminate.
  - rewrite IHl. split.
    + intros [H|[H1 H2]].
      * inversion H; subst. rewrite Nat.sub_diag. simpl. auto.
      * split; [lia|]. replace (i - n)%nat with (S (i - S n)) by lia. auto.
    + intros [H1 H2]. destruct (Nat.eq_dec i n).
      * subst. rewrite Nat.sub_diag in H2. simpl in H2. left. congruence.
      * right. split; [lia|]. replace (i - n)%nat with (S (i - S n)) in H2 by lia. auto.
Qed.

Lemma init_spec l :
  Good l (init l) /\
  forall j d r ps, nth_error l j = Some (d, r, ps) ->
    k_current (ctrl (init l) j) = length ps /\ k_begin (ctrl (init l) j) = None /\ k_started (ctrl (init l) j) = 0.
Proof.
  unfold init, Good, ctrl; simpl.
  set (xs := combine _ _).
  destruct (add_observers_spec xs (map make l)) as (Len & H). rewrite map_length in *.
  assert (H' : forall j d r ps, nth_error l j = Some (d, r, ps) -> nth j (map make l) none = make (d, r, ps)).
  { intros j d r ps E. apply nth_error_nth. rewrite nth_error_map, E. reflexivity. }
  split.
  - split; [auto|]. intros j d r ps E. pose proof (nth_error_Some l j) as NS.
    specialize (H j ltac:(apply NS; congruence)). cbv zeta in H. rewrite (H' _ _ _ _ E) in H. simpl in H.
    destruct H as (A & B & C & _ & _ & _ & G). repeat split; auto.
    + intros Hi. apply G in Hi. destruct Hi as [[]|Hi]. unfold xs in Hi.
      replace (length l) with (length (map (fun x : spec => snd (fst x)) l)) in Hi by apply map_length.
      apply combine_seq_in in Hi. destruct Hi as [_ Hi]. rewrite Nat.sub_0_r, nth_error_map in Hi.
      change (@nth_error (Z * option nat * list phase) l i) with (@nth_error spec l i) in Hi.
      destruct (nth_error l i) as [[[d1 r1] ps1]|] eqn:EE; simpl in Hi; [|discriminate]. inversion Hi; subst. eauto.
    + intros (d' & ps' & Hi). apply G. right. unfold xs.
      replace (length l) with (length (map (fun x : spec => snd (fst x)) l)) by apply map_length.
      apply combine_seq_in. split; [lia|]. rewrite Nat.sub_0_r, nth_error_map.
      change (@nth_error (Z * option nat * list phase) l i) with (@nth_error spec l i). rewrite Hi. reflexivity.
  - intros j d r ps E. pose proof (nth_error_Some l j) as NS.
    specialize (H j ltac:(apply NS; congruence)). cbv zeta in H. rewrite (H' _ _ _ _ E) in H. simpl in H. tauto.
Qed.

Lemma Good_static l s s' : Good l s -> length (ctrls s') = length (ctrls s) ->
  (forall j, (j < length (ctrls s))%nat -> same_static (ctrl s' j) (ctrl s j)) -> Good l s'.
Proof.
  intros [L H] L' SS. split; [congruence|]. intros j d r ps E.
  assert (Hj : (j < length (ctrls s))%nat) by (rewrite L; apply nth_error_Some; congruence).
  destruct (SS j Hj) as (A & B & C & D). destruct (H j d r ps E) as (A' & B' & C' & D').
  rewrite A, B, C, D. auto.
Qed.

Section R.
Variable tps : Z.
Variable enabled : Z -> bool.

(** Changes made by an action. *)
Lemma action_cases now s c name :
  step tps enabled s (Action now c name) = s \/
  exists i, (c < length (ctrls s))%nat /\ phase_at (ctrl s c) i <> None /\
            step tps enabled s (Action now c name) = change_phase tps enabled now s c i.
Proof.
  simpl. unfold change_phase_to. destruct (find_phase _ _ _) as [i|] eqn:E; simpl; auto.
  right. exists i.
  assert (FP : forall l n i0, find_phase l name n = Some i0 -> (n <= i0)%nat /\ nth_error l (i0 - n) <> None).
  { clear. induction l; simpl; [discriminate|]. intros n i0. destruct (ph_name a =? name)%nat.
    - intros H; inversion H; subst. rewrite Nat.sub_diag. simpl. split; [lia|discriminate].
    - intros H. apply IHl in H. destruct H. split; [lia|].
      replace (i0 - n)%nat with (S (i0 - S n)) by lia. auto. }
  apply FP in E. destruct E as [_ E]. rewrite Nat.sub_0_r in E. split; [|auto].
  destruct (Nat.ltb_spec c (length (ctrls s))); auto.
  unfold ctrl in E. rewrite nth_overflow in E by auto. simpl in E. destruct i; simpl in E; congruence.
Qed.

Lemma evaluate_Good l now s c : (c < length l)%nat -> Good l s -> Good l (evaluate tps enabled now s c).
Proof.
  intros Hc G. destruct (evaluate_spec tps enabled now s c) as (L & _ & H); [rewrite (proj1 G); auto|].
  eapply Good_static; eauto. intros j Hj. apply H; auto.
Qed.
Lemma evaluates_Good l now cs s : (forall c, In c cs -> (c < length l)%nat) -> Good l s ->
  Good l (fold_left (evaluate tps enabled now) cs s).
Proof.
  revert s; induction cs; simpl; intros s H G; auto. apply IHcs; auto. apply evaluate_Good; auto.
Qed.
Lemma step_Good l e s : Good l s -> Good l (step tps enabled s e).
Proof.
  intros G. destruct e as [now|now c name].
  - simpl. unfold evaluate_all. apply evaluates_Good; auto. intros c Hc. apply in_seq in Hc.
    rewrite (proj1 G) in Hc. lia.
  - destruct (action_cases now s c name) as [E|(i & Hc & _ & E)]; rewrite E; auto.
    destruct (change_phase_spec tps enabled now s c i Hc) as (L & _ & H).
    eapply Good_static; eauto. intros j Hj. apply H; auto.
Qed.
Lemma run_Good l es s : Good l s -> Good l (run tps enabled es s).
Proof. unfold run. revert s; induction es; simpl; auto using step_Good. Qed.
End R.

(** ** An unreferenced controller on its own *)
Lemma begins_app c a b : begins c (a ++ b) = begins c a ++ begins c b.
Proof.
  induction a as [|o a IH]; simpl; auto. destruct o; auto. destruct (_ =? c)%nat; simpl; congruence.
Qed.
Lemma begins_marks c h : begins c (filter is_mark h) = begins c h.
Proof. induction h as [|o h IH]; simpl; auto. destruct o; simpl; auto. destruct (_ =? c)%nat; congruence. Qed.
Definition nb (c : nat) (s : system) : list (nat * Z) := begins c (rev (mk s)).
Lemma nb_history c s : begins c (history s) = nb c s.
Proof. unfold nb. rewrite <- marks_mk. unfold marks. symmetry. apply begins_marks. Qed.

Definition lstate := (nat * Z * list (nat * Z))%type.
Definition lstep (ps : list phase) (x : lstate) (now : Z) : lstate :=
  let '(cur, st, h) := x in
  if (cur =? length ps)%nat then (0%nat, now, h ++ [(0%nat, now)])
  else match nth_error ps cur with
       | Some p =>
           match ph_dur p with
           | Dur d => if d <=? now - st
                      then (circular_next (length ps) cur, now, h ++ [(circular_next (length ps) cur, now)])
                      else x
           | Forever => x
           end
       | None => x
       end.
Definition lrun (ps : list phase) (ts : list Z) : lstate := fold_left (lstep ps) ts (length ps, 0, []).
Definition local (c : nat) (s : system) : lstate := (k_current (ctrl s c), k_started (ctrl s c), nb c s).

Lemma circular_next_lt n i : (0 < n)%nat -> (i <= n)%nat -> (circular_next n i < n)%nat.
Proof.
  unfold circular_next. intros. destruct (Nat.eqb_spec i n); [lia|]. destruct (Nat.eqb_spec (S i) n); lia.
Qed.
Lemma circular_next_mod n i : (i < n)%nat -> circular_next n i = (S i mod n)%nat.
Proof.
  unfold circular_next. intros. destruct (Nat.eqb_spec i n); [lia|]. destruct (Nat.eqb_spec (S i) n).
  - subst. rewrite Nat.mod_same; lia.
  - rewrite Nat.mod_small; lia.
Qed.

Section L.
Variable tps : Z.
Variable enabled : Z -> bool.
Variable l : list spec.
Variables (c : nat) (d : Z) (ps : list phase).
Hypothesis Ec : nth_error l c = Some (d, None, ps).
Hypothesis NE : ps <> [].

Lemma c_lt : (c < length l)%nat.
Proof. apply nth_error_Some. congruence. Qed.

Lemma n_pos : (0 < length ps)%nat.
Proof. destruct (length ps) eqn:E; [|lia]. apply length_zero_iff_nil in E. contradiction. Qed.

Lemma evaluate_other now s j : Good l s -> (j < length l)%nat -> j <> c ->
  local c (evaluate tps enabled now s j) = local c s.
Proof.
  intros G Hj N. destruct (evaluate_spec tps enabled now s j) as (L & M & H); [rewrite (proj1 G); auto|].
  unfold local, nb. rewrite M. destruct (H c) as (_ & A & B & _); [rewrite (proj1 G); apply c_lt|].
  rewrite A, B. destruct (Nat.eqb_spec c j); [congruence|]. f_equal.
  rewrite rev_app_distr, begins_app. simpl. rewrite begins_app. simpl. rewrite app_nil_r.
  replace (begins c (rev (begun s j now (move now (ctrl s j))))) with (@nil (nat * Z)); [apply app_nil_r|].
  unfold begun. destruct (move _ _); [|reflexivity]. destruct (phase_at _ _); [|reflexivity]. simpl.
  destruct (Nat.eqb_spec j c); [congruence|reflexivity].
Qed.

Lemma evaluates_other now js s : Good l s -> (forall j, In j js -> (j < length l)%nat /\ j <> c) ->
  local c (fold_left (evaluate tps enabled now) js s) = local c s /\
  Good l (fold_left (evaluate tps enabled now) js s).
Proof.
  revert s; induction js; simpl; intros s G H; auto.
  destruct (H a) as (A & B); auto.
  destruct (IHjs (evaluate tps enabled now s a)) as (X & Y); auto.
  - apply evaluate_Good; auto.
  - split; auto. rewrite X. apply evaluate_other; auto.
Qed.

Lemma evaluate_self now s : Good l s -> (k_current (ctrl s c) <= length ps)%nat ->
  local c (evaluate tps enabled now s c) = lstep ps (local c s) now.
Proof.
  intros G Hcur. pose proof c_lt as Hc.
  destruct (evaluate_spec tps enabled now s c) as (L & M & H); [rewrite (proj1 G); auto|].
  destruct (H c) as (_ & A & B & _); [rewrite (proj1 G); auto|].
  unfold local, nb. rewrite A, B, M, Nat.eqb_refl.
  destruct (proj2 G _ _ _ _ Ec) as (_ & R & P & _).
  rewrite rev_app_distr, begins_app. simpl. rewrite begins_app. simpl. rewrite app_nil_r.
  unfold begun, move, should_begin, exceeded, phase_at. rewrite R, P.
  pose proof n_pos.
  destruct (Nat.eqb_spec (k_current (ctrl s c)) (length ps)) as [E|N].
  - destruct (nth_error ps 0) eqn:E0; [|apply nth_error_None in E0; lia]. simpl. rewrite Nat.eqb_refl. reflexivity.
  - destruct (nth_error ps (k_current (ctrl s c))) as [p|] eqn:EP; [|rewrite app_nil_r; reflexivity].
    destruct (ph_dur p) as [d0|]; [|rewrite app_nil_r; reflexivity].
    destruct (d0 <=? _); [|rewrite app_nil_r; reflexivity].
    pose proof (circular_next_lt (length ps) (k_current (ctrl s c)) ltac:(lia) ltac:(lia)) as LT.
    apply nth_error_Some in LT. destruct (nth_error ps (circular_next _ _)) eqn:E2; [|congruence].
    simpl. rewrite Nat.eqb_refl. reflexivity.
Qed.

Lemma lstep_cur x now : (fst (fst x) <= length ps)%nat -> (fst (fst (lstep ps x now)) <= length ps)%nat.
Proof.
  destruct x as [[cur st] h]. simpl. intros H.
  pose proof n_pos.
  destruct (_ =? _)%nat; simpl; [lia|].
  destruct (nth_error ps cur) as [p|]; auto. destruct (ph_dur p); auto. destruct (_ <=? _); auto.
  simpl. pose proof (circular_next_lt (length ps) cur). lia.
Qed.

Lemma frame_local now s : Good l s -> (k_current (ctrl s c) <= length ps)%nat ->
  local c (step tps enabled s (Frame now)) = lstep ps (local c s) now.
Proof.
  intros G Hcur. simpl. unfold evaluate_all. pose proof c_lt as Hc. rewrite (proj1 G).
  replace (length l) with (c + S (length l - S c))%nat by lia. rewrite seq_app. simpl. rewrite fold_left_app. simpl.
  destruct (evaluates_other now (seq 0 c) s G) as (X & Y).
  { intros j Hj. apply in_seq in Hj. lia. }
  set (s1 := fold_left _ (seq 0 c) s) in *.
  destruct (evaluates_other now (seq (S c) (length l - S c)) (evaluate tps enabled now s1 c)) as (X2 & _).
  { apply evaluate_Good; auto. }
  { intros j Hj. apply in_seq in Hj. lia. }
  etransitivity; [exact X2|]. rewrite evaluate_self; auto.
  - rewrite X. reflexivity.
  - assert (E : k_current (ctrl s1 c) = k_current (ctrl s c)) by (inversion X; auto). rewrite E. auto.
Qed.

Lemma action_local now j name s : Good l s -> j <> c ->
  local c (step tps enabled s (Action now j name)) = local c s.
Proof.
  intros G N. destruct (action_cases tps enabled now s j name) as [E|(i & Hj & _ & E)]; rewrite E; auto.
  destruct (change_phase_spec tps enabled now s j i Hj) as (L & M & H).
  destruct (H c) as (_ & A & B & _); [rewrite (proj1 G); apply c_lt|].
  unfold local, nb. rewrite A, B, M. destruct (Nat.eqb_spec c j); [congruence|]. f_equal.
  rewrite rev_app_distr, begins_app. destruct (phase_at _ _); simpl; [|apply app_nil_r].
  destruct (Nat.eqb_spec j c); [congruence|apply app_nil_r].
Qed.

Lemma run_local_gen es s : Good l s -> (k_current (ctrl s c) <= length ps)%nat -> untouched c es ->
  local c (run tps enabled es s) = fold_left (lstep ps) (frames es) (local c s).
Proof.
  unfold run. revert s; induction es as [|e es IH]; cbn [fold_left frames]; intros s G Hcur U; auto.
  assert (U' : untouched c es) by (intros t n Hin; apply (U t n); simpl; auto).
  destruct e as [now|now j name].
  - cbn [fold_left]. rewrite IH; auto.
    + rewrite frame_local; auto.
    + apply step_Good; auto.
    + pose proof (frame_local now s G Hcur) as F.
      pose proof (lstep_cur (local c s) now Hcur) as Q. rewrite <- F in Q. exact Q.
  - assert (N : j <> c) by (intros ->; apply (U now name); simpl; auto).
    pose proof (action_local now j name s G N) as A.
    rewrite IH; auto.
    + rewrite A. reflexivity.
    + apply step_Good; auto.
    + assert (E : k_current (ctrl (step tps enabled s (Action now j name)) c) = k_current (ctrl s c))
        by (inversion A; auto). rewrite E. auto.
Qed.

Lemma run_local es : untouched c es -> local c (run tps enabled es (init l)) = lrun ps (frames es).
Proof.
  intros U. destruct (init_spec l) as (G & I). destruct (I _ _ _ _ Ec) as (A & B & C).
  rewrite run_local_gen; auto; [|lia]. unfold local, lrun. rewrite A, C. reflexivity.
Qed.
End L.

(** ** Properties of the local machine *)
Lemma lrun_snoc ps ts t : lrun ps (ts ++ [t]) = lstep ps (lrun ps ts) t.
Proof. unfold lrun. rewrite fold_left_app. reflexivity. Qed.

Lemma nth_error_snoc {A} (h : list A) x k y :
  nth_error (h ++ [x]) k = Some y -> nth_error h k = Some y \/ (k = length h /\ y = x).
Proof.
  intros H. destruct (Nat.lt_ge_cases k (length h)).
  - rewrite nth_error_app1 in H by auto. auto.
  - rewrite nth_error_app2 in H by auto. destruct (k - length h)%nat eqn:E; simpl in H.
    + inversion H; subst. right; split; auto. lia.
    + destruct n; discriminate.
Qed.
Lemma nth_error_snoc_last {A} (h : list A) x : nth_error (h ++ [x]) (length h) = Some x.
Proof. rewrite nth_error_app2, Nat.sub_diag; auto. Qed.

Lemma consecutive_snoc {A} (h : list A) z x y : consecutive (h ++ [z]) x y ->
  consecutive h x y \/ (y = z /\ exists h', h = h' ++ [x]).
Proof.
  intros (k & H1 & H2). apply nth_error_snoc in H2. destruct H2 as [H2|[E ->]].
  - left. exists k. split; auto. apply nth_error_snoc in H1. destruct H1 as [H1|[E ->]]; auto.
    assert (S k < length h)%nat by (apply nth_error_Some; congruence). lia.
  - right. split; auto. apply nth_error_snoc in H1. destruct H1 as [H1|[E2 _]]; [|lia].
    apply nth_error_split in H1. destruct H1 as (l1 & l2 & -> & L). rewrite app_length in E. simpl in E.
    destruct l2; [|simpl in E; lia]. exists l1. reflexivity.
Qed.

Record LInv (ps : list phase) (ts : list Z) (x : lstate) : Prop := {
  li_first : match ts with
             | [] => x = (length ps, 0, [])
             | t :: _ => exists h', snd x = (0%nat, t) :: h' end;
  li_last : ts <> [] -> exists h', snd x = h' ++ [fst x] /\ (fst (fst x) < length ps)%nat;
  li_cons : forall i a j b, consecutive (snd x) (i, a) (j, b) ->
     (i < length ps)%nat /\ j = (S i mod length ps)%nat /\ exists d, lasts ps i d /\ d <= b - a;
  li_now : forall ts' t, ts = ts' ++ [t] -> snd (fst x) = t \/
     forall d, lasts ps (fst (fst x)) d -> t - snd (fst x) < d
}.

Lemma lrun_inv ps ts : ps <> [] -> LInv ps ts (lrun ps ts).
Proof.
  intros NE. induction ts as [|t ts IH] using rev_ind.
  - constructor; simpl; auto; try congruence.
    + intros i a j b (k & H & _). destruct k; discriminate.
    + intros ts' t E. destruct ts'; discriminate.
  - rewrite lrun_snoc. destruct IH as [F La Co No].
    destruct (lrun ps ts) as [[cur st] h] eqn:EL. simpl in *.
    assert (P : (0 < length ps)%nat) by (destruct ps; [congruence|simpl; lia]).
    destruct ts as [|t1 ts1].
    + inversion F; subst. rewrite Nat.eqb_refl. simpl. constructor; simpl.
      * eexists; reflexivity.
      * intros _. exists []. auto.
      * intros i a j b (k & H1 & H2). destruct k; simpl in H2; [discriminate|]. destruct k; discriminate.
      * intros ts' t' E. left. destruct ts' as [|? []]; inversion E; auto.
    + destruct (La ltac:(discriminate)) as (h' & EH & LT). simpl in EH. subst h.
      destruct (Nat.eqb_spec cur (length ps)); [lia|].
      pose proof LT as LT'. apply nth_error_Some in LT'. destruct (nth_error ps cur) as [p|] eqn:EP; [|congruence].
      assert (Stay : (forall d, lasts ps cur d -> t - st < d) ->
                LInv ps ((t1 :: ts1) ++ [t]) (cur, st, h' ++ [(cur, st)])).
      { intros Q. constructor; simpl; auto.
        - intros _. exists h'. auto.
        - intros ts' t' E. right. change (t1 :: ts1 ++ [t]) with ((t1 :: ts1) ++ [t]) in E.
          apply app_inj_tail in E. destruct E as [_ ->]. exact Q. }
      destruct (ph_dur p) as [d|] eqn:ED.
      * destruct (Z.leb_spec d (t - st)).
        -- simpl. constructor; simpl.
           ++ destruct F as (h2 & F). rewrite F. eexists. reflexivity.
           ++ intros _. eexists. split; [reflexivity|]. apply circular_next_lt; lia.
           ++ intros i a j b C. apply consecutive_snoc in C. destruct C as [C|(E & h2 & E2)].
              ** apply Co; auto.
              ** inversion E; subst. apply app_inj_tail in E2. destruct E2 as [_ E2]. inversion E2; subst.
                 split; auto. split; [apply circular_next_mod; auto|]. exists d. split; auto. exists p; auto.
           ++ intros ts' t' E. left. change (t1 :: ts1 ++ [t]) with ((t1 :: ts1) ++ [t]) in E.
              apply app_inj_tail in E. destruct E; auto.
        -- apply Stay. intros d' (p' & E1 & E2). rewrite E1 in EP. inversion EP; subst. rewrite E2 in ED.
           inversion ED; subst. lia.
      * apply Stay. intros d' (p' & E1 & E2). rewrite E1 in EP. inversion EP; subst. congruence.
Qed.

Definition lasts_fun : forall ps i d d', lasts ps i d -> lasts ps i d' -> d = d'.
Proof. intros ps i d d' (p & A & B) (q & C & D). rewrite A in C. inversion C; subst. congruence. Qed.

Lemma uniform_snoc t0 dt ts t : uniform t0 dt (ts ++ [t]) ->
  uniform t0 dt ts /\ t = t0 + Z.of_nat (length ts) * dt.
Proof.
  intros H. split.
  - intros k x E. apply H. rewrite nth_error_app1; auto. apply nth_error_Some. congruence.
  - apply H. apply nth_error_snoc_last.
Qed.

(** uniform frames: upper bound on consecutive begins *)
Lemma lrun_uniform ps t0 dt ts : ps <> [] -> 0 < dt -> uniform t0 dt ts ->
  forall i a j b, consecutive (snd (lrun ps ts)) (i, a) (j, b) -> forall d, lasts ps i d -> b - a < d + dt \/ b - a = dt.
Proof.
  intros NE DT. induction ts as [|t ts IH] using rev_ind; intros U i a j b C d L.
  - destruct C as (k & C & _). destruct k; discriminate.
  - apply uniform_snoc in U. destruct U as (U & Et).
    pose proof (lrun_inv ps ts NE) as [F La Co No]. specialize (IH U).
    rewrite lrun_snoc in C. destruct (lrun ps ts) as [[cur st] h] eqn:EL. simpl in *.
    destruct ts as [|t1 ts1].
    { inversion F; subst. rewrite Nat.eqb_refl in C. simpl in C. destruct C as (k & H1 & H2).
      destruct k; simpl in H2; [discriminate|]. destruct k; discriminate. }
    destruct (La ltac:(discriminate)) as (h' & EH & LT). simpl in EH. subst h.
    destruct (Nat.eqb_spec cur (length ps)); [lia|].
    destruct (nth_error ps cur) as [p|] eqn:EP; [|eapply IH; eauto].
    destruct (ph_dur p) as [d0|] eqn:ED; [|eapply IH; eauto].
    destruct (d0 <=? t - st); [|eapply IH; eauto].
    simpl in C. apply consecutive_snoc in C. destruct C as [C|(E & h2 & E2)]; [eapply IH; eauto|].
    inversion E; subst j b. apply app_inj_tail in E2. destruct E2 as [_ E2]. inversion E2; subst i a.
    destruct (@exists_last _ (t1 :: ts1) ltac:(discriminate)) as (ts2 & t2 & E3).
    assert (Et2 : t2 = t - dt).
    { rewrite E3 in U. apply uniform_snoc in U. destruct U as (_ & ->). rewrite Et.
      change (S (length ts1)) with (length (t1 :: ts1)). rewrite E3, app_length. simpl. rewrite Nat2Z.inj_add. simpl. ring. }
    destruct (No _ _ E3) as [Q|Q].
    + right. lia.
    + left. specialize (Q d L). lia.
Qed.

(** ** A referencing controller *)
Section Ref.
Variable tps : Z.
Variable enabled : Z -> bool.
Variable l : list spec.
Variables (c r : nat) (d dr : Z) (ps prs : list phase) (rr : option nat).
Hypothesis Ec : nth_error l c = Some (d, Some r, ps).
Hypothesis Er : nth_error l r = Some (dr, rr, prs).
Hypothesis NEc : ps <> [].
Hypothesis NEr : prs <> [].

(** change_to_begin_time as a function of the history (newest first) *)
Fixpoint pend (m : list output) : option Z :=
  match m with
  | [] => None
  | OBegin j i t :: m' => if (j =? r)%nat && (i =? 0)%nat then Some (t + d) else pend m'
  | OEval j t :: m' =>
      if (j =? c)%nat then match pend m' with Some x => if x <? t then None else Some x | None => None end
      else pend m'
  | _ :: m' => pend m'
  end.

Lemma pend_due m x : pend m = Some x -> exists b, x = b + d /\ due c r d (rev m) b.
Proof.
  revert x; induction m as [|o m IH]; simpl; intros x H; [discriminate|].
  assert (K : forall b, (forall t, o = OEval c t -> t <= b + d) -> (forall t, o <> OBegin r 0 t) ->
              due c r d (rev m) b -> due c r d (rev m ++ [o]) b).
  { intros b K1 K2 (h1 & h2 & E & A & B). exists h1, (h2 ++ [o]). rewrite E, <- app_assoc. split; [reflexivity|]. split.
    - intros t Ht. apply in_app_or in Ht. destruct Ht as [Ht|[->|[]]]; [eapply A; eauto|]. eapply K2; eauto.
    - intros t Ht. apply in_app_or in Ht. destruct Ht as [Ht|[->|[]]]; auto. }
  destruct o as [j t|j i t| | | |]; try (destruct (IH x H) as (b & E & D); exists b; split; auto; apply K; auto; intros; discriminate).
  - destruct (Nat.eqb_spec j c) as [->|N].
    + destruct (pend m) as [y|] eqn:EP; [|discriminate].
      destruct (Z.ltb_spec y t) as [LT|GE]; [discriminate|]. inversion H; subst y.
      destruct (IH x eq_refl) as (b & E & D). exists b. split; auto. apply K; auto; [|discriminate].
      intros t0 E0. inversion E0; subst. auto.
    + destruct (IH x H) as (b & E & D). exists b; split; auto. apply K; auto; [|discriminate].
      intros t0 E0. inversion E0; congruence.
  - destruct (Nat.eqb_spec j r) as [->|N]; simpl in H.
    + destruct (Nat.eqb_spec i 0) as [->|N2].
      * inversion H; subst. exists t. split; auto. exists (rev m), []. repeat split; auto. intros t0 [].
      * destruct (IH x H) as (b & E & D). exists b; split; auto. apply K; auto; [discriminate|].
        intros t0 E0. inversion E0; congruence.
    + destruct (IH x H) as (b & E & D). exists b; split; auto. apply K; auto; [discriminate|].
      intros t0 E0. inversion E0; congruence.
Qed.

Lemma pend_app_keep m m' b : pend m' = Some (b + d) ->
  (forall t, ~ In (OBegin r 0 t) m) -> (forall t, In (OEval c t) m -> t <= b + d) -> pend (m ++ m') = Some (b + d).
Proof.
  intros H0 A B. induction m as [|o m IH]; simpl; auto.
  rewrite IH; [|intros t Ht; apply (A t); right; auto|intros t Ht; apply B; right; auto].
  destruct o; auto.
  - destruct (Nat.eqb_spec c0 c); auto. subst. assert (now <= b + d) by (apply B; left; auto).
    destruct (Z.ltb_spec (b + d) now); [lia|auto].
  - destruct (Nat.eqb_spec c0 r); simpl; auto. destruct (Nat.eqb_spec i 0); auto. subst. exfalso. eapply A; left; auto.
Qed.
Lemma due_pend m b : due c r d (rev m) b -> pend m = Some (b + d).
Proof.
  intros (h1 & h2 & E & A & B). apply (f_equal (@rev _)) in E. rewrite rev_involutive, rev_app_distr in E.
  simpl in E. rewrite <- app_assoc in E. subst m. apply pend_app_keep.
  - simpl. rewrite Nat.eqb_refl. reflexivity.
  - intros t Ht. apply in_rev in Ht. eapply A; eauto.
  - intros t Ht. apply in_rev in Ht. auto.
Qed.

Definition last_begin (s : system) : Prop :=
  (k_current (ctrl s c) = length ps /\ nb c s = []) \/
  ((k_current (ctrl s c) < length ps)%nat /\ exists h, nb c s = h ++ [(k_current (ctrl s c), k_started (ctrl s c))]).

Definition own_cycle := completed c ps.

Record RInv (acts : bool) (s : system) : Prop := {
  ri_good : Good l s;
  ri_pend : k_begin (ctrl s c) = pend (mk s);
  ri_last : last_begin s;
  ri_all : forall m1 now m2, mk s = m2 ++ OEval c now :: m1 ->
     (forall x, pend m1 = Some x -> x < now -> exists m3, m2 = m3 ++ [OBegin c 0 now]) /\
     (acts = false -> forall t m3, m2 = m3 ++ [OBegin c 0 t] ->
         t = now /\ ((exists x, pend m1 = Some x /\ x < now) \/ own_cycle (rev m1) now))
}.

Lemma app_cons_split {A} (a b m2 m1 : list A) x : a ++ b = m2 ++ x :: m1 ->
  (exists m2', m2 = a ++ m2' /\ b = m2' ++ x :: m1) \/ (exists a', a = m2 ++ x :: a' /\ m1 = a' ++ b).
Proof.
  revert m2; induction a as [|y a IH]; simpl; intros m2 H.
  - left. exists m2. auto.
  - destruct m2 as [|z m2]; simpl in H; inversion H; subst.
    + right. exists a. auto.
    + destruct (IH m2 H2) as [(m2' & -> & ->)|(a' & -> & ->)]; [left; exists m2'|right; exists a']; auto.
Qed.

(** adding marks without an evaluation of [c] in front *)
Lemma all_add acts s s' a :
  mk s' = a ++ mk s ->
  (forall t, ~ In (OEval c t) a) ->
  (acts = false -> forall t, ~ In (OBegin c 0 t) a) ->
  (forall m1 now m2, mk s = m2 ++ OEval c now :: m1 ->
     (forall x, pend m1 = Some x -> x < now -> exists m3, m2 = m3 ++ [OBegin c 0 now]) /\
     (acts = false -> forall t m3, m2 = m3 ++ [OBegin c 0 t] ->
         t = now /\ ((exists x, pend m1 = Some x /\ x < now) \/ own_cycle (rev m1) now))) ->
  forall m1 now m2, mk s' = m2 ++ OEval c now :: m1 ->
     (forall x, pend m1 = Some x -> x < now -> exists m3, m2 = m3 ++ [OBegin c 0 now]) /\
     (acts = false -> forall t m3, m2 = m3 ++ [OBegin c 0 t] ->
         t = now /\ ((exists x, pend m1 = Some x /\ x < now) \/ own_cycle (rev m1) now)).
Proof.
  intros E NE NB H m1 now m2 E2. rewrite E in E2. apply app_cons_split in E2.
  destruct E2 as [(m2' & -> & E2)|(a' & -> & _)].
  - destruct (H _ _ _ E2) as (A & B). split.
    + intros x Hx LT. destruct (A x Hx LT) as (m3 & ->). exists (a ++ m3). apply app_assoc.
    + intros Ha t m3 E3.
      destruct m2' as [|z m2'] using rev_ind.
      * rewrite app_nil_r in E3. exfalso. apply (NB Ha t). rewrite E3. apply in_or_app. right. left. auto.
      * rewrite app_assoc in E3. apply app_inj_tail in E3. destruct E3 as [_ ->].
        eapply (B Ha). reflexivity.
  - exfalso. apply (NE now). apply in_or_app. right. left. auto.
Qed.

Lemma c_lt' : (c < length l)%nat.
Proof. apply nth_error_Some. congruence. Qed.
Lemma r_lt' : (r < length l)%nat.
Proof. apply nth_error_Some. congruence. Qed.
Lemma ps_pos : (0 < length ps)%nat.
Proof. destruct (length ps) eqn:E; [|lia]. apply length_zero_iff_nil in E. contradiction. Qed.
Lemma prs_pos : (0 < length prs)%nat.
Proof. destruct (length prs) eqn:E; [|lia]. apply length_zero_iff_nil in E. contradiction. Qed.

Lemma observes s j : Good l s -> (j < length l)%nat ->
  existsb (Nat.eqb c) (k_observers (ctrl s j)) = (j =? r)%nat.
Proof.
  intros G Hj. destruct (nth_error l j) as [[[dj rj] pj]|] eqn:Ej; [|apply nth_error_None in Ej; lia].
  destruct (proj2 G _ _ _ _ Ej) as (_ & _ & _ & O).
  destruct (existsb _ _) eqn:X.
  - apply existsb_exists in X. destruct X as (x & Hx & E). apply Nat.eqb_eq in E. subst x.
    apply O in Hx. destruct Hx as (d' & ps' & E). rewrite Ec in E. inversion E; subst. symmetry. apply Nat.eqb_refl.
  - destruct (Nat.eqb_spec j r); auto. subst. exfalso.
    assert (In c (k_observers (ctrl s r))) by (apply O; eauto).
    assert (existsb (Nat.eqb c) (k_observers (ctrl s r)) = true)
      by (apply existsb_exists; exists c; split; auto; apply Nat.eqb_refl). congruence.
Qed.

Lemma nb_mk_app s s' a : mk s' = a ++ mk s -> nb c s' = nb c s ++ begins c (rev a).
Proof. intros E. unfold nb. rewrite E, rev_app_distr, begins_app. reflexivity. Qed.

Lemma phase_of s : Good l s -> k_phases (ctrl s c) = ps.
Proof. intros G. apply (proj2 G _ _ _ _ Ec). Qed.

(** [change_phase] applied to another controller [j] by evaluation or action, or to [c] by an
    action: effect on the invariant *)
Lemma evaluate_other_R acts now s j : j <> c -> (j < length l)%nat -> RInv acts s ->
  RInv acts (evaluate tps enabled now s j).
Proof.
  intros N Hj [G P L A].
  destruct (evaluate_spec tps enabled now s j) as (Len & M & H); [rewrite (proj1 G); auto|].
  destruct (H c) as (SS & Cu & St & Be); [rewrite (proj1 G); apply c_lt'|].
  destruct (Nat.eqb_spec c j) as [->|_]; [congruence|].
  set (s' := evaluate tps enabled now s j) in *.
  set (m := move now (ctrl s j)) in *.
  assert (M' : mk s' = (begun s j now m ++ [OEval j now]) ++ mk s) by (rewrite <- app_assoc; exact M).
  assert (NBg : forall o, In o (begun s j now m ++ [OEval j now]) -> (exists i, o = OBegin j i now) \/ o = OEval j now).
  { intros o Ho. apply in_app_or in Ho. destruct Ho as [Ho|[<-|[]]]; auto. unfold begun in Ho.
    destruct m; [|contradiction]. destruct (phase_at _ _); [|contradiction]. destruct Ho as [<-|[]]. left. eauto. }
  constructor.
  - apply evaluate_Good; auto.
  - rewrite Be, observes by auto. simpl. rewrite M.
    destruct (proj2 G _ _ _ _ Ec) as (Dl & _ & _ & _). rewrite Dl.
    unfold begun. destruct (Nat.eqb_spec j r) as [->|Nr].
    + rewrite andb_true_r. destruct m as [i|].
      * destruct (proj2 G _ _ _ _ Er) as (_ & _ & Pr & _). unfold phase_at. rewrite Pr.
        destruct i.
        -- pose proof prs_pos. destruct (nth_error prs 0) eqn:E0; [|apply nth_error_None in E0; lia].
           simpl. rewrite Nat.eqb_refl. reflexivity.
        -- destruct (nth_error prs (S i)); simpl; rewrite ?andb_false_r;
           (destruct (Nat.eqb_spec r c); [congruence|exact P]).
      * simpl. destruct (Nat.eqb_spec r c); [congruence|exact P].
    + rewrite andb_false_r. destruct m as [i|].
      * destruct (phase_at _ _); simpl; destruct (Nat.eqb_spec j r); try congruence; simpl;
        destruct (Nat.eqb_spec j c); try congruence; exact P.
      * simpl. destruct (Nat.eqb_spec j c); [congruence|exact P].
  - assert (E : nb c s' = nb c s).
    { rewrite (nb_mk_app _ _ _ M'). replace (begins c _) with (@nil (nat * Z)); [apply app_nil_r|].
      symmetry. rewrite rev_app_distr. simpl. unfold begun. destruct m; [|reflexivity].
      destruct (phase_at _ _); [|reflexivity]. simpl. destruct (Nat.eqb_spec j c); [congruence|reflexivity]. }
    unfold last_begin. rewrite E, Cu, St. exact L.
  - eapply all_add; [exact M'| | |exact A].
    + intros t Ht. apply NBg in Ht. destruct Ht as [(i & E)|E]; inversion E; congruence.
    + intros _ t Ht. apply NBg in Ht. destruct Ht as [(i & E)|E]; inversion E; congruence.
Qed.

Lemma evaluate_self_R acts now s : RInv acts s -> RInv acts (evaluate tps enabled now s c).
Proof.
  intros [G P L A]. pose proof c_lt' as Hc. pose proof ps_pos as PP.
  destruct (evaluate_spec tps enabled now s c) as (Len & M & H); [rewrite (proj1 G); auto|].
  destruct (H c) as (SS & Cu & St & Be); [rewrite (proj1 G); apply c_lt'|].
  rewrite Nat.eqb_refl in Cu, St, Be.
  set (s' := evaluate tps enabled now s c) in *.
  destruct (proj2 G _ _ _ _ Ec) as (Dl & Rf & Ph & _).
  assert (SB : should_begin now (ctrl s c) = match pend (mk s) with Some t => t <? now | None => false end).
  { unfold should_begin. rewrite Rf, P. reflexivity. }
  assert (SVD : k_begin (served (ctrl s c)) = None) by (unfold served; rewrite Rf; reflexivity).
  assert (MV : move now (ctrl s c) = if should_begin now (ctrl s c) then Some 0%nat else
     if exceeded now (ctrl s c) then Some (circular_next (length ps) (k_current (ctrl s c))) else None)
    by (unfold move; rewrite Ph; reflexivity).
  assert (LE : (k_current (ctrl s c) <= length ps)%nat) by (destruct L as [[-> _]|[? _]]; lia).
  assert (Valid : forall i, move now (ctrl s c) = Some i -> (i < length ps)%nat).
  { rewrite MV. intros i. destruct (should_begin _ _); [intros E; inversion E; lia|].
    destruct (exceeded _ _); [|discriminate]. intros E; inversion E. apply circular_next_lt; auto. }
  assert (BG : begun s c now (move now (ctrl s c)) =
               match move now (ctrl s c) with Some i => [OBegin c i now] | None => [] end).
  { unfold begun. destruct (move now (ctrl s c)) as [i|] eqn:E; auto. unfold phase_at. rewrite Ph.
    specialize (Valid _ eq_refl). apply nth_error_Some in Valid. destruct (nth_error ps i); congruence. }
  rewrite BG in M.
  set (m := move now (ctrl s c)) in *. clearbody m.
  constructor.
  - apply evaluate_Good; auto.
  - rewrite Be, observes by auto. rewrite M, Dl. simpl andb.
    assert (Base : (if should_begin now (ctrl s c) then k_begin (served (ctrl s c)) else k_begin (ctrl s c)) =
                   pend (OEval c now :: mk s)).
    { simpl. rewrite Nat.eqb_refl, SB, SVD, P. destruct (pend (mk s)); auto. }
    rewrite Base. destruct m as [i|]; [|reflexivity]. 
    change (([OBegin c i now] ++ OEval c now :: mk s)) with (OBegin c i now :: OEval c now :: mk s).
    cbn [pend]. fold (pend (OEval c now :: mk s)). rewrite andb_comm.
    destruct (Nat.eqb_spec c r); simpl; destruct (i =? 0)%nat; try reflexivity.
  - unfold last_begin. rewrite Cu, St.
    assert (M' : mk s' = (match m with Some i => [OBegin c i now] | None => [] end ++ [OEval c now]) ++ mk s)
      by (rewrite <- app_assoc; exact M).
    rewrite (nb_mk_app _ _ _ M'). rewrite rev_app_distr. simpl.
    destruct m as [i|]; simpl.
    + rewrite Nat.eqb_refl. right. split; [auto|]. eauto.
    + rewrite app_nil_r. exact L.
  - intros m1 t0 m2 E. rewrite M in E. apply app_cons_split in E.
    destruct E as [(m2' & -> & E)|(a' & E & _)].
    + destruct m2' as [|z m2'] using rev_ind.
      * simpl in E. inversion E; subst t0 m1. rewrite app_nil_r. split.
        -- intros x Hx LT. exists [].
           assert (m = Some 0%nat) as ->; [|reflexivity].
           rewrite MV, SB, Hx. destruct (Z.ltb_spec x now); [reflexivity|lia].
        -- intros _ t m3 E3. destruct m as [i|].
           ++ destruct m3 as [|z m3]; [|destruct m3; discriminate]. inversion E3; subst i t. split; auto.
              pose proof (eq_sym MV) as Em.
              rewrite SB in Em. destruct (pend (mk s)) as [x|] eqn:EP.
              ** destruct (Z.ltb_spec x now); [left; exists x; auto|].
                 right. destruct (exceeded now (ctrl s c)) eqn:EX; [|discriminate]. inversion Em as [Em'].
                 unfold exceeded, phase_at in EX. rewrite Ph in EX.
                 destruct (nth_error ps (k_current (ctrl s c))) as [p|] eqn:EPh; [|discriminate].
                 destruct (ph_dur p) as [dd|] eqn:ED; [|discriminate]. apply Z.leb_le in EX.
                 assert (CL : (k_current (ctrl s c) < length ps)%nat) by (apply nth_error_Some; congruence).
                 destruct L as [[L _]|[_ (h & Lh)]]; [lia|].
                 exists h, (k_current (ctrl s c)), (k_started (ctrl s c)), dd. fold (nb c s). rewrite Lh.
                 split; [auto|]. split; [|split; [exists p; auto|auto]].
                 unfold circular_next in Em'. destruct (Nat.eqb_spec (k_current (ctrl s c)) (length ps)); [lia|].
                 destruct (Nat.eqb_spec (S (k_current (ctrl s c))) (length ps)); lia.
              ** right. destruct (exceeded now (ctrl s c)) eqn:EX; [|discriminate]. inversion Em as [Em'].
                 unfold exceeded, phase_at in EX. rewrite Ph in EX.
                 destruct (nth_error ps (k_current (ctrl s c))) as [p|] eqn:EPh; [|discriminate].
                 destruct (ph_dur p) as [dd|] eqn:ED; [|discriminate]. apply Z.leb_le in EX.
                 assert (CL : (k_current (ctrl s c) < length ps)%nat) by (apply nth_error_Some; congruence).
                 destruct L as [[L _]|[_ (h & Lh)]]; [lia|].
                 exists h, (k_current (ctrl s c)), (k_started (ctrl s c)), dd. fold (nb c s). rewrite Lh.
                 split; [auto|]. split; [|split; [exists p; auto|auto]].
                 unfold circular_next in Em'. destruct (Nat.eqb_spec (k_current (ctrl s c)) (length ps)); [lia|].
                 destruct (Nat.eqb_spec (S (k_current (ctrl s c))) (length ps)); lia.
           ++ destruct m3; discriminate.
      * clear IHm2'. change (OEval c now :: mk s) with ([OEval c now] ++ mk s) in E.
        apply app_cons_split in E. destruct E as [(q & Eq & E)|(q & Eq & E)].
        -- destruct (A _ _ _ E) as (B1 & B2). destruct q as [|z' q] using rev_ind.
           ++ rewrite app_nil_r in Eq. destruct m2' as [|? [|]]; try discriminate Eq. injection Eq as ->. simpl.
              split.
              ** intros x Hx LT. destruct (B1 x Hx LT) as (m3 & E3). destruct m3; discriminate.
              ** intros _ t m3 E3. change ((match m with Some i => [OBegin c i now] | None => [] end) ++ [OEval c now]
                   = m3 ++ [OBegin c 0 t]) in E3. apply app_inj_tail in E3. destruct E3; discriminate.
           ++ clear IHq. rewrite app_assoc in Eq. apply app_inj_tail in Eq. destruct Eq as [Eq ->]. subst m2'. split.
              ** intros x Hx LT. destruct (B1 x Hx LT) as (m3 & E3). apply app_inj_tail in E3. destruct E3 as [_ ->].
                 eexists. rewrite app_assoc. reflexivity.
              ** intros Ha t m3 E3. rewrite !app_assoc in E3. apply app_inj_tail in E3. destruct E3 as [_ ->].
                 eapply B2; auto.
        -- apply (f_equal (@length _)) in Eq. rewrite !app_length in Eq. simpl in Eq. lia.
    + destruct m; [|destruct m2; discriminate]. destruct m2 as [|? [|]]; inversion E.
Qed.

Lemma evaluates_R acts now js s : (forall j, In j js -> (j < length l)%nat) -> RInv acts s ->
  RInv acts (fold_left (evaluate tps enabled now) js s).
Proof.
  revert s; induction js; simpl; intros s H R; auto. apply IHjs; auto.
  destruct (Nat.eq_dec a c) as [->|N]; [apply evaluate_self_R|apply evaluate_other_R]; auto.
Qed.

Lemma action_R acts now j name s : (acts = false -> j <> c) -> RInv acts s ->
  RInv acts (step tps enabled s (Action now j name)).
Proof.
  intros N [G P L A]. destruct (action_cases tps enabled now s j name) as [E|(i & Hj & Vi & E)]; rewrite E;
    [constructor; auto|].
  pose proof c_lt' as Hc. destruct (change_phase_spec tps enabled now s j i Hj) as (Len & M & H).
  destruct (H c) as (SS & Cu & St & Be); [rewrite (proj1 G); auto|].
  set (s' := change_phase tps enabled now s j i) in *.
  destruct (phase_at (ctrl s j) i) as [p|] eqn:EP; [|congruence].
  assert (Hj' : (j < length l)%nat) by (rewrite <- (proj1 G); auto).
  constructor.
  - eapply Good_static; eauto. intros j' Hj2. apply H; auto.
  - rewrite Be, observes by auto. rewrite M. destruct (proj2 G _ _ _ _ Ec) as (Dl & _ & _ & _). rewrite Dl.
    simpl. rewrite andb_comm. rewrite P. reflexivity.
  - unfold last_begin. rewrite Cu, St, (nb_mk_app _ _ _ M). simpl. rewrite (Nat.eqb_sym j c).
    destruct (Nat.eqb_spec c j) as [<-|NE].
    + right. split; [|eauto]. unfold phase_at in EP. rewrite (phase_of s G) in EP. apply nth_error_Some. congruence.
    + rewrite app_nil_r. exact L.
  - eapply all_add; [exact M| | |exact A].
    + intros t [X|[]]. discriminate.
    + intros Ha t [X|[]]. inversion X. apply (N Ha). auto.
Qed.

Lemma run_R acts es s : (acts = false -> untouched c es) -> RInv acts s -> RInv acts (run tps enabled es s).
Proof.
  unfold run. revert s; induction es as [|e es IH]; cbn [fold_left]; intros s U R; auto.
  apply IH.
  - intros Ha t n Hin. apply (U Ha t n). right; auto.
  - destruct e as [now|now j name].
    + simpl. unfold evaluate_all. apply evaluates_R; auto. intros j Hj. apply in_seq in Hj.
      destruct R as [G _ _ _]. rewrite (proj1 G) in Hj. lia.
    + apply action_R; auto. intros Ha E. subst j. apply (U Ha now name). left; auto.
Qed.

Lemma init_R acts : RInv acts (init l).
Proof.
  destruct (init_spec l) as (G & I). destruct (I _ _ _ _ Ec) as (A & B & C).
  constructor; auto.
  - left. auto.
  - intros m1 now m2 E. destruct m2; discriminate.
Qed.
End Ref.

(** ** Cycle time *)
Lemma cycle_seconds_exact tps ps : 0 < tps -> finite ps -> whole_seconds tps ps ->
  forall sum, exists r, cycle_seconds tps sum ps = Some r /\ r * tps = sum * tps + cycle ps.
Proof.
  intros HT. induction ps as [|p ps IH]; simpl; intros F W sum.
  - exists sum. split; auto. ring.
  - destruct (F p (or_introl eq_refl)) as (d & E). rewrite E.
    destruct (W p d (or_introl eq_refl) E) as (q & Eq).
    assert (Q : Z.quot (sum * tps + d) tps = sum + q).
    { subst d. rewrite <- Z.mul_add_distr_r. apply Z.quot_mul. lia. }
    destruct (IH ltac:(intros x Hx; apply F; right; auto) ltac:(intros x y Hx; apply W; right; auto)
                 (Z.quot (sum * tps + d) tps)) as (r & A & B).
    exists r. split; auto. rewrite B, Q, Eq. ring.
Qed.
Lemma cycle_time_exact tps ps : 0 < tps -> finite ps -> whole_seconds tps ps ->
  cycle_time tps ps = Some (cycle ps).
Proof.
  intros. destruct (cycle_seconds_exact tps ps H H0 H1 0) as (r & A & B). unfold cycle_time. rewrite A. simpl.
  f_equal. lia.
Qed.
Lemma cycle_seconds_bounds tps ps : 0 < tps -> finite ps -> non_negative ps ->
  forall sum, 0 <= sum -> exists r, cycle_seconds tps sum ps = Some r /\
    r * tps <= sum * tps + cycle ps <= r * tps + Z.of_nat (length ps) * (tps - 1).
Proof.
  intros HT. induction ps as [|p ps IH]; intros F W sum HS; cbn [cycle_seconds cycle length].
  - exists sum. split; auto. simpl. lia.
  - destruct (F p (or_introl eq_refl)) as (d & E). rewrite E.
    pose proof (W p d (or_introl eq_refl) E) as HD.
    assert (NN : 0 <= sum * tps + d) by nia.
    rewrite Z.quot_div_nonneg by lia.
    pose proof (Z.div_mod (sum * tps + d) tps ltac:(lia)) as DM.
    pose proof (Z.mod_pos_bound (sum * tps + d) tps ltac:(lia)) as MB.
    destruct (IH ltac:(intros x Hx; apply F; right; auto) ltac:(intros x y Hx; apply W; right; auto)
                 ((sum * tps + d) / tps)) as (r & A & B).
    { apply Z.div_pos; lia. }
    exists r. split; auto. nia.
Qed.

(** ** Predictions *)
Definition keys (m : list (Z * list nat)) := map fst m.
Definition filled (m : list (Z * list nat)) := forall id v, In (id, v) m -> v <> [].

Lemma look_put m id v id' : look (put m id v) id' = if id =? id' then v else look m id'.
Proof.
  induction m as [|[i w] m IH]; simpl.
  - destruct (id =? id'); auto.
  - destruct (Z.eqb_spec i id); simpl.
    + subst. destruct (Z.eqb_spec id id'); auto.
    + destruct (Z.eqb_spec i id').
      * subst. destruct (Z.eqb_spec id id'); [congruence|auto].
      * auto.
Qed.
Lemma put_in m id v x w : In (x, w) (put m id v) -> (x = id /\ w = v) \/ In (x, w) m.
Proof.
  induction m as [|[i u] m IH]; simpl.
  - intros [H|[]]. inversion H; auto.
  - destruct (Z.eqb_spec i id); simpl.
    + intros [H|H]; auto. inversion H; subst; auto.
    + intros [H|H]; auto. destruct (IH H); auto.
Qed.
Lemma put_keys m id v x : In x (keys (put m id v)) <-> x = id \/ In x (keys m).
Proof.
  induction m as [|[i u] m IH]; simpl; [intuition|].
  destruct (Z.eqb_spec i id); simpl; [subst; intuition|]. fold (keys m). fold (keys (put m id v)). rewrite IH. intuition.
Qed.
Lemma put_nodup m id v : NoDup (keys m) -> NoDup (keys (put m id v)).
Proof.
  induction m as [|[i u] m IH]; simpl; intros H; [constructor; [auto|constructor]|].
  inversion H; subst. destruct (Z.eqb_spec i id); simpl; [constructor; auto|]. constructor.
  - fold (keys (put m id v)). rewrite put_keys. intros [X|X]; [congruence|]. apply H2. exact X.
  - apply IH. auto.
Qed.
Lemma look_keys m id : filled m -> look m id = [] <-> ~ In id (keys m).
Proof.
  induction m as [|[i u] m IH]; simpl; intros F; [tauto|].
  destruct (Z.eqb_spec i id).
  - subst. split; [|intros H; exfalso; auto]. intros H. exfalso. apply (F id u); auto. left; auto.
  - rewrite IH; [|intros a b Hab; apply (F a b); right; auto]. intuition.
Qed.

Definition Ok (m : list (Z * list nat)) := NoDup (keys m) /\ filled m.
Lemma put_ok m id v : v <> [] -> Ok m -> Ok (put m id v).
Proof.
  intros V [A B]. split; [apply put_nodup; auto|]. intros x w H. apply put_in in H. destruct H as [[_ ->]|H]; auto.
  eapply B; eauto.
Qed.
Lemma push_ok m id st : Ok m -> Ok (push m id st).
Proof. apply put_ok. intros E. apply app_eq_nil in E. destruct E; discriminate. Qed.

Lemma fold_push l m id : look (fold_left (fun m s => push m (s_id s) (s_state s)) l m) id =
  look m id ++ map s_state (filter (fun s => s_id s =? id) l).
Proof.
  revert m; induction l as [|s l IH]; simpl; intros m; [rewrite app_nil_r; auto|].
  rewrite IH. unfold push. rewrite look_put. destruct (Z.eqb_spec (s_id s) id); auto.
  subst. simpl. rewrite <- app_assoc. reflexivity.
Qed.
Lemma fold_push_ok l m : Ok m -> Ok (fold_left (fun m s => push m (s_id s) (s_state s)) l m).
Proof. revert m; induction l; simpl; auto using push_ok. Qed.

Section Pred.
Variable tps : Z.
Variable enabled : Z -> bool.

Lemma fold_cond {A B} (f : A -> B -> A) (g : B -> bool) l a :
  fold_left (fun m s => if g s then f m s else m) l a = fold_left f (filter g l) a.
Proof. revert a; induction l; simpl; intros; auto. rewrite IHl. destruct (g a); auto. Qed.

Lemma filter_filter {A} (f g : A -> bool) l : filter f (filter g l) = filter (fun x => g x && f x) l.
Proof.
  induction l; simpl; auto. destruct (g a) eqn:E; simpl; [|auto]. destruct (f a); simpl; congruence.
Qed.

Lemma collect_look p id : look (collect_states enabled p) id = says enabled p id.
Proof.
  unfold collect_states, says. cbv zeta. rewrite fold_cond, !fold_push. simpl. rewrite !filter_filter.
  assert (E1 : filter (fun x => is_v2i x && (s_id x =? id)) (ph_signals p) = filter (on V2I id) (ph_signals p)).
  { apply filter_ext. intros x. unfold on, is_v2i. destruct (s_channel x), (s_id x =? id); reflexivity. }
  rewrite E1.
  set (ids := map s_id (filter is_v2i (ph_signals p))).
  assert (X : existsb (Z.eqb id) ids = match filter (on V2I id) (ph_signals p) with [] => false | _ => true end).
  { unfold ids. rewrite <- E1. clear. induction (ph_signals p) as [|x l IH]; simpl; auto.
    destruct (is_v2i x); simpl; [|exact IH]. rewrite (Z.eqb_sym id). destruct (s_id x =? id); simpl; auto. }
  assert (E2 : filter (fun x => negb (is_v2i x) && (negb (existsb (Z.eqb (s_id x)) ids) && enabled (s_id x) && (s_id x =? id)))
            (ph_signals p) =
          if negb (existsb (Z.eqb id) ids) && enabled id then filter (on Conventional id) (ph_signals p) else []).
  { clear X E1. clearbody ids. induction (ph_signals p) as [|x l IH]; simpl; [destruct (negb _ && _); auto|].
    rewrite IH.
    assert (EO : on Conventional id x = (s_id x =? id) && negb (is_v2i x))
      by (unfold on, is_v2i; destruct (s_channel x), (s_id x =? id); reflexivity).
    rewrite EO. destruct (Z.eqb_spec (s_id x) id) as [->|N]; simpl.
    - rewrite andb_true_r. destruct (negb (is_v2i x)); simpl; destruct (negb _ && _); auto.
    - rewrite !andb_false_r. reflexivity. }
  match goal with |- ?a ++ map s_state ?f = _ => assert (E3 : f = 
      if negb (existsb (Z.eqb id) ids) && enabled id then filter (on Conventional id) (ph_signals p) else []) end.
  { rewrite <- E2. apply filter_ext. intros x. rewrite !andb_assoc. reflexivity. }
  rewrite E3, X. destruct (filter (on V2I id) (ph_signals p)) eqn:E; simpl.
  - destruct (enabled id); reflexivity.
  - rewrite app_nil_r. reflexivity.
Qed.
Lemma collect_ok p : Ok (collect_states enabled p).
Proof.
  unfold collect_states. cbv zeta. rewrite fold_cond. do 2 apply fold_push_ok. split; [constructor|intros ? ? []].
Qed.

Lemma merge_look new cur id : Ok new ->
  look (merge_states cur new) id = match look new id with [] => look cur id | v => v end.
Proof.
  unfold merge_states. revert cur; induction new as [|[i v] new IH]; simpl; intros cur [N F]; auto.
  assert (OK : Ok new).
  { split; [inversion N; auto|]. intros a b H. apply (F a b). right; auto. }
  rewrite IH by auto. rewrite look_put. destruct (Z.eqb_spec i id).
  - subst. assert (look new id = []) as ->.
    { apply look_keys; [apply OK|]. inversion N; auto. }
    destruct v; auto. exfalso. apply (F id []); [left|]; auto.
  - reflexivity.
Qed.
Lemma merge_ok new cur : Ok new -> Ok cur -> Ok (merge_states cur new).
Proof.
  unfold merge_states. revert cur; induction new as [|[i v] new IH]; simpl; intros cur [N F] O; auto.
  apply IH.
  - split; [inversion N; auto|]. intros a b H. apply (F a b). right; auto.
  - apply put_ok; auto. apply (F i v). left; auto.
Qed.

(** what a list of commands predicts for a light *)
Fixpoint preds (id : Z) (l : list output) : list (nat * Z) :=
  match l with
  | [] => []
  | OPred i st t :: l' => if i =? id then (st, t) :: preds id l' else preds id l'
  | _ :: l' => preds id l'
  end.
Lemma preds_app id a b : preds id (a ++ b) = preds id a ++ preds id b.
Proof. induction a as [|o a IH]; simpl; auto. destruct o; auto. destruct (_ =? _); simpl; congruence. Qed.
Lemma preds_map id i sts a : preds id (map (fun st => OPred i st a) sts) = if i =? id then map (fun st => (st, a)) sts else [].
Proof. induction sts; simpl; [destruct (_ =? _); auto|]. rewrite IHsts. destruct (_ =? _); auto. Qed.
Lemma preds_concat id m a : NoDup (keys m) ->
  preds id (concat (map (fun '(i, sts) => map (fun st => OPred i st a) sts) m)) = map (fun st => (st, a)) (look m id).
Proof.
  induction m as [|[i v] m IH]; simpl; intros N; auto. inversion N; subst.
  rewrite preds_app, preds_map, IH by auto. destruct (Z.eqb_spec i id); auto. subst.
  assert (look m id = []) as ->; [|simpl; apply app_nil_r].
  clear - H1. induction m as [|[j w] m IH]; simpl in *; auto. destruct (Z.eqb_spec j id); [exfalso; auto|]. apply IH; auto.
Qed.

Lemma mod_next n i k : (0 < n)%nat -> circular_next n ((i + k) mod n) = ((i + S k) mod n)%nat.
Proof.
  intros. rewrite circular_next_mod by (apply Nat.mod_upper_bound; lia).
  replace (i + S k)%nat with (S (i + k)) by lia.
  rewrite <- (Nat.add_1_r (i + k)), <- (Nat.add_1_r (_ mod n)).
  rewrite Nat.add_mod_idemp_l; lia.
Qed.

Lemma total_snoc ps i k : total ps i (S k) = total ps i k + duration ps (i + k).
Proof.
  revert i; induction k; intros i.
  - simpl. rewrite Nat.add_0_r. ring.
  - change (total ps i (S (S k))) with (duration ps i + total ps (S i) (S k)). rewrite IHk.
    change (total ps i (S k)) with (duration ps i + total ps (S i) k).
    replace (S i + k)%nat with (i + S k)%nat by lia. ring.
Qed.

Lemma predict_spec k i id : k_phases k <> [] -> finite (k_phases k) ->
  forall left done first cur,
    Ok cur -> look cur id = expected enabled (k_phases k) i done id ->
    (first = true -> match cycle_time tps (k_phases k) with None => true | Some ct => ct <? total (k_phases k) i (S done) end = false) ->
    preds id (predict tps enabled k left first (Dur (total (k_phases k) i (S done))) ((i + done) mod length (k_phases k)) cur) =
    concat (map (fun m => map (fun st => (st, total (k_phases k) i m)) (expected enabled (k_phases k) i m id)) (seq (S done) left)).
Proof.
  intros NE F. set (ps := k_phases k) in *.
  assert (PP : (0 < length ps)%nat) by (destruct ps; [congruence|simpl; lia]).
  induction left as [|left IH]; intros done first cur OK LK FI; auto.
  cbn [predict seq map concat]. fold ps. rewrite mod_next by auto. unfold phase_at. fold ps.
  assert (HB : ((i + S done) mod length ps < length ps)%nat) by (apply Nat.mod_upper_bound; lia).
  destruct (nth_error ps ((i + S done) mod length ps)) as [p|] eqn:EP; [|apply nth_error_None in EP; lia].
  destruct (F p) as (d & ED); [eapply nth_error_In; eauto|]. rewrite ED.
  replace (first && _) with false by (destruct first; simpl; [symmetry; apply FI; auto|auto]).
  assert (LK' : look (merge_states cur (collect_states enabled p)) id = expected enabled ps i (S done) id).
  { rewrite merge_look by apply collect_ok. rewrite collect_look. simpl expected. rewrite EP, LK. reflexivity. }
  assert (OK' : Ok (merge_states cur (collect_states enabled p))) by (apply merge_ok; auto using collect_ok).
  rewrite preds_app, preds_concat by apply OK'. rewrite LK'. f_equal.
  assert (ET : total ps i (S done) + d = total ps i (S (S done))).
  { rewrite (total_snoc ps i (S done)). f_equal. unfold duration. rewrite EP, ED. reflexivity. }
  rewrite ET. apply IH; auto. discriminate.
Qed.

Lemma duration_le_cycle ps i : finite ps -> non_negative ps -> (i < length ps)%nat -> duration ps i <= cycle ps /\ 0 <= duration ps i.
Proof.
  intros F N H. unfold duration. rewrite Nat.mod_small by auto.
  assert (G : forall ps, non_negative ps -> 0 <= cycle ps).
  { clear. induction ps as [|p ps IH]; simpl; intros N; [lia|].
    assert (0 <= cycle ps) by (apply IH; intros x y Hx; apply N; right; auto).
    destruct (ph_dur p) as [d|] eqn:E; [|auto]. pose proof (N p d (or_introl eq_refl) E). lia. }
  revert i H; induction ps as [|p ps IH]; intros i H; [simpl in H; lia|].
  assert (N' : non_negative ps) by (intros x y Hx; apply N; right; auto).
  pose proof (G ps N').
  destruct (F p (or_introl eq_refl)) as (d & E). pose proof (N p d (or_introl eq_refl) E).
  destruct i; simpl; rewrite E; [lia|].
  specialize (IH ltac:(intros x Hx; apply F; right; auto) N' i ltac:(simpl in H; lia)). lia.
Qed.

(** what is published after a phase change *)
Lemma published_app_quiet l o : (forall x, In x l -> match x with OPred _ _ _ | OPredClear => False | _ => True end) ->
  published (l ++ o) = published o.
Proof.
  induction l as [|x l IH]; simpl; intros H; auto. pose proof (H x (or_introl eq_refl)).
  destruct x; try contradiction; apply IH; intros y Hy; apply (H y); auto.
Qed.
Lemma published_preds l o id : (forall x, In x l -> match x with OPred _ _ _ => True | _ => False end) ->
  map (fun x => (snd (fst x), snd x)) (filter (fun x => fst (fst x) =? id) (published (rev l ++ OPredClear :: o))) = preds id l.
Proof.
  intros H. assert (E : published (rev l ++ OPredClear :: o) =
     concat (map (fun x => match x with OPred a b c => [(a, b, c)] | _ => [] end) l)).
  { induction l as [|x l IH] using rev_ind; auto. rewrite rev_app_distr. simpl.
    assert (Hx : In x (l ++ [x])) by (apply in_or_app; right; left; auto). pose proof (H x Hx).
    destruct x; try contradiction. rewrite map_app, concat_app. simpl. rewrite IH; auto.
    intros y Hy. apply (H y). apply in_or_app. auto. }
  rewrite E. clear E. induction l as [|x l IH]; auto. pose proof (H x (or_introl eq_refl)).
  destruct x; try contradiction. simpl. destruct (_ =? _); simpl; rewrite IH; auto.
  - intros y Hy; apply (H y); right; auto.
  - intros y Hy; apply (H y); right; auto.
Qed.
Lemma predict_only_preds k left first acc i cur x :
  In x (predict tps enabled k left first acc i cur) -> match x with OPred _ _ _ => True | _ => False end.
Proof.
  revert first acc i cur; induction left; simpl; intros first acc i cur H; [contradiction|].
  destruct (phase_at k _) as [p|]; [|contradiction].
  destruct acc as [a|]; [|contradiction]. destruct (ph_dur p) as [d|]; [|contradiction].
  destruct (first && _); [contradiction|].
  apply in_app_or in H. destruct H as [H|H].
  - apply in_concat in H. destruct H as (y & Hx & Ho). apply in_map_iff in Hx.
    destruct Hx as ((id, sts) & <- & _). apply in_map_iff in Ho. destruct Ho as (st & <- & _). exact I.
  - eapply IHleft; eauto.
Qed.
End Pred.

Section Pub.
Variable tps : Z.
Variable enabled : Z -> bool.

Lemma last_change_quiet l o : (forall x, In x l -> match x with OBegin _ _ _ => False | _ => True end) ->
  last_change (l ++ o) = last_change o.
Proof.
  induction l as [|x l IH]; simpl; intros H; auto. pose proof (H x (or_introl eq_refl)).
  destruct x; try contradiction; apply IH; intros y Hy; apply (H y); auto.
Qed.

(** shape of the log after a change of phase *)
Lemma change_phase_out now s c i p : (c < length (ctrls s))%nat -> phase_at (ctrl s c) i = Some p ->
  exists pre q k,
    out (change_phase tps enabled now s c i) =
      pre ++ rev (predict tps enabled k 6 true (ph_dur p) i []) ++ OPredClear :: OBegin c i now :: q ++ out s /\
    k_phases k = k_phases (ctrl s c) /\
    (forall x, In x pre -> match x with OPred _ _ _ | OPredClear | OBegin _ _ _ => False | _ => True end).
Proof.
  intros Hc EP. unfold change_phase.
  set (s1 := if (i =? 0)%nat then _ else s).
  assert (H1 : length (ctrls s1) = length (ctrls s) /\ k_phases (ctrl s1 c) = k_phases (ctrl s c) /\ out s1 = out s).
  { subst s1. destruct (i =? 0)%nat; simpl; [|repeat split; reflexivity].
    destruct (notify_all_spec now (k_observers (ctrl s c)) s) as (L & O & H). split; [exact L|].
    destruct (H c Hc) as ((_ & _ & X & _) & _). split; [exact X|exact O]. }
  clearbody s1. destruct H1 as (L1 & P1 & O1).
  set (s2 := match phase_at (ctrl s1 c) _ with Some p => _ | None => s1 end).
  assert (C2 : ctrls s2 = ctrls s1 /\ exists q, out s2 = q ++ out s).
  { subst s2. destruct (phase_at (ctrl s1 c) _); [|split; auto; exists []; auto]. unfold clear_states.
    rewrite emits_ctrls, emits_out, O1. eauto. }
  clearbody s2. destruct C2 as (C2 & q & O2).
  match goal with |- context [modify s2 c ?f] => set (s3 := modify s2 c f) end.
  assert (E3 : k_phases (ctrl s3 c) = k_phases (ctrl s c) /\ k_current (ctrl s3 c) = i /\ k_started (ctrl s3 c) = now).
  { subst s3. rewrite ctrl_modify, Nat.eqb_refl, C2, L1. destruct (Nat.ltb_spec c (length (ctrls s))); [|lia].
    simpl. split; auto. rewrite <- P1. unfold ctrl. rewrite C2. reflexivity. }
  assert (O3 : out s3 = q ++ out s) by exact O2.
  clearbody s3. destruct E3 as (P3 & C3 & T3).
  assert (PE : phase_at (ctrl s3 c) i = Some p) by (unfold phase_at in *; congruence).
  rewrite PE. unfold evaluate_phase, clear_states. rewrite !emits_out. unfold update_predictions.
  change (ctrl (emit (OBegin c i now) s3) c) with (ctrl s3 c). rewrite C3, PE, T3. rewrite emits_out.
  exists (rev (map OAdd (ph_signals p)) ++ rev (map OClear (ph_signals p))), q, (ctrl s3 c). rewrite <- O3.
  split; [|split; [exact P3|]].
  - rewrite Z.sub_diag. simpl rev. rewrite <- !app_assoc. simpl. 
    assert (ED : match ph_dur p with Dur d => Dur (d - 0) | Forever => Forever end = ph_dur p)
      by (destruct (ph_dur p); auto; f_equal; lia).
    rewrite ED. reflexivity.
  - intros x Hx. apply in_app_or in Hx. destruct Hx as [Hx|Hx]; apply in_rev in Hx; apply in_map_iff in Hx;
    destruct Hx as (y & <- & _); exact I.
Qed.

Lemma change_phase_invalid now s c i : (c < length (ctrls s))%nat -> phase_at (ctrl s c) i = None ->
  exists a, out (change_phase tps enabled now s c i) = a ++ out s /\
    (forall x, In x a -> match x with OPred _ _ _ | OPredClear | OBegin _ _ _ => False | _ => True end).
Proof.
  intros Hc EP. unfold change_phase.
  set (s1 := if (i =? 0)%nat then _ else s).
  assert (H1 : length (ctrls s1) = length (ctrls s) /\ k_phases (ctrl s1 c) = k_phases (ctrl s c) /\ out s1 = out s).
  { subst s1. destruct (i =? 0)%nat; simpl; [|repeat split; reflexivity].
    destruct (notify_all_spec now (k_observers (ctrl s c)) s) as (L & O & HH). split; [exact L|].
    destruct (HH c Hc) as ((_ & _ & X & _) & _). split; [exact X|exact O]. }
  clearbody s1. destruct H1 as (L1 & P1 & O1).
  set (s2 := match phase_at (ctrl s1 c) _ with Some p => _ | None => s1 end).
  assert (C2 : ctrls s2 = ctrls s1 /\ exists a, out s2 = a ++ out s1 /\
     (forall x, In x a -> match x with OPred _ _ _ | OPredClear | OBegin _ _ _ => False | _ => True end)).
  { subst s2. destruct (phase_at (ctrl s1 c) _); [|split; [auto|exists []; split; [auto|intros ? []]]].
    unfold clear_states. rewrite emits_ctrls, emits_out. split; auto. eexists. split; [reflexivity|].
    intros x Hx; apply in_rev in Hx; apply in_map_iff in Hx; destruct Hx as (y & <- & _); exact I. }
  clearbody s2. destruct C2 as (C2 & a & O2 & Qa).
  match goal with |- context [modify s2 c ?f] => set (s3 := modify s2 c f) end.
  assert (E3 : k_phases (ctrl s3 c) = k_phases (ctrl s c)).
  { subst s3. rewrite ctrl_modify, Nat.eqb_refl, C2, L1. destruct (Nat.ltb_spec c (length (ctrls s))); [|lia].
    simpl. rewrite <- P1. unfold ctrl. rewrite C2. reflexivity. }
  assert (O3 : out s3 = out s2) by reflexivity.
  clearbody s3. replace (phase_at (ctrl s3 c) i) with (@None phase) by (unfold phase_at in *; congruence).
  exists a. split; auto. congruence.
Qed.

(** everything added to the log contains a begin or nothing about predictions *)
Definition grows (s s' : system) : Prop :=
  exists a, out s' = a ++ out s /\
    ((exists c i t, In (OBegin c i t) a) \/
     (forall x, In x a -> match x with OPred _ _ _ | OPredClear | OBegin _ _ _ => False | _ => True end)).
Lemma grows_refl s : grows s s.
Proof. exists []. split; auto. right. intros x []. Qed.
Lemma grows_trans s1 s2 s3 : grows s1 s2 -> grows s2 s3 -> grows s1 s3.
Proof.
  intros (a & E1 & H1) (b & E2 & H2). exists (b ++ a). rewrite E2, E1, app_assoc. split; auto.
  destruct H2 as [(c & i & t & H2)|H2]; [left; exists c, i, t; apply in_or_app; auto|].
  destruct H1 as [(c & i & t & H1)|H1]; [left; exists c, i, t; apply in_or_app; auto|].
  right. intros x Hx. apply in_app_or in Hx. destruct Hx as [Hx|Hx]; [apply (H2 x Hx)|apply (H1 x Hx)].
Qed.
Lemma change_phase_grows now s c i : (c < length (ctrls s))%nat -> grows s (change_phase tps enabled now s c i).
Proof.
  intros Hc. destruct (phase_at (ctrl s c) i) as [p|] eqn:EP.
  - destruct (change_phase_out now s c i p Hc EP) as (pre & q & k & E & _ & _).
    exists (pre ++ rev (predict tps enabled k 6 true (ph_dur p) i []) ++ OPredClear :: OBegin c i now :: q).
    rewrite E, <- !app_assoc. simpl app. split; [reflexivity|].
    left. exists c, i, now. apply in_or_app; right. apply in_or_app; right. simpl. auto.
  - destruct (change_phase_invalid now s c i Hc EP) as (a & E & Q). exists a. auto.
Qed.
Lemma evaluate_grows now s c : (c < length (ctrls s))%nat -> grows s (evaluate tps enabled now s c).
Proof.
  intros Hc. unfold evaluate. cbv zeta.
  assert (G0 : grows s (emit (OEval c now) s)).
  { exists [OEval c now]. split; auto. right. intros x [<-|[]]. exact I. }
  destruct (should_begin _ _).
  - eapply grows_trans; [exact G0|]. 
    assert (G1 : grows (emit (OEval c now) s) (modify (emit (OEval c now) s) c served)) by
      (exists []; split; [reflexivity|right; intros x []]).
    eapply grows_trans; [exact G1|]. apply change_phase_grows. unfold modify. simpl. rewrite upd_length. auto.
  - destruct (exceeded _ _); auto. eapply grows_trans; [exact G0|]. apply change_phase_grows. auto.
Qed.
Lemma evaluates_grow now js s : (forall j, In j js -> (j < length (ctrls s))%nat) ->
  grows s (fold_left (evaluate tps enabled now) js s).
Proof.
  revert s; induction js; simpl; intros s H; [apply grows_refl|].
  assert (Ha : (a < length (ctrls s))%nat) by auto.
  eapply grows_trans; [apply evaluate_grows; auto|]. apply IHjs.
  intros j Hj. destruct (evaluate_spec tps enabled now s a Ha) as (L & _ & _). rewrite L. auto.
Qed.
Lemma step_grows s e : grows s (step tps enabled s e).
Proof.
  destruct e as [now|now c name].
  - simpl. unfold evaluate_all. apply evaluates_grow. intros j Hj. apply in_seq in Hj. lia.
  - destruct (action_cases tps enabled now s c name) as [E|(i & Hj & Vi & E)]; rewrite E; [apply grows_refl|].
    apply change_phase_grows; auto.
Qed.
Lemma run_grows es s : grows s (run tps enabled es s).
Proof.
  unfold run. revert s; induction es; cbn [fold_left]; intros; [apply grows_refl|].
  eapply grows_trans; [apply step_grows|apply IHes].
Qed.
End Pub.

Section PubRun.
Variable tps : Z.
Variable enabled : Z -> bool.
Variable l : list spec.
Hypothesis HT : 0 < tps.
Hypothesis HA : forall j d r ps, nth_error l j = Some (d, r, ps) -> finite ps /\ non_negative ps /\ whole_seconds tps ps.

Definition PInv (s : system) : Prop :=
  match last_change (out s) with
  | None => published (out s) = []
  | Some (c, i, _) => exists d r ps, nth_error l c = Some (d, r, ps) /\ (i < length ps)%nat /\
      forall id, predictions s id = forecast enabled ps i id
  end.

Lemma PInv_quiet s s' a : out s' = a ++ out s ->
  (forall x, In x a -> match x with OPred _ _ _ | OPredClear | OBegin _ _ _ => False | _ => True end) ->
  PInv s -> PInv s'.
Proof.
  intros E Q H. unfold PInv, predictions in *. rewrite E.
  rewrite last_change_quiet by (intros x Hx; specialize (Q x Hx); destruct x; auto).
  rewrite published_app_quiet by (intros x Hx; specialize (Q x Hx); destruct x; auto). exact H.
Qed.

Lemma PInv_change now s c i p : Good l s -> (c < length (ctrls s))%nat -> phase_at (ctrl s c) i = Some p ->
  PInv (change_phase tps enabled now s c i).
Proof.
  intros G Hc EP. destruct (change_phase_out tps enabled now s c i p Hc EP) as (pre & post & k & E & PK & Q).
  destruct (nth_error l c) as [[[d r] ps]|] eqn:Ec; [|apply nth_error_None in Ec; rewrite (proj1 G) in Hc; lia].
  destruct (proj2 G _ _ _ _ Ec) as (_ & _ & Ph & _).
  assert (HI : (i < length ps)%nat).
  { apply nth_error_Some. unfold phase_at in EP. rewrite Ph in EP. congruence. }
  destruct (HA _ _ _ _ Ec) as (F & NN & W).
  unfold PInv, predictions. rewrite E.
  rewrite last_change_quiet by (intros x Hx; specialize (Q x Hx); destruct x; auto).
  rewrite last_change_quiet.
  2:{ intros x Hx. apply in_rev in Hx. apply predict_only_preds in Hx. destruct x; auto. }
  cbn [last_change]. exists d, r, ps. split; [exact Ec|]. split; [exact HI|]. intros id.
  rewrite published_app_quiet by (intros x Hx; specialize (Q x Hx); destruct x; auto).
  rewrite published_preds by (intros x; apply predict_only_preds).
  rewrite Ph in PK.
  assert (ED : ph_dur p = Dur (total (k_phases k) i 1)).
  { rewrite PK. simpl. unfold duration. rewrite Nat.mod_small by auto.
    unfold phase_at in EP. rewrite Ph in EP. rewrite EP. destruct (F p) as (dd & ->); [eapply nth_error_In; eauto|].
    f_equal. lia. }
  rewrite ED. unfold forecast. rewrite <- PK.
  rewrite <- (predict_spec tps enabled k i id) with (first := true) (cur := []).
  - rewrite Nat.add_0_r, Nat.mod_small by (rewrite PK; auto). reflexivity.
  - rewrite PK. intros ->. simpl in HI. lia.
  - rewrite PK. exact F.
  - split; [constructor|intros ? ? []].
  - reflexivity.
  - intros _. rewrite PK, cycle_time_exact by auto. apply Z.ltb_ge.
    destruct (duration_le_cycle ps i F NN HI). simpl. lia.
Qed.

Lemma evaluate_PInv now s c : Good l s -> (c < length l)%nat ->
  PInv s -> PInv (evaluate tps enabled now s c).
Proof.
  intros G Hc H. unfold evaluate. change (ctrl (emit (OEval c now) s) c) with (ctrl s c).
  set (s0 := emit (OEval c now) s).
  assert (P0 : PInv s0).
  { eapply (PInv_quiet s s0 [OEval c now]); auto. intros x [<-|[]]. exact I. }
  assert (G0 : Good l s0) by (eapply Good_static; eauto; intros; apply same_static_refl).
  assert (CP : forall s' i, Good l s' -> out s' = out s0 -> PInv (change_phase tps enabled now s' c i)).
  { intros s' i G' EO. assert (Hc' : (c < length (ctrls s'))%nat) by (rewrite (proj1 G'); auto).
    destruct (phase_at (ctrl s' c) i) as [p|] eqn:EP; [eapply PInv_change; eauto|].
    destruct (change_phase_invalid tps enabled now s' c i Hc' EP) as (a & O2 & Qa).
    eapply (PInv_quiet s0 _ a); auto. congruence. }
  cbv zeta. destruct (should_begin now (ctrl s c)).
  - apply CP; [|reflexivity]. eapply Good_static; [exact G0|unfold modify; simpl; apply upd_length|].
    intros j Hj. rewrite ctrl_modify. destruct (_ && _) eqn:EB; [|apply same_static_refl].
    apply andb_prop in EB. destruct EB as [EB _]. apply Nat.eqb_eq in EB. subst j.
    unfold served. destruct (k_ref (ctrl s0 c)) eqn:ER; repeat split; simpl; auto.
  - destruct (exceeded now (ctrl s c)); [apply CP; auto|exact P0].
Qed.

Lemma run_PInv es s : Good l s -> PInv s -> PInv (run tps enabled es s).
Proof.
  unfold run. revert s; induction es as [|e es IH]; cbn [fold_left]; intros s G H; auto.
  apply IH; [apply step_Good; auto|]. destruct e as [now|now j name].
  - simpl. unfold evaluate_all.
    assert (Q : forall js, (forall j, In j js -> (j < length l)%nat) -> forall s, Good l s -> PInv s ->
              PInv (fold_left (evaluate tps enabled now) js s)).
    { clear - HT HA. induction js; simpl; intros HJ s G H; auto.
      apply IHjs; auto. apply evaluate_Good; auto. apply evaluate_PInv; auto. }
    apply Q; auto. intros j Hj. apply in_seq in Hj. rewrite (proj1 G) in Hj. lia.
  - destruct (action_cases tps enabled now s j name) as [E|(i & Hj & Vi & E)]; rewrite E; auto.
    destruct (phase_at (ctrl s j) i) as [p|] eqn:EP; [|congruence]. eapply PInv_change; eauto.
Qed.
Lemma init_PInv : PInv (init l).
Proof. unfold PInv, init. simpl. reflexivity. Qed.
End PubRun.

Lemma lrun_started_le ps t0 dt ts ts' t : ps <> [] -> 0 < dt -> uniform t0 dt ts -> ts = ts' ++ [t] ->
  snd (fst (lrun ps ts)) <= t.
Proof.
  intros NE DT. revert ts' t. induction ts as [|t1 ts IH] using rev_ind; intros ts' t U E; [destruct ts'; discriminate|].
  apply app_inj_tail in E. destruct E as [<- <-]. apply uniform_snoc in U. destruct U as (U & Et).
  rewrite lrun_snoc. pose proof (lrun_inv ps ts NE) as [F La _ _].
  assert (Q : ts <> [] -> snd (fst (lrun ps ts)) <= t1).
  { intros N. destruct (exists_last N) as (ts2 & t2 & E2). specialize (IH ts2 t2 U E2).
    rewrite E2 in U. apply uniform_snoc in U. destruct U as (_ & E3). rewrite E2 in Et. rewrite app_length in Et. simpl in Et.
    rewrite <- E2 in IH || idtac. nia. }
  destruct (lrun ps ts) as [[cur st] h]. simpl in *.
  destruct (Nat.eqb_spec cur (length ps)); [simpl; lia|].
  destruct ts as [|t2 ts]; [inversion F; subst; congruence|]. specialize (Q ltac:(discriminate)).
  destruct (nth_error ps cur) as [p|]; [|simpl; lia]. destruct (ph_dur p); [|simpl; lia]. destruct (_ <=? _); simpl; lia.
Qed.

Lemma lrun_step_gap ps t0 dt ts : ps <> [] -> 0 < dt -> uniform t0 dt ts ->
  forall i a j b, consecutive (snd (lrun ps ts)) (i, a) (j, b) -> dt <= b - a.
Proof.
  intros NE DT. induction ts as [|t ts IH] using rev_ind; intros U i a j b C.
  - destruct C as (k & C & _). destruct k; discriminate.
  - apply uniform_snoc in U. destruct U as (U & Et).
    pose proof (lrun_inv ps ts NE) as [F La Co No]. specialize (IH U).
    pose proof (lrun_started_le ps t0 dt ts) as ST.
    rewrite lrun_snoc in C. destruct (lrun ps ts) as [[cur st] h] eqn:EL. simpl in *.
    destruct ts as [|t1 ts1].
    { inversion F; subst. rewrite Nat.eqb_refl in C. simpl in C. destruct C as (k & H1 & H2).
      destruct k; simpl in H2; [discriminate|]. destruct k; discriminate. }
    destruct (La ltac:(discriminate)) as (h' & EH & LT). simpl in EH. subst h.
    destruct (Nat.eqb_spec cur (length ps)); [lia|].
    destruct (nth_error ps cur) as [p|] eqn:EP; [|eapply IH; eauto].
    destruct (ph_dur p) as [d0|] eqn:ED; [|eapply IH; eauto].
    destruct (d0 <=? t - st); [|eapply IH; eauto].
    simpl in C. apply consecutive_snoc in C. destruct C as [C|(E & h2 & E2)]; [eapply IH; eauto|].
    inversion E; subst j b. apply app_inj_tail in E2. destruct E2 as [_ E2]. inversion E2; subst i a.
    destruct (@exists_last _ (t1 :: ts1) ltac:(discriminate)) as (ts2 & t2 & E3).
    assert (Et2 : t2 = t - dt).
    { pose proof U as U2. rewrite E3 in U2. apply uniform_snoc in U2. destruct U2 as (_ & ->). rewrite Et.
      change (S (length ts1)) with (length (t1 :: ts1)). rewrite E3, app_length. simpl. rewrite Nat2Z.inj_add. simpl. ring. }
    specialize (ST ts2 t2 NE DT U E3). lia.
Qed.

(** the k-th begin *)
Lemma lrun_kth ps t0 dt ts : ps <> [] -> 0 < dt -> uniform t0 dt ts -> finite ps -> non_negative ps ->
  forall k i b, nth_error (snd (lrun ps ts)) k = Some (i, b) ->
  i = (k mod length ps)%nat /\ t0 + total ps 0 k <= b <= t0 + total ps 0 k + Z.of_nat k * dt.
Proof.
  intros NE DT U F NN. assert (PP : (0 < length ps)%nat) by (destruct ps; [congruence|simpl; lia]).
  pose proof (lrun_inv ps ts NE) as [Fi La Co No]. pose proof (lrun_uniform ps t0 dt ts NE DT U) as UU.
  pose proof (lrun_step_gap ps t0 dt ts NE DT U) as SG.
  induction k as [|k IH]; intros i b E.
  - destruct ts as [|t ts].
    + rewrite Fi in E. discriminate.
    + destruct Fi as (h' & Fi). rewrite Fi in E. inversion E; subst. rewrite Nat.mod_0_l by lia. split; auto.
      specialize (U 0%nat b eq_refl). simpl. lia.
  - destruct (nth_error (snd (lrun ps ts)) k) as [[i0 a]|] eqn:E0.
    2:{ apply nth_error_None in E0. assert (S k < length (snd (lrun ps ts)))%nat by (apply nth_error_Some; congruence). lia. }
    destruct (IH i0 a eq_refl) as (E1 & B).
    assert (C : consecutive (snd (lrun ps ts)) (i0, a) (i, b)) by (exists k; auto).
    destruct (Co _ _ _ _ C) as (_ & J & d & L & G). 
    destruct (UU _ _ _ _ C d L) as [X|X]; pose proof (SG _ _ _ _ C).
    + split.
      * rewrite J, E1. rewrite <- (Nat.add_1_r (k mod _)), <- (Nat.add_1_r k). apply Nat.add_mod_idemp_l. lia.
      * rewrite total_snoc. replace (duration ps (0 + k)) with d.
        2:{ unfold duration. simpl. rewrite <- E1. destruct L as (p & -> & ->). reflexivity. }
        rewrite Nat2Z.inj_succ. lia.
    + split.
      * rewrite J, E1. rewrite <- (Nat.add_1_r (k mod _)), <- (Nat.add_1_r k). apply Nat.add_mod_idemp_l. lia.
      * rewrite total_snoc. replace (duration ps (0 + k)) with d.
        2:{ unfold duration. simpl. rewrite <- E1. destruct L as (p & -> & ->). reflexivity. }
        assert (0 <= d). { destruct L as (p & L1 & L2). eapply NN; eauto. eapply nth_error_In; eauto. }
        rewrite Nat2Z.inj_succ. lia.
Qed.
