(** * Proofs about traversing and marking *)

From Coq Require Import ZArith QArith Qround Qabs List Bool Lia Lqa.
From Verif Require Import M_Grid S_Grid.
Import ListNotations.
Open Scope Z_scope.

Lemma inj_succ z : (inject_Z (z + 1) == inject_Z z + 1)%Q.
Proof. rewrite inject_Z_plus. reflexivity. Qed.

Lemma inj_pred z : (inject_Z (z + -1) == inject_Z z - 1)%Q.
Proof. rewrite inject_Z_plus. reflexivity. Qed.

Lemma qle_spec a b : Qle_bool a b = true <-> (a <= b)%Q.
Proof. apply Qle_bool_iff. Qed.

Lemma qle_false a b : Qle_bool a b = false <-> (b < a)%Q.
Proof.
  split; intros H.
  - apply Qnot_le_lt. intros L. apply qle_spec in L. congruence.
  - destruct (Qle_bool a b) eqn:E; auto. apply qle_spec in E. exfalso. lra.
Qed.

Lemma qeq_false a b : Qeq_bool a b = false -> ~ (a == b)%Q.
Proof. intros H E. apply Qeq_bool_iff in E. congruence. Qed.

(** ** One coordinate *)

(** The line enters column [c] by the time [T] and leaves it at [t]. *)
Definition axis (s v : Q) (c : Z) (t : time) (T : Q) : Prop :=
  ((0 < v -> inject_Z c <= s + T * v /\ exists q, t = At q /\ s + q * v == inject_Z c + 1) /\
   (v < 0 -> s + T * v <= inject_Z c + 1 /\ exists q, t = At q /\ s + q * v == inject_Z c) /\
   (v == 0 -> t = Never /\ inject_Z c <= s <= inject_Z c + 1))%Q /\
  (forall q, t = At q -> (T <= q)%Q).

Lemma sign_cases (v : Q) : (0 < v \/ v < 0 \/ v == 0)%Q.
Proof. destruct (Q_dec 0 v) as [[?|?]|?]; [left|right; left|right; right]; lra. Qed.

Lemma axis_span s v c t T u : axis s v c t T -> (T <= u)%Q ->
  (forall q, t = At q -> (u <= q)%Q) ->
  (inject_Z c <= s + u * v <= inject_Z (c + 1))%Q.
Proof.
  intros [(P & N & Z) O] L H. rewrite inj_succ.
  destruct (sign_cases v) as [V|[V|V]].
  - destruct (P V) as (A & q & -> & E). specialize (H q eq_refl).
    split; nra.
  - destruct (N V) as (A & q & -> & E). specialize (H q eq_refl). split; nra.
  - destruct (Z V) as (_ & A & B). rewrite V. split; lra.
Qed.

Lemma axis_wait s v c t T u : axis s v c t T -> (T <= u)%Q ->
  (forall q, t = At q -> (u <= q)%Q) -> axis s v c t u.
Proof.
  intros [(P & N & Z) O] L H. split; [|auto]. repeat split.
  - destruct (P H0) as [A _]. nra.
  - apply P; auto.
  - destruct (N H0) as [A _]. nra.
  - apply N; auto.
  - apply Z; auto.
  - apply Z; auto.
  - apply Z; auto.
Qed.

Lemma period_pos v : (0 < v)%Q -> period v = At (1 / v).
Proof.
  intros V. unfold period, step. destruct (Qeq_bool v 0) eqn:E.
  - apply Qeq_bool_iff in E. lra.
  - replace (Qle_bool 0 v) with true; [reflexivity|]. symmetry. apply qle_spec. lra.
Qed.

Lemma period_neg v : (v < 0)%Q -> period v = At (-1 / v).
Proof.
  intros V. unfold period, step. destruct (Qeq_bool v 0) eqn:E.
  - apply Qeq_bool_iff in E. lra.
  - replace (Qle_bool 0 v) with false; [reflexivity|]. symmetry. apply qle_false. lra.
Qed.

Lemma step_pos v : (0 < v)%Q -> step v = 1.
Proof. intros. unfold step. replace (Qle_bool 0 v) with true; auto. symmetry. apply qle_spec. lra. Qed.

Lemma step_neg v : (v < 0)%Q -> step v = -1.
Proof. intros. unfold step. replace (Qle_bool 0 v) with false; auto. symmetry. apply qle_false. lra. Qed.

Lemma axis_step s v c q T : axis s v c (At q) T ->
  axis s v (c + step v) (later (At q) (period v)) q.
Proof.
  intros [(P & N & Z) O].
  destruct (sign_cases v) as [V|[V|V]].
  - destruct (P V) as (A & q' & E & B). injection E as <-.
    rewrite step_pos, period_pos by auto. simpl.
    assert (I : (1 / v * v == 1)%Q) by (field; lra).
    assert (J : (0 < 1 / v)%Q) by (apply Qlt_shift_div_l; lra).
    split.
    + repeat split; try (intros; lra). 
      * rewrite inj_succ. lra.
      * eexists. split; [reflexivity|]. rewrite inj_succ.
        setoid_replace ((q + 1 / v) * v)%Q with (q * v + 1 / v * v)%Q by ring. lra.
    + intros r R. injection R as <-. lra.
  - destruct (N V) as (A & q' & E & B). injection E as <-.
    rewrite step_neg, period_neg by auto. simpl.
    assert (I : (-1 / v * v == -1)%Q) by (field; lra).
    assert (J : (0 < -1 / v)%Q).
    { setoid_replace (-1 / v)%Q with (1 / - v)%Q by (field; lra). apply Qlt_shift_div_l; lra. }
    split.
    + repeat split; try (intros; lra).
      * rewrite inj_pred. lra.
      * eexists. split; [reflexivity|]. rewrite inj_pred.
        setoid_replace ((q + -1 / v) * v)%Q with (q * v + -1 / v * v)%Q by ring. lra.
    + intros r R. injection R as <-. lra.
  - destruct (Z V) as [? _]. discriminate.
Qed.

Lemma floor_bounds s : (inject_Z (Qfloor s) <= s < inject_Z (Qfloor s) + 1)%Q.
Proof.
  split; [apply Qfloor_le|]. rewrite <- inj_succ. apply Qlt_floor.
Qed.

Lemma ceil_bounds s : (inject_Z (Qceiling s) - 1 < s <= inject_Z (Qceiling s))%Q.
Proof.
  split; [|apply Qle_ceiling]. 
  pose proof (Qceiling_lt s) as H. unfold Z.sub in H. rewrite inj_pred in H. exact H.
Qed.

Lemma inj_lt a b : (inject_Z a < inject_Z b)%Q <-> a < b.
Proof. rewrite <- Zlt_Qlt. reflexivity. Qed.

Lemma inj_le a b : (inject_Z a <= inject_Z b)%Q <-> a <= b.
Proof. rewrite <- Zle_Qle. reflexivity. Qed.

Lemma inj_between a b s : (inject_Z a <= s < inject_Z a + 1)%Q -> (inject_Z b <= s < inject_Z b + 1)%Q -> a = b.
Proof.
  intros A B. rewrite <- !inj_succ in *.
  assert (a < b + 1) by (apply inj_lt; lra). assert (b < a + 1) by (apply inj_lt; lra). lia.
Qed.

Lemma ceil_floor s : (forall z, ~ s == inject_Z z)%Q -> Qceiling s = Qfloor s + 1.
Proof.
  intros N. pose proof (floor_bounds s) as A. pose proof (ceil_bounds s) as B.
  assert (C : (inject_Z (Qceiling s - 1) <= s < inject_Z (Qceiling s - 1) + 1)%Q).
  { unfold Z.sub. rewrite inj_pred. split; [lra|].
    destruct (Qlt_le_dec s (inject_Z (Qceiling s))) as [L|L]; [lra|].
    exfalso. apply (N (Qceiling s)). lra. }
  pose proof (inj_between _ _ _ A C). lia.
Qed.

Lemma axis_begin s v : (0 <= s)%Q -> ((0 < v)%Q -> forall z, ~ (s == inject_Z z)%Q) ->
  axis s v (cut s) (first_time s v) 0.
Proof.
  intros S N. unfold cut. replace (Qle_bool 0 s) with true by (symmetry; apply qle_spec; auto).
  pose proof (floor_bounds s) as F. unfold first_time.
  destruct (sign_cases v) as [V|[V|V]].
  - destruct (Qeq_bool v 0) eqn:E; [apply Qeq_bool_iff in E; lra|].
    replace (Qle_bool v 0) with false by (symmetry; apply qle_false; lra).
    specialize (N V). rewrite (ceil_floor s N). split.
    + repeat split; try (intros; lra). eexists. split; [reflexivity|].
      rewrite inj_succ. setoid_replace ((inject_Z (Qfloor s) + 1 - s) / v * v)%Q
        with (inject_Z (Qfloor s) + 1 - s)%Q by (field; lra). lra.
    + intros q Q. injection Q as <-. rewrite inj_succ. apply Qle_shift_div_l; lra.
  - destruct (Qeq_bool v 0) eqn:E; [apply Qeq_bool_iff in E; lra|].
    replace (Qle_bool v 0) with true by (symmetry; apply qle_spec; lra). split.
    + repeat split; try (intros; lra). eexists. split; [reflexivity|].
      setoid_replace ((inject_Z (Qfloor s) - s) / v * v)%Q
        with (inject_Z (Qfloor s) - s)%Q by (field; lra). lra.
    + intros q Q. injection Q as <-.
      setoid_replace ((inject_Z (Qfloor s) - s) / v)%Q with ((s - inject_Z (Qfloor s)) / - v)%Q by (field; lra).
      apply Qle_shift_div_l; lra.
  - replace (Qeq_bool v 0) with true by (symmetry; apply Qeq_bool_iff; auto).
    unfold period. replace (Qeq_bool v 0) with true by (symmetry; apply Qeq_bool_iff; auto).
    split; [|discriminate]. repeat split; try (intros; lra).
Qed.

(** ** Both coordinates *)
Section walk.
Variables sx sy vx vy : Q.

Definition place (u : Q) : Q * Q := ((sx + u * vx)%Q, (sy + u * vy)%Q).

Definition both (i : iterator) (T : Q) : Prop :=
  axis sx vx (cx i) (tx i) T /\ axis sy vy (cy i) (ty i) T.

Lemma both_span i T u : both i T -> (T <= u)%Q ->
  (forall q, tx i = At q -> (u <= q)%Q) -> (forall q, ty i = At q -> (u <= q)%Q) ->
  in_cell (cx i, cy i) (place u).
Proof.
  intros [A B] L X Y. split; simpl; eapply axis_span; eauto.
Qed.

(** One step happens at a time [q], in the unit interval, before which the cell is not left. *)
Lemma step_both i T : both i T -> unfinished i = true ->
  exists q, (T <= q)%Q /\ (q <= 1)%Q /\ both (next vx vy i) q /\
    (forall r, tx i = At r -> (q <= r)%Q) /\ (forall r, ty i = At r -> (q <= r)%Q) /\
    neighbours (cx i, cy i) (cx (next vx vy i), cy (next vx vy i)).
Proof.
  intros [A B] U. unfold next.
  assert (STEP : forall v, Z.abs (step v) = 1) by (intros; unfold step; destruct (Qle_bool 0 v); auto).
  destruct (before (tx i) (ty i)) eqn:E.
  - destruct (tx i) as [q|] eqn:X; [|discriminate]. exists q.
    assert (OX : (T <= q)%Q) by (apply A; auto).
    assert (OY : forall r, ty i = At r -> (q <= r)%Q).
    { intros r R. rewrite R in E. simpl in E. apply negb_true_iff, qle_false in E. lra. }
    split; [auto|]. split.
    + unfold unfinished in U. rewrite X in U. apply orb_true_iff in U. destruct U as [U|U].
      * apply qle_spec. exact U.
      * destruct (ty i) as [r|]; [|discriminate]. simpl in U. apply qle_spec in U.
        specialize (OY r eq_refl). lra.
    + simpl. split; [split; simpl|split; [|split]].
      * eapply axis_step; eauto.
      * eapply axis_wait; eauto.
      * intros r R. injection R as <-. lra.
      * exact OY.
      * unfold neighbours. simpl. pose proof (STEP vx). lia.
  - destruct (ty i) as [q|] eqn:Y.
    + exists q.
      assert (OY : (T <= q)%Q) by (apply B; auto).
      assert (OX : forall r, tx i = At r -> (q <= r)%Q).
      { intros r R. rewrite R in E. simpl in E. apply negb_false_iff, qle_spec in E. lra. }
      split; [auto|]. split.
      * unfold unfinished in U. rewrite Y in U. apply orb_true_iff in U. destruct U as [U|U].
        -- destruct (tx i) as [r|]; [|discriminate]. simpl in U. apply qle_spec in U.
           specialize (OX r eq_refl). lra.
        -- apply qle_spec. exact U.
      * simpl. split; [split; simpl|split; [|split]].
        -- eapply axis_wait; eauto.
        -- eapply axis_step; eauto.
        -- exact OX.
        -- intros r R. injection R as <-. lra.
        -- unfold neighbours. simpl. pose proof (STEP vy). lia.
    + exfalso. unfold unfinished in U. rewrite Y in U. destruct (tx i); discriminate.
Qed.

Lemma finished_both i T : both i T -> (T <= 1)%Q -> unfinished i = false ->
  forall u, (T <= u <= 1)%Q -> in_cell (cx i, cy i) (place u).
Proof.
  intros B L U u [H1 H2]. unfold unfinished in U. apply orb_false_iff in U. destruct U as [X Y].
  apply (both_span i T u B H1).
  - intros q Q. rewrite Q in X. simpl in X. apply qle_false in X. lra.
  - intros q Q. rewrite Q in Y. simpl in Y. apply qle_false in Y. lra.
Qed.

Lemma walk_passes : forall n i T l e, both i T -> (T <= 1)%Q -> walk n vx vy i = Some (l, e) ->
  passes place T (l ++ [e]) /\ connected (l ++ [e]) /\
  hd_error (l ++ [e]) = Some (cx i, cy i).
Proof.
  induction n as [|n IH]; intros i T l e B L W; simpl in W.
  - destruct (unfinished i) eqn:U; [discriminate|]. injection W as <- <-. simpl.
    split; [|split; [constructor|reflexivity]].
    apply passes_last; auto. apply finished_both; auto.
  - destruct (unfinished i) eqn:U.
    + destruct (step_both i T B U) as (q & Q1 & Q2 & Bq & X & Y & N).
      destruct (walk n vx vy (next vx vy i)) as [[l' e']|] eqn:W'; [|discriminate].
      injection W as <- <-. destruct (IH _ _ _ _ Bq Q2 W') as (P & C & H). simpl.
      split; [|split; [|reflexivity]].
      * eapply passes_more; eauto. intros u [U1 U2]. apply (both_span i T u); auto.
        -- intros r R. specialize (X r R). lra.
        -- intros r R. specialize (Y r R). lra.
      * destruct (l' ++ [e']) as [|b m] eqn:E; [discriminate|]. injection H as ->.
        constructor; auto.
    + injection W as <- <-. simpl. split; [|split; [constructor|reflexivity]].
      apply passes_last; auto. apply finished_both; auto.
Qed.
End walk.

(** ** Ending *)
Definition left_over (v : Q) (t : time) : Z :=
  match t with
  | At q => Z.max 0 (Qfloor ((1 - q) * Qabs v) + 1)
  | Never => 0
  end.

Lemma left_step v q : ~ (v == 0)%Q -> (q <= 1)%Q ->
  left_over v (later (At q) (period v)) + 1 <= left_over v (At q).
Proof.
  intros V Q. 
  assert (P : exists p, period v = At p /\ (p * Qabs v == 1)%Q).
  { destruct (sign_cases v) as [S|[S|S]]; [| |contradiction].
    - rewrite period_pos by auto. eexists. split; [reflexivity|].
      rewrite Qabs_pos by lra. field. lra.
    - rewrite period_neg by auto. eexists. split; [reflexivity|].
      rewrite Qabs_neg by lra. field. lra. }
  destruct P as (p & -> & P). unfold left_over, later.
  assert (A : (0 <= Qabs v)%Q) by apply Qabs_nonneg.
  assert (F0 : 0 <= Qfloor ((1 - q) * Qabs v)).
  { change 0 with (Qfloor 0). apply Qfloor_resp_le. nra. }
  assert (E : ((1 - (q + p)) * Qabs v == (1 - q) * Qabs v - 1)%Q).
  { setoid_replace ((1 - (q + p)) * Qabs v)%Q with ((1 - q) * Qabs v - p * Qabs v)%Q by ring. rewrite P. ring. }
  assert (F : Qfloor ((1 - (q + p)) * Qabs v) = Qfloor ((1 - q) * Qabs v) - 1).
  { rewrite E. pose proof (floor_bounds ((1 - q) * Qabs v)) as B1.
    pose proof (floor_bounds ((1 - q) * Qabs v - 1)) as B2.
    apply (inj_between _ _ ((1 - q) * Qabs v - 1)); auto.
    unfold Z.sub. rewrite inj_pred. lra. }
  rewrite F. lia.
Qed.

Lemma left_nonneg v t : 0 <= left_over v t.
Proof. destruct t; simpl; lia. Qed.

Definition moves (v : Q) (t : time) : Prop := (v == 0)%Q -> t = Never.

Lemma moves_later v t : moves v t -> moves v (later t (period v)).
Proof. intros M V. rewrite (M V). reflexivity. Qed.

Lemma walk_ends vx vy : forall n i, moves vx (tx i) -> moves vy (ty i) ->
  left_over vx (tx i) + left_over vy (ty i) <= Z.of_nat n ->
  exists r, walk n vx vy i = Some r.
Proof.
  assert (NEXT : forall i, moves vx (tx i) -> moves vy (ty i) -> unfinished i = true ->
    moves vx (tx (next vx vy i)) /\ moves vy (ty (next vx vy i)) /\
    left_over vx (tx (next vx vy i)) + left_over vy (ty (next vx vy i)) + 1 <=
    left_over vx (tx i) + left_over vy (ty i)).
  { intros i MX MY U. unfold next, unfinished in *. destruct (before (tx i) (ty i)) eqn:E; simpl.
    - destruct (tx i) as [q|] eqn:X; [|discriminate].
      assert (Q : (q <= 1)%Q).
      { apply orb_true_iff in U. destruct U as [U|U]; [apply qle_spec; exact U|].
        destruct (ty i) as [r|]; [|discriminate]. simpl in E, U.
        apply negb_true_iff, qle_false in E. apply qle_spec in U. lra. }
      assert (NV : ~ (vx == 0)%Q) by (intros V; specialize (MX V); discriminate).
      split; [|split; auto].
      + apply moves_later. intros V. contradiction.
      + pose proof (left_step vx q NV Q). simpl in *. lia.
    - destruct (ty i) as [q|] eqn:Y.
      + assert (Q : (q <= 1)%Q).
        { apply orb_true_iff in U. destruct U as [U|U]; [|apply qle_spec; exact U].
          destruct (tx i) as [r|]; [|discriminate]. simpl in E, U.
          apply negb_false_iff, qle_spec in E. apply qle_spec in U. lra. }
        assert (NV : ~ (vy == 0)%Q) by (intros V; specialize (MY V); discriminate).
        split; [auto|]. split.
        * apply moves_later. intros V. contradiction.
        * pose proof (left_step vy q NV Q). simpl in *. lia.
      + destruct (tx i); discriminate. }
  induction n as [|n IH]; intros i MX MY L; simpl.
  - destruct (unfinished i) eqn:U; [|eauto].
    destruct (NEXT i MX MY U) as (_ & _ & D).
    pose proof (left_nonneg vx (tx (next vx vy i))). pose proof (left_nonneg vy (ty (next vx vy i))). lia.
  - destruct (unfinished i) eqn:U; [|eauto].
    destruct (NEXT i MX MY U) as (A & B & D). destruct (IH _ A B) as ([l e] & ->); [lia|]. eauto.
Qed.

Lemma left_begin s e : left_over (e - s) (first_time s (e - s)) <= Z.abs (Qfloor e - Qfloor s) + 2.
Proof.
  unfold first_time. destruct (Qeq_bool (e - s) 0) eqn:V0.
  - unfold period. rewrite V0. simpl. lia.
  - apply qeq_false in V0. unfold left_over.
    pose proof (floor_bounds s) as Fs. pose proof (floor_bounds e) as Fe. pose proof (ceil_bounds s) as Cs.
    destruct (Qle_bool (e - s) 0) eqn:V.
    + apply qle_spec in V. rewrite Qabs_neg by lra.
      assert (X : ((1 - (inject_Z (Qfloor s) - s) / (e - s)) * - (e - s) == inject_Z (Qfloor s) - e)%Q) by (field; lra).
      rewrite X. pose proof (floor_bounds (inject_Z (Qfloor s) - e)) as B. set (k := Qfloor (inject_Z (Qfloor s) - e)) in *.
      assert (k + Qfloor e < Qfloor s + 1).
      { apply inj_lt. rewrite inject_Z_plus, inj_succ. lra. }
      lia.
    + apply qle_false in V. rewrite Qabs_pos by lra.
      assert (X : ((1 - (inject_Z (Qceiling s) - s) / (e - s)) * (e - s) == e - inject_Z (Qceiling s))%Q) by (field; lra).
      rewrite X. pose proof (floor_bounds (e - inject_Z (Qceiling s))) as B. set (k := Qfloor (e - inject_Z (Qceiling s))) in *.
      assert (k + Qfloor s < Qfloor e + 1).
      { apply inj_lt. rewrite inject_Z_plus, inj_succ. lra. }
      lia.
Qed.

Lemma moves_begin s v : moves v (first_time s v).
Proof.
  intros V. unfold first_time, period. replace (Qeq_bool v 0) with true; auto.
  symmetry. apply Qeq_bool_iff. exact V.
Qed.

Lemma traverse_ends p q n : (enough p q <= n)%nat -> exists r, traverse n p q = Some r.
Proof.
  intros H. unfold traverse. apply walk_ends; simpl; try apply moves_begin.
  pose proof (left_begin (fst p) (fst q)). pose proof (left_begin (snd p) (snd q)).
  unfold enough in H. lia.
Qed.

Lemma walk_more vx vy : forall n i r, walk n vx vy i = Some r -> forall m, (n <= m)%nat ->
  walk m vx vy i = Some r.
Proof.
  induction n as [|n IH]; intros i r W m L; simpl in W.
  - destruct (unfinished i) eqn:U; [discriminate|]. destruct m; simpl; rewrite U; auto.
  - destruct m as [|m]; [lia|]. simpl. destruct (unfinished i); auto.
    destruct (walk n vx vy (next vx vy i)) as [[l e]|] eqn:E; [|discriminate].
    rewrite (IH _ _ E) by lia. auto.
Qed.
