(** * Traffic sources: property theorems (C45). *)
From Coq Require Import String Ascii DecimalString DecimalNat.
From Coq Require Import List Bool Arith ZArith QArith Qround Lia Lqa FinFun.
From Verif Require Import M_Source.
Import ListNotations.
Local Open Scope string_scope.

(** ** Names *)
Fixpoint no_underscore (s : string) : Prop :=
  match s with EmptyString => True | String a s' => a <> "_"%char /\ no_underscore s' end.
Lemma uint_no_underscore d : no_underscore (NilEmpty.string_of_uint d).
Proof. induction d; simpl; try exact I; (split; [discriminate | exact IHd]). Qed.
Lemma decimal_inj a b : decimal a = decimal b -> a = b.
Proof.
  unfold decimal. intros E. apply (f_equal NilEmpty.uint_of_string) in E.
  rewrite !NilEmpty.usu in E. injection E as E. now apply Unsigned.to_uint_inj.
Qed.
Lemma append_inv_head s a b : s ++ a = s ++ b -> a = b.
Proof. induction s as [| c s IH]; simpl; [auto |]. intros [= E]. auto. Qed.
Lemma split_at_underscore s s' r r' : no_underscore s -> no_underscore s' ->
  s ++ String "_" r = s' ++ String "_" r' -> s = s' /\ r = r'.
Proof.
  revert s'. induction s as [| c s IH]; intros [| c' s'] N N' E; simpl in *.
  - injection E as ->. auto.
  - injection E as <- _. tauto.
  - injection E as -> _. tauto.
  - injection E as -> E. destruct (IH s') as [-> ->]; try tauto.
Qed.
(** No two spawned entities of any two sources share a name. *)
Theorem C45_names_distinct i j i' j' : entity_name i j = entity_name i' j' -> i = i' /\ j = j'.
Proof.
  unfold entity_name. intros E. apply append_inv_head in E. simpl in E.
  apply split_at_underscore in E as [E1 E2]; try apply uint_no_underscore.
  injection E2 as E2. split; now apply decimal_inj.
Qed.

(** ** Specification: entity number k is due once t0 + k / rate has passed. *)
Definition scheduled (r start : Q) (k : nat) : Q := (start + inject_Z (Z.of_nat k) / r)%Q.
(** The entities spawned so far: the numbers below n, in order. *)
Definition spawned_names (i n : nat) : list string := map (entity_name i) (seq 0 n).

Section Rate.
  Context {W : Type} (spawn : string -> W -> W * bool).
  (** Every attempt is logged. *)
  Definition logged (n : string) (w : W * list string) : (W * list string) * bool :=
    let '(w', ok) := spawn n (fst w) in ((w', snd w ++ [n])%list, ok).

  Lemma due_iff s t : (0 < rate s)%Q -> due s (Some t) = true <-> (scheduled (rate s) (t0 s) (count s) < t)%Q.
  Proof.
    intros R. unfold due, scheduled. destruct (Qeq_bool (rate s) 0) eqn:Z.
    - apply Qeq_bool_iff in Z. exfalso. rewrite Z in R. now apply (Qlt_irrefl 0).
    - rewrite negb_true_iff. set (k := inject_Z (Z.of_nat (count s))).
      assert (E : (1 / rate s * k == k / rate s)%Q) by (field; lra).
      split; intros H.
      + assert (N : ~ (t - t0 s <= 1 / rate s * k)%Q) by (intros L; apply Qle_bool_iff in L; congruence).
        rewrite E in N. lra.
      + destruct (Qle_bool (t - t0 s) (1 / rate s * k)) eqn:L; [| reflexivity].
        apply Qle_bool_iff in L. rewrite E in L. lra.
  Qed.
  Lemma scheduled_mono r start k k' : (0 < r)%Q -> (k <= k')%nat -> (scheduled r start k <= scheduled r start k')%Q.
  Proof.
    intros R L. unfold scheduled. apply Qplus_le_r. unfold Qdiv. apply Qmult_le_compat_r.
    - rewrite <- Zle_Qle. lia.
    - apply Qlt_le_weak, Qinv_lt_0_compat, R.
  Qed.
  Lemma spawned_names_S i n : spawned_names i (S n) = (spawned_names i n ++ [entity_name i n])%list.
  Proof. unfold spawned_names. now rewrite seq_S, map_app. Qed.

  Lemma execute_spec fuel : forall t s w l s' w' l', (0 < rate s)%Q ->
    l = spawned_names (id s) (count s) ->
    execute logged fuel t s (w, l) = Done s' (w', l') ->
    rate s' = rate s /\ t0 s' = t0 s /\ id s' = id s /\ l' = spawned_names (id s) (count s') /\
    (count s <= count s')%nat /\
    (forall k, (count s <= k)%nat -> (k < count s')%nat <-> exists x, t = Some x /\ (scheduled (rate s) (t0 s) k < x)%Q).
  Proof.
    induction fuel as [| fuel IH]; intros t s w l s' w' l' R L E; simpl in E; [discriminate |].
    destruct (due s t) eqn:D.
    - unfold logged at 1 in E. simpl in E. destruct (spawn (entity_name (id s) (count s)) w) as [w1 ok] eqn:P.
      destruct ok; [| discriminate]. destruct t as [x |]; [| discriminate].
      apply IH in E; [| exact R | simpl; rewrite spawned_names_S, L; reflexivity]. simpl in E.
      destruct E as (E1 & E2 & E3 & E4 & E5 & E6).
      refine (conj E1 (conj E2 (conj E3 (conj E4 (conj _ _))))); [lia |]. intros k K. split.
      + intros Y. apply due_iff in D; [| exact R].
        destruct (Nat.eq_dec k (count s)) as [-> | N]; [eauto |]. apply E6; [lia | exact Y].
      + intros X. destruct (Nat.eq_dec k (count s)) as [-> | N]; [lia |]. apply E6; [lia | exact X].
    - injection E as <- <- <-. repeat split; auto; try lia.
      intros (x & -> & X). exfalso.
      assert (due s (Some x) = true); [| congruence]. apply due_iff; [exact R |].
      eapply Qle_lt_trans; [apply scheduled_mono; eassumption | exact X].
  Qed.

  (** C45. Over any schedule of updates (times in any order, undefined ones included) that do not throw,
      a source of positive rate has attempted exactly the entities 0, 1, ..., n-1 once each, in order,
      where n is determined by the rate: entity k is among them iff some update happened after
      t0 + k / rate. *)
  Theorem C45_rate fuel r i now delay ts w0 s w l : (0 < r)%Q ->
    let t0 := ((match now with Some t => t | None => 0 end) + (if Qle_bool 0 delay then delay else 0))%Q in
    executions logged fuel ts (new_source r i now delay) (w0, []) = Done s (w, l) ->
    exists n, l = spawned_names i n /\ NoDup l /\
      forall k, (k < n)%nat <-> exists t, In (Some t) ts /\ (scheduled r t0 k < t)%Q.
  Proof.
    intros R T0 E. exists (count s).
    assert (G : forall ts s0 w0 l0 s w l, (0 < rate s0)%Q -> l0 = spawned_names (id s0) (count s0) ->
      executions logged fuel ts s0 (w0, l0) = Done s (w, l) ->
      l = spawned_names (id s0) (count s) /\ (count s0 <= count s)%nat /\
      forall k, (count s0 <= k)%nat -> (k < count s)%nat <-> exists t, In (Some t) ts /\ (scheduled (rate s0) (M_Source.t0 s0) k < t)%Q).
    { clear. induction ts as [| t ts IH]; intros s0 w0 l0 s w l R L E; simpl in E.
      - injection E as <- <- <-. repeat split; auto; try lia. intros (x & [] & _).
      - destruct (execute logged fuel t s0 (w0, l0)) as [s1 [w1 l1] | |] eqn:X; try discriminate.
        destruct (execute_spec _ _ _ _ _ _ _ _ R L X) as (A1 & A2 & A3 & A4 & A5 & A6).
        apply IH in E; [| now rewrite A1 | now rewrite A3]. destruct E as (B1 & B2 & B3).
        rewrite A3 in B1. split; [exact B1 |]. split; [lia |]. intros k K. rewrite A1, A2 in B3.
        destruct (le_lt_dec (count s1) k) as [C | C].
        + rewrite (B3 k C). split.
          * intros (x & I & S). exists x. split; [now right | exact S].
          * intros (x & [-> | I] & S); [| eauto]. exfalso.
            assert (k < count s1)%nat; [apply A6; eauto | lia].
        + split; [| lia]. intros _. apply A6 in C as (x & -> & S); [| exact K].
          exists x. split; [now left | exact S]. }
    destruct (G ts (new_source r i now delay) _ _ _ _ _ R eq_refl E) as (B1 & B2 & B3).
    simpl in B1, B3. split; [exact B1 |]. split.
    - rewrite B1. unfold spawned_names. apply Injective_map_NoDup; [| apply seq_NoDup].
      intros a b H. now apply C45_names_distinct in H.
    - intros k. apply B3. lia.
  Qed.

  (** An exception: only the entities before the failing one were spawned, and the failing one is tried
      again by the next execution. *)
  Theorem C45_exception fuel t s w l s' w' l' : (0 < rate s)%Q ->
    execute logged fuel t s (w, l) = Threw s' (w', l') ->
    exists k, (count s <= k)%nat /\ count s' = k /\ id s' = id s /\
      l' = (l ++ map (entity_name (id s)) (seq (count s) (S k - count s)))%list.
  Proof.
    revert s w l. induction fuel as [| fuel IH]; intros s w l R E; simpl in E; [discriminate |].
    destruct (due s t) eqn:D; [| discriminate].
    unfold logged at 1 in E. simpl in E. destruct (spawn (entity_name (id s) (count s)) w) as [w1 ok] eqn:P.
    destruct ok.
    - apply IH in E; [| exact R]. destruct E as (k & K1 & K2 & K3 & K4). simpl in *.
      exists k. split; [lia |]. split; [exact K2 |]. split; [exact K3 |]. rewrite K4.
      rewrite <- app_assoc. cbn [app]. f_equal.
      replace (match count s with O => S k | S l => k - l end)%nat with (S (k - count s)) by (destruct (count s); lia).
      reflexivity.
    - injection E as <- <- <-. exists (count s). split; [lia |]. split; [reflexivity |]. split; [reflexivity |].
      replace (S (count s) - count s)%nat with 1%nat by lia. reflexivity.
  Qed.

  (** The loop ends for every positive rate. *)
  Theorem C45_terminates t s w : (0 < rate s)%Q -> exists fuel, execute spawn fuel t s w <> OutOfFuel.
  Proof.
    intros R. destruct t as [t |]; [| exists 1%nat; simpl; discriminate].
    assert (G : forall n s w, (0 < rate s)%Q -> ~ (scheduled (rate s) (t0 s) (count s + n) < t)%Q ->
      execute spawn (S n) (Some t) s w <> OutOfFuel).
    { clear s w R. induction n as [| n IH]; intros s w R N.
      - rewrite Nat.add_0_r in N. cbn [execute]. destruct (due s (Some t)) eqn:D; [| discriminate].
        apply due_iff in D; [contradiction | exact R].
      - cbn [execute]. destruct (due s (Some t)) eqn:D; [| discriminate].
        destruct (spawn (entity_name (id s) (count s)) w) as [w1 []]; [| discriminate].
        apply IH; [exact R |]. simpl. now rewrite Nat.add_succ_r in N. }
    set (n := Z.to_nat (Qceiling ((t - t0 s) * rate s))).
    exists (S n). apply G; [exact R |]. unfold scheduled. intros H.
    assert (C : (inject_Z (Z.of_nat (count s + n)) < (t - t0 s) * rate s)%Q).
    { assert (X : (inject_Z (Z.of_nat (count s + n)) / rate s < t - t0 s)%Q) by lra.
      apply (Qmult_lt_r _ _ (rate s)) in X; [| exact R].
      assert (Y : (inject_Z (Z.of_nat (count s + n)) / rate s * rate s == inject_Z (Z.of_nat (count s + n)))%Q) by (field; lra).
      rewrite Y in X. exact X. }
    pose proof (Qle_ceiling ((t - t0 s) * rate s)) as U.
    assert (V : (inject_Z (Z.of_nat (count s + n)) < inject_Z (Qceiling ((t - t0 s) * rate s)))%Q) by lra.
    rewrite <- Zlt_Qlt in V. unfold n in V. lia.
  Qed.
  (** A rate of zero spawns nothing; a negative one never lets the frame end. *)
  Theorem C45_zero_rate fuel t s w : (rate s == 0)%Q -> execute spawn (S fuel) t s w = Done s w.
  Proof. intros Z. simpl. unfold due. apply Qeq_bool_iff in Z. rewrite Z. now destruct t. Qed.
  Theorem C45_negative_rate_never_ends fuel t s w : (rate s < 0)%Q -> (t0 s < t)%Q ->
    (forall n w, snd (spawn n w) = true) -> execute spawn fuel (Some t) s w = OutOfFuel.
  Proof.
    intros R T A. revert s w R T. induction fuel as [| fuel IH]; intros s w R T; [reflexivity |].
    cbn [execute]. assert (due s (Some t) = true) as ->.
    { unfold due. destruct (Qeq_bool (rate s) 0) eqn:Z.
      - apply Qeq_bool_iff in Z. lra.
      - apply negb_true_iff. destruct (Qle_bool _ _) eqn:L; [| reflexivity]. apply Qle_bool_iff in L. exfalso.
        assert (P : (1 / rate s * inject_Z (Z.of_nat (count s)) <= 0)%Q).
        { assert (P1 : (0 <= inject_Z (Z.of_nat (count s)))%Q) by (change 0%Q with (inject_Z 0); rewrite <- Zle_Qle; lia).
          assert (P2 : (1 / rate s == - (1 / - rate s))%Q) by (field; lra).
          assert (P3 : (0 < 1 / - rate s)%Q) by (apply Qlt_shift_div_l; lra).
          rewrite P2. nra. }
        lra. }
    specialize (A (entity_name (id s) (count s)) w).
    destruct (spawn (entity_name (id s) (count s)) w) as [w1 ok]. simpl in A. subst ok.
    now apply IH.
  Qed.
End Rate.

(** Rate 2 from t = 1: at 1.0 nothing, at 1.1 one, at 1.6 the second, at 3.0 up to the fourth. *)
Example C45_example :
  match executions (logged (fun _ (w : unit) => (w, true))) 10
          [None; Some 1; Some (11 # 10); Some (16 # 10); Some (1 # 2); Some 3]%Q (new_source 2 7 (Some 0%Q) 1) (tt, []) with
  | Done s (_, l) => count s = 4%nat /\ l = spawned_names 7 4
  | _ => False
  end.
Proof. vm_compute. auto. Qed.
Example C45_name_example : entity_name 12 30 = "TrafficSource_12_Entity_30".
Proof. reflexivity. Qed.

Print Assumptions C45_names_distinct.
Print Assumptions C45_rate.
Print Assumptions C45_exception.
Print Assumptions C45_terminates.
Print Assumptions C45_zero_rate.
Print Assumptions C45_negative_rate_never_ends.
