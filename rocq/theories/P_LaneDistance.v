(** Proofs about alternative poses and distances. *)
From Coq Require Import ZArith QArith List Bool Lia Lqa.
From Verif Require Import M_Lane S_Lane P_Lane P_LaneWalk P_LaneRoute.
Import ListNotations.
Local Open Scope Q_scope.

(** ** alternativeLaneletPoses *)
Fixpoint gather_alts (f : pose -> option (list pose)) (l : list pose) : option (list pose) :=
  match l with
  | [] => Some []
  | q :: r =>
      match f q, gather_alts f r with
      | Some [], Some y => Some (q :: y)
      | Some x, Some y => Some (x ++ y)
      | _, _ => None
      end
  end.

Lemma alternatives_eq : forall m n p, alternatives m (S n) p =
  if Qltb (sval p) 0 then
    gather_alts (alternatives m n) (map (fun a => at_lane p a (sval p + len m a)) (previous m (lane p)))
  else if Qltb (len m (lane p)) (sval p) then
    gather_alts (alternatives m n)
      (map (fun a => at_lane p a (sval p - len m (lane p))) (next m (lane p)))
  else Some [p].
Proof.
  intros m n p. cbn [alternatives].
  assert (E : forall l, (fix each (l : list pose) : option (list pose) :=
        match l with
        | [] => Some []
        | q :: r =>
            match alternatives m n q, each r with
            | Some [], Some y => Some (q :: y)
            | Some x, Some y => Some (x ++ y)
            | _, _ => None
            end
        end) l = gather_alts (alternatives m n) l).
  { induction l as [| q r IH]; [reflexivity|]. cbn [gather_alts]. rewrite <- IH. reflexivity. }
  rewrite !E. reflexivity.
Qed.

Lemma gather_alts_in : forall f l y q, gather_alts f l = Some y ->
  (In q y <-> exists p x, In p l /\ f p = Some x /\ (In q x \/ (x = [] /\ q = p))).
Proof.
  intros f; induction l as [| p r IH]; intros y q H; cbn in H.
  - inversion H; subst. split; [intros [] | intros (p & x & [] & _)].
  - destruct (f p) as [x|] eqn:Ef; [| discriminate].
    destruct (gather_alts f r) as [y'|] eqn:Eg; [| destruct x; discriminate].
    specialize (IH y' q eq_refl).
    assert (Hy : In q y <-> (In q x \/ (x = [] /\ q = p)) \/ In q y').
    { destruct x as [| x0 x]; inversion H; subst.
      - cbn. split; [intros [-> | E] | intros [[[] | [_ ->]] | E]]; auto.
      - rewrite app_comm_cons, in_app_iff. split; [intros [E | E] | intros [[E | [E _]] | E]];
          auto; discriminate. }
    rewrite Hy, IH. split.
    + intros [E | (p' & x' & E1 & E2 & E3)].
      * exists p, x; split; [left; auto | auto].
      * exists p', x'; split; [right; auto | auto].
    + intros (p' & x' & [E1 | E1] & E2 & E3).
      * subst p'. left. rewrite Ef in E2; inversion E2; subst; auto.
      * right. eauto.
Qed.

Lemma gather_alts_defined : forall f l, (forall p, In p l -> exists x, f p = Some x) ->
  exists y, gather_alts f l = Some y.
Proof.
  intros f; induction l as [| p r IH]; intros H; cbn; [eauto|].
  destruct (H p) as (x & Hx); [left; auto|]. rewrite Hx.
  destruct IH as (y & Hy); [intros; apply H; right; auto|]. rewrite Hy.
  destruct x; eauto.
Qed.

Section Alternatives.
  Variable m : road.
  Hypothesis positive : forall a, 0 < len m a.

  Lemma gather_alts_nil : forall f l y, gather_alts f l = Some y -> (y = [] <-> l = []).
  Proof.
    intros f l y E. destruct l as [| p0 l]; cbn in E; [inversion E; tauto|].
    destruct (f p0) as [x0|]; [| discriminate].
    destruct (gather_alts f l); [| destruct x0; discriminate].
    destruct x0; inversion E; subst; split; discriminate.
  Qed.

  Lemma alternatives_nil_forth : forall n p, 0 <= sval p -> alternatives m n p = Some [] ->
    len m (lane p) < sval p /\ next m (lane p) = [].
  Proof.
    intros [| n] p Hp H; [discriminate|]. rewrite alternatives_eq in H.
    assert (E1 : Qltb (sval p) 0 = false) by (apply Qltb_false; auto). rewrite E1 in H.
    destruct (Qltb _ _) eqn:E2; [| discriminate]. apply Qltb_true in E2. split; auto.
    apply gather_alts_nil in H. destruct H as (H & _). specialize (H eq_refl).
    apply map_eq_nil in H; auto.
  Qed.
  Lemma alternatives_nil_back : forall n p, sval p < len m (lane p) -> alternatives m n p = Some [] ->
    sval p < 0 /\ previous m (lane p) = [].
  Proof.
    intros [| n] p Hp H; [discriminate|]. rewrite alternatives_eq in H.
    destruct (Qltb (sval p) 0) eqn:E1.
    - apply Qltb_true in E1. split; auto.
      apply gather_alts_nil in H. destruct H as (H & _). specialize (H eq_refl).
      apply map_eq_nil in H; auto.
    - assert (E2 : Qltb (len m (lane p)) (sval p) = false) by (apply Qltb_false; lra).
      rewrite E2 in H. discriminate.
  Qed.

  Lemma alternatives_forth : forall n p y q, 0 <= sval p -> alternatives m n p = Some y -> In q y ->
    offset q = offset p /\
    (on_lane m q \/ (len m (lane q) < sval q /\ next m (lane q) = [])) /\
    exists l, chain (follows m) (lane p) l (lane q) /\ ahead m p l q /\ (l = [lane p] \/ 0 < sval q).
  Proof.
    induction n; intros p y q Hp H Hq; [discriminate|]. rewrite alternatives_eq in H.
    assert (E1 : Qltb (sval p) 0 = false) by (apply Qltb_false; auto). rewrite E1 in H.
    destruct (Qltb (len m (lane p)) (sval p)) eqn:E2.
    - apply Qltb_true in E2.
      apply (gather_alts_in _ _ _ q) in H. apply H in Hq. clear H.
      destruct Hq as (p' & x & Hp' & Hx & Hq).
      apply in_map_iff in Hp'. destruct Hp' as (a & <- & Ha).
      assert (Hs : 0 < sval p - len m (lane p)) by lra.
      destruct Hq as [Hq | (-> & ->)].
      + destruct (IHn (at_lane p a (sval p - len m (lane p))) x q ltac:(cbn; lra) Hx Hq) as (H1 & H2 & l & H3 & H4 & H5).
        cbn in H1, H3, H4. split; [auto|]. split; [auto|].
        exists (lane p :: l). split; [eapply chain_cons; eauto|]. split.
        * unfold ahead in *. rewrite removelast_cons by (eapply chain_nonempty; eauto). cbn in *. lra.
        * right. destruct H5 as [-> | H5]; auto. unfold ahead in H4; cbn in H4. lra.
      + apply alternatives_nil_forth in Hx; [| cbn; lra]. cbn in Hx |- *.
        split; [reflexivity|]. split; [right; exact Hx|].
        exists [lane p; a]. split; [repeat split; auto|]. split; [unfold ahead; cbn; lra | right; lra].
    - apply Qltb_false in E2. inversion H; subst. destruct Hq as [<- | []].
      split; [reflexivity|]. split; [left; split; auto|].
      exists [lane p]. split; [apply chain_one|]. split; [unfold ahead; cbn; lra | auto].
  Qed.

  Lemma alternatives_back : forall n p y q, sval p < len m (lane p) ->
    alternatives m n p = Some y -> In q y ->
    offset q = offset p /\
    (on_lane m q \/ (sval q < 0 /\ previous m (lane q) = [])) /\ sval q < len m (lane q) /\
    exists l, chain (precedes m) (lane p) l (lane q) /\ behind m p l q.
  Proof.
    induction n; intros p y q Hp H Hq; [discriminate|]. rewrite alternatives_eq in H.
    destruct (Qltb (sval p) 0) eqn:E1.
    - apply Qltb_true in E1.
      apply (gather_alts_in _ _ _ q) in H. apply H in Hq. clear H.
      destruct Hq as (p' & x & Hp' & Hx & Hq).
      apply in_map_iff in Hp'. destruct Hp' as (a & <- & Ha).
      destruct Hq as [Hq | (-> & ->)].
      + destruct (IHn (at_lane p a (sval p + len m a)) x q ltac:(cbn; lra) Hx Hq) as (H1 & H2 & H5 & l & H3 & H4).
        cbn in H1, H3, H4. split; [auto|]. split; [auto|]. split; [auto|].
        exists (lane p :: l). split; [eapply chain_cons; eauto|].
        unfold behind in *. cbn in *. destruct H3 as (H3 & _).
        destruct l as [| a' l]; [discriminate|]. cbn in H3; inversion H3; subst a'. cbn in *. lra.
      + apply alternatives_nil_back in Hx; [| cbn; lra]. cbn in Hx |- *.
        split; [reflexivity|]. split; [right; exact Hx|]. split; [lra|].
        exists [lane p; a]. split; [repeat split; auto | unfold behind; cbn; lra].
    - apply Qltb_false in E1.
      assert (E2 : Qltb (len m (lane p)) (sval p) = false) by (apply Qltb_false; lra).
      rewrite E2 in H. inversion H; subst. destruct Hq as [<- | []].
      split; [reflexivity|]. split; [left; split; lra|]. split; [auto|].
      exists [lane p]. split; [apply chain_one | unfold behind; cbn; lra].
  Qed.

  Lemma alternatives_forth_all : forall l n p y q, 0 <= sval p -> alternatives m n p = Some y ->
    chain (follows m) (lane p) l (lane q) -> ahead m p l q -> on_lane m q ->
    offset q == offset p -> (l = [lane p] \/ 0 < sval q) ->
    exists q', In q' y /\ pose_eq q' q.
  Proof.
    induction l as [| a0 l IH]; intros n p y q Hp H Hc Ha (Hq1 & Hq2) Ho Hl.
    - destruct Hc as (Hc & _); discriminate.
    - destruct n as [| n]; [discriminate|]. rewrite alternatives_eq in H.
      assert (E1 : Qltb (sval p) 0 = false) by (apply Qltb_false; auto). rewrite E1 in H.
      apply chain_inv in Hc. destruct Hc as [(Hc1 & Hc2) | (b & l' & H1 & H2 & H3)].
      + inversion Hc1; subst. unfold ahead in Ha; cbn in Ha. rewrite Hc2 in Hq2.
        assert (E2 : Qltb (len m (lane p)) (sval p) = false) by (apply Qltb_false; lra).
        rewrite E2 in H. inversion H; subst. exists p; split; [left; auto|].
        repeat split; auto; try (symmetry; auto); lra.
      + inversion H1; subst l' a0; clear H1.
        pose proof (chain_nonempty _ _ _ _ H3) as Hne.
        assert (Hq : 0 < sval q) by (destruct Hl as [Hl | Hl]; [inversion Hl; congruence | auto]).
        unfold ahead in Ha. rewrite removelast_cons in Ha by auto. cbn [total] in Ha.
        assert (Hn : 0 <= total m (removelast l)).
        { apply total_nonneg; intro x; specialize (positive x); lra. }
        assert (E2 : Qltb (len m (lane p)) (sval p) = true) by (apply Qltb_true; lra).
        rewrite E2 in H.
        set (p' := at_lane p b (sval p - len m (lane p))).
        destruct (alternatives m n p') as [x|] eqn:Ex.
        * destruct (IH n p' x q) as (q' & Q1 & Q2); auto.
          { cbn; lra. }
          { unfold ahead; cbn; lra. }
          { split; auto. }
          exists q'; split; auto.
          apply (gather_alts_in _ _ _ q') in H. apply H. exists p', x.
          split; [| auto]. apply in_map_iff. exists b; auto.
        * exfalso. clear - H Ex H2.
          assert (G : forall r y, gather_alts (alternatives m n) r = Some y ->
                      forall p0, In p0 r -> alternatives m n p0 <> None).
          { induction r as [| p1 r IH]; intros y0 E p0 [].
            - subst. cbn in E. destruct (alternatives m n p0); [discriminate | discriminate].
            - cbn in E. destruct (alternatives m n p1); [| discriminate].
              destruct (gather_alts _ r) eqn:Er; [| destruct l; discriminate].
              eapply IH; eauto. }
          apply (G _ _ H p'); [| exact Ex]. apply in_map_iff. exists b; auto.
  Qed.

  Lemma alternatives_back_all : forall l n p y q, sval p < len m (lane p) ->
    alternatives m n p = Some y ->
    chain (precedes m) (lane p) l (lane q) -> behind m p l q -> 0 <= sval q ->
    offset q == offset p -> sval q < len m (lane q) ->
    exists q', In q' y /\ pose_eq q' q.
  Proof.
    induction l as [| a0 l IH]; intros n p y q Hp H Hc Ha Hq1 Ho Hq2.
    - destruct Hc as (Hc & _); discriminate.
    - destruct n as [| n]; [discriminate|]. rewrite alternatives_eq in H.
      apply chain_inv in Hc. destruct Hc as [(Hc1 & Hc2) | (b & l' & H1 & H2 & H3)].
      + inversion Hc1; subst. unfold behind in Ha; cbn in Ha.
        assert (E1 : Qltb (sval p) 0 = false) by (apply Qltb_false; lra).
        assert (E2 : Qltb (len m (lane p)) (sval p) = false) by (apply Qltb_false; lra).
        rewrite E1, E2 in H. inversion H; subst. exists p; split; [left; auto|].
        repeat split; auto; try (symmetry; auto); lra.
      + inversion H1; subst l' a0; clear H1.
        pose proof (chain_nonempty _ _ _ _ H3) as Hne.
        unfold behind in Ha. cbn [tl] in Ha.
        assert (Ht : len m (lane q) <= total m l).
        { destruct H3 as (_ & H3 & _). rewrite <- H3.
          rewrite (total_split m l b) by auto.
          assert (0 <= total m (removelast l)) by
            (apply total_nonneg; intro x; specialize (positive x); lra). lra. }
        assert (E1 : Qltb (sval p) 0 = true) by (apply Qltb_true; lra).
        rewrite E1 in H. apply Qltb_true in E1.
        set (p' := at_lane p b (sval p + len m b)).
        destruct (alternatives m n p') as [x|] eqn:Ex.
        * destruct (IH n p' x q) as (q' & Q1 & Q2); auto.
          { cbn; lra. }
          { unfold behind; cbn. destruct H3 as (H3 & _). destruct l as [| b' l]; [discriminate|].
            cbn in H3; inversion H3; subst b'. cbn in *. lra. }
          exists q'; split; auto.
          apply (gather_alts_in _ _ _ q') in H. apply H. exists p', x.
          split; [| auto]. apply in_map_iff. exists b; auto.
        * exfalso. clear - H Ex H2.
          assert (G : forall r y, gather_alts (alternatives m n) r = Some y ->
                      forall p0, In p0 r -> alternatives m n p0 <> None).
          { induction r as [| p1 r IH]; intros y0 E p0 [].
            - subst. cbn in E. destruct (alternatives m n p0); [discriminate | discriminate].
            - cbn in E. destruct (alternatives m n p1); [| discriminate].
              destruct (gather_alts _ r) eqn:Er; [| destruct l; discriminate].
              eapply IH; eauto. }
          apply (G _ _ H p'); [| exact Ex]. apply in_map_iff. exists b; auto.
  Qed.
End Alternatives.

Lemma alternatives_terminates : forall m e, 0 < e -> (forall a, e <= len m a) ->
  forall n p,
  (0 <= sval p <= inject_Z (Z.of_nat n) * e \/
   - (inject_Z (Z.of_nat n) * e) <= sval p < len m (lane p)) ->
  exists y, alternatives m (S n) p = Some y.
Proof.
  intros m e He Hl; induction n; intros p Hp; rewrite alternatives_eq.
  - change (inject_Z (Z.of_nat 0)) with 0 in Hp. specialize (Hl (lane p)).
    assert (E1 : Qltb (sval p) 0 = false) by (apply Qltb_false; lra).
    assert (E2 : Qltb (len m (lane p)) (sval p) = false) by (apply Qltb_false; lra).
    rewrite E1, E2; eauto.
  - destruct (Qltb (sval p) 0) eqn:E1.
    + apply Qltb_true in E1. apply gather_alts_defined. intros p' Hp'.
      apply in_map_iff in Hp'. destruct Hp' as (a & <- & Ha). apply IHn. right. cbn.
      pose proof (scaled_step n e (- sval p) (len m a) He (Hl a)) as Hs. lra.
    + apply Qltb_false in E1. destruct (Qltb (len m (lane p)) (sval p)) eqn:E2; [| eauto].
      apply Qltb_true in E2. apply gather_alts_defined. intros p' Hp'.
      apply in_map_iff in Hp'. destruct Hp' as (a & <- & Ha). apply IHn. left. cbn.
      pose proof (scaled_step n e (sval p) (len m (lane p)) He (Hl (lane p))) as Hs. lra.
Qed.
