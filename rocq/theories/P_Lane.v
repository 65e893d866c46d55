(** Proofs about the walks over lanelets. *)
From Coq Require Import ZArith QArith List Bool Lia Lqa Qround.
From Verif Require Import M_Lane S_Lane.
Import ListNotations.
Local Open Scope Q_scope.

Lemma Qltb_true : forall a b, Qltb a b = true <-> a < b.
Proof.
  intros a b; unfold Qltb; rewrite negb_true_iff.
  destruct (Qle_bool b a) eqn:E.
  - apply Qle_bool_iff in E; split; [discriminate | intros; lra].
  - split; [| reflexivity]; intros _.
    apply Qnot_le_lt; intro H; apply Qle_bool_iff in H; congruence.
Qed.
Lemma Qltb_false : forall a b, Qltb a b = false <-> b <= a.
Proof.
  intros a b; unfold Qltb; rewrite negb_false_iff; apply Qle_bool_iff.
Qed.
Lemma Qle_bool_false : forall a b, Qle_bool a b = false <-> b < a.
Proof.
  intros a b; rewrite <- Qltb_true; unfold Qltb; rewrite negb_true_iff; tauto.
Qed.
Lemma Qltb_morph : forall a b c d, a == c -> b == d -> Qltb a b = Qltb c d.
Proof.
  intros a b c d H1 H2; destruct (Qltb c d) eqn:E.
  - apply Qltb_true in E; apply Qltb_true; lra.
  - apply Qltb_false in E; apply Qltb_false; lra.
Qed.
Lemma Qle_bool_morph : forall a b c d, a == c -> b == d -> Qle_bool a b = Qle_bool c d.
Proof.
  intros a b c d H1 H2; destruct (Qle_bool c d) eqn:E.
  - apply Qle_bool_iff in E; apply Qle_bool_iff; lra.
  - apply Qle_bool_false in E; apply Qle_bool_false; lra.
Qed.

(** Results up to equality of the coordinates. *)
Definition canon_eq (x y : canon) : Prop :=
  match x, y with
  | Canonical p, Canonical q => pose_eq p q
  | EndOfRoad a, EndOfRoad b => a = b
  | Running, Running => True
  | _, _ => False
  end.

Lemma pose_eq_refl : forall p, pose_eq p p.
Proof. intro p; repeat split; reflexivity. Qed.
Lemma pose_eq_sym : forall p q, pose_eq p q -> pose_eq q p.
Proof. intros p q (H1 & H2 & H3); repeat split; auto; symmetry; auto. Qed.
Lemma pose_eq_trans : forall p q r, pose_eq p q -> pose_eq q r -> pose_eq p r.
Proof.
  intros p q r (H1 & H2 & H3) (H4 & H5 & H6); repeat split; [congruence | lra | lra].
Qed.
Lemma canon_eq_refl : forall x, canon_eq x x.
Proof. destruct x; cbn; auto using pose_eq_refl. Qed.
Lemma canon_eq_sym : forall x y, canon_eq x y -> canon_eq y x.
Proof. destruct x, y; cbn; auto using pose_eq_sym. Qed.
Lemma canon_eq_trans : forall x y z, canon_eq x y -> canon_eq y z -> canon_eq x z.
Proof.
  destruct x, y, z; cbn; try tauto; try congruence; eauto using pose_eq_trans.
Qed.

(** ** A generic forward walk and a generic backward walk *)
Section Walk.
  Variable lenf : id -> Q.
  Variable step : id -> option id.
  Variable leave : Q -> Q -> bool.       (* length, s: is the lanelet left? *)

  Fixpoint fwd (fuel : nat) (p : pose) : canon :=
    if leave (lenf (lane p)) (sval p) then
      match fuel with
      | O => Running
      | S fuel' =>
          match step (lane p) with
          | None => EndOfRoad (lane p)
          | Some a => fwd fuel' (at_lane p a (sval p - lenf (lane p)))
          end
      end
    else Canonical p.

  Fixpoint bwd (fuel : nat) (p : pose) : canon :=
    if Qltb (sval p) 0 then
      match fuel with
      | O => Running
      | S fuel' =>
          match step (lane p) with
          | None => EndOfRoad (lane p)
          | Some a => bwd fuel' (at_lane p a (sval p + lenf a))
          end
      end
    else Canonical p.
End Walk.

Lemma canon_forth_fwd : forall m n p,
  canon_forth m n p = fwd (len m) (fun a => hd_error (next m a)) Qltb n p.
Proof.
  induction n; intros p; cbn; destruct (Qltb _ _); auto.
  destruct (next m (lane p)); cbn; auto.
Qed.
Lemma canon_back_bwd : forall m n p,
  canon_back m n p = bwd (len m) (fun a => hd_error (previous m a)) n p.
Proof.
  induction n; intros p; cbn; destruct (Qltb _ _); auto.
  destruct (previous m (lane p)); cbn; auto.
Qed.
Lemma along_forth_fwd : forall m n p,
  along_forth m n p = fwd (len m) (pick_next m) Qle_bool n p.
Proof.
  induction n; intros p; cbn; destruct (Qle_bool _ _); auto.
  destruct (pick_next m (lane p)); auto.
Qed.
Lemma along_back_bwd : forall m n p,
  along_back m n p = bwd (len m) (pick_previous m) n p.
Proof.
  induction n; intros p; cbn; destruct (Qltb _ _); auto.
  destruct (pick_previous m (lane p)); auto.
Qed.

Definition via (step : id -> option id) (a b : id) : Prop := step a = Some b.

(** Chains *)
Lemma chain_one : forall R a, chain R a [a] a.
Proof. intros; repeat split. Qed.
Lemma last_cons : forall (l : list id) a d, l <> [] -> last (a :: l) d = last l d.
Proof. destruct l; [congruence | reflexivity]. Qed.
Lemma last_default : forall (l : list id) d d', l <> [] -> last l d = last l d'.
Proof.
  induction l; [congruence|]; intros d d' _; destruct l; [reflexivity|].
  rewrite !last_cons by congruence; apply IHl; congruence.
Qed.
Lemma chain_cons : forall (R : id -> id -> Prop) a b l c,
  R a b -> chain R b l c -> chain R a (a :: l) c.
Proof.
  intros R a b l c H (H1 & H2 & H3).
  destruct l as [| b' l]; [discriminate|]; cbn in H1; inversion H1; subst b'; clear H1.
  repeat split; auto.
  rewrite last_cons by congruence. rewrite <- H2; apply last_default; congruence.
Qed.
Lemma chain_inv : forall (R : id -> id -> Prop) a l c,
  chain R a l c -> (l = [a] /\ c = a) \/ exists b l', l = a :: l' /\ R a b /\ chain R b l' c.
Proof.
  intros R a l c (H1 & H2 & H3).
  destruct l as [| a' [| b l]]; cbn in H1; inversion H1; subst; clear H1.
  - left; auto.
  - right; exists b, (b :: l); split; [reflexivity|]. cbn in H3; destruct H3 as [Hr Hl].
    split; [auto|]. repeat split; auto.
    symmetry. etransitivity; [apply last_cons; congruence|]. apply last_default; congruence.
Qed.
Lemma chain_nonempty : forall R a l c, chain R a l c -> l <> [].
Proof. intros R a l c (H & _); destruct l; [discriminate | congruence]. Qed.
Lemma linked_mono : forall (R R' : id -> id -> Prop) l,
  (forall a b, R a b -> R' a b) -> linked R l -> linked R' l.
Proof.
  intros R R' l H; induction l as [| a l IH]; [exact (fun _ => I)|].
  destruct l as [| b l]; [exact (fun _ => I)|].
  intros (H1 & H2); split; [auto | apply IH; exact H2].
Qed.
Lemma chain_mono : forall (R R' : id -> id -> Prop) a l b,
  (forall a b, R a b -> R' a b) -> chain R a l b -> chain R' a l b.
Proof. intros R R' a l b H (H1 & H2 & H3); repeat split; eauto using linked_mono. Qed.
Lemma removelast_cons : forall (a : id) l, l <> [] -> removelast (a :: l) = a :: removelast l.
Proof. destruct l; [congruence | reflexivity]. Qed.
Lemma total_split : forall m l d, l <> [] -> total m l == total m (removelast l) + len m (last l d).
Proof.
  induction l as [| a l IH]; [congruence|]; intros d _.
  destruct l as [| b l]; [cbn; lra|].
  rewrite removelast_cons by congruence. rewrite last_cons by congruence.
  change (total m (a :: b :: l)) with (len m a + total m (b :: l)).
  change (total m (a :: removelast (b :: l))) with (len m a + total m (removelast (b :: l))).
  rewrite (IH d) by congruence. lra.
Qed.
Lemma total_nonneg : forall m l, (forall a, 0 <= len m a) -> 0 <= total m l.
Proof. intros m l H; induction l; cbn; [lra | specialize (H a); lra]. Qed.

Section WalkFacts.
  Variable m : road.
  Variable step : id -> option id.

  (** Which leave tests are considered, and what they mean: [strictly] keeps a pose exactly at the
      end of a lanelet there, the other moves it to the start of the next one. *)
  Definition leave (strictly : bool) := if strictly then Qltb else Qle_bool.
  Definition over (strictly : bool) (a b : Q) : Prop := if strictly then a < b else a <= b.
  Definition fits (strictly : bool) (s l : Q) : Prop := if strictly then s <= l else s < l.

  Lemma leave_true : forall k a b, leave k a b = true <-> over k a b.
  Proof. destruct k; cbn; intros; [apply Qltb_true | apply Qle_bool_iff]. Qed.
  Lemma leave_false : forall k a b, leave k a b = false <-> fits k b a.
  Proof. destruct k; cbn; intros; [apply Qltb_false | apply Qle_bool_false]. Qed.
  Lemma leave_morph : forall k a b c d, a == c -> b == d -> leave k a b = leave k c d.
  Proof. destruct k; cbn; intros; [apply Qltb_morph | apply Qle_bool_morph]; auto. Qed.

  Variable k : bool.

  Notation F := (fwd (len m) step (leave k)).
  Notation B := (bwd (len m) step).

  Lemma fwd_eq : forall n p, F n p =
    if leave k (len m (lane p)) (sval p) then
      match n with
      | O => Running
      | S n' => match step (lane p) with
                | None => EndOfRoad (lane p)
                | Some a => F n' (at_lane p a (sval p - len m (lane p)))
                end
      end
    else Canonical p.
  Proof. destruct n; reflexivity. Qed.
  Lemma bwd_eq : forall n p, B n p =
    if Qltb (sval p) 0 then
      match n with
      | O => Running
      | S n' => match step (lane p) with
                | None => EndOfRoad (lane p)
                | Some a => B n' (at_lane p a (sval p + len m a))
                end
      end
    else Canonical p.
  Proof. destruct n; reflexivity. Qed.

  Lemma fwd_morph : forall n p q, pose_eq p q -> canon_eq (F n p) (F n q).
  Proof.
    induction n; intros p q H; pose proof H as (H1 & H2 & H3).
    - rewrite !fwd_eq, H1, (leave_morph k _ (sval p) (len m (lane q)) (sval q)) by (auto; reflexivity).
      destruct (leave k _ _); cbn; auto.
    - rewrite !fwd_eq, H1, (leave_morph k _ (sval p) (len m (lane q)) (sval q)) by (auto; reflexivity).
      destruct (leave k _ _); cbn; auto.
      destruct (step (lane q)); cbn; auto.
      apply IHn; repeat split; cbn; [lra | auto].
  Qed.
  Lemma bwd_morph : forall n p q, pose_eq p q -> canon_eq (B n p) (B n q).
  Proof.
    induction n; intros p q H; pose proof H as (H1 & H2 & H3).
    - rewrite !bwd_eq, (Qltb_morph (sval p) 0 (sval q) 0) by (auto; reflexivity).
      destruct (Qltb _ _); cbn; auto.
    - rewrite !bwd_eq, H1, (Qltb_morph (sval p) 0 (sval q) 0) by (auto; reflexivity).
      destruct (Qltb _ _); cbn; auto.
      destruct (step (lane q)); cbn; auto.
      apply IHn; repeat split; cbn; [lra | auto].
  Qed.

  Lemma fwd_more : forall n n' p, (n <= n')%nat -> F n p <> Running -> F n' p = F n p.
  Proof.
    induction n; intros n' p Hn H; rewrite (fwd_eq n'), fwd_eq; rewrite fwd_eq in H.
    - destruct (leave k _ _); [congruence | reflexivity].
    - destruct (leave k _ _); [| reflexivity].
      destruct n' as [| n']; [lia|].
      destruct (step (lane p)); [| reflexivity]. apply IHn; [lia | auto].
  Qed.
  Lemma bwd_more : forall n n' p, (n <= n')%nat -> B n p <> Running -> B n' p = B n p.
  Proof.
    induction n; intros n' p Hn H; rewrite (bwd_eq n'), bwd_eq; rewrite bwd_eq in H.
    - destruct (Qltb _ _); [congruence | reflexivity].
    - destruct (Qltb _ _); [| reflexivity].
      destruct n' as [| n']; [lia|].
      destruct (step (lane p)); [| reflexivity]. apply IHn; [lia | auto].
  Qed.

  (** Soundness *)
  Lemma fwd_sound : forall n p q, F n p = Canonical q ->
    exists l, chain (via step) (lane p) l (lane q) /\ ahead m p l q /\
              fits k (sval q) (len m (lane q)) /\ offset q = offset p /\
              (l = [lane p] \/ over k 0 (sval q)).
  Proof.
    induction n; intros p q H; rewrite fwd_eq in H; destruct (leave k _ _) eqn:E; try discriminate.
    - inversion H; subst; exists [lane q]; apply leave_false in E.
      split; [apply chain_one|]. split; [unfold ahead; cbn; lra | auto].
    - destruct (step (lane p)) as [a|] eqn:Es; [| discriminate].
      destruct (IHn _ _ H) as (l & Hc & Ha & Hf & Ho & Hl); cbn in *.
      exists (lane p :: l).
      pose proof (chain_nonempty _ _ _ _ Hc) as Hne.
      split; [eapply chain_cons; eauto|]. split; [| split; [auto | split; [auto|]]].
      + unfold ahead in *. rewrite removelast_cons by auto. cbn in *. lra.
      + right. destruct Hl as [-> | Hl]; auto.
        unfold ahead in Ha; cbn in Ha. apply leave_true in E.
        destruct k; cbn in *; lra.
    - inversion H; subst; exists [lane q]; apply leave_false in E.
      split; [apply chain_one|]. split; [unfold ahead; cbn; lra | auto].
  Qed.

  Lemma fwd_end : forall n p e, F n p = EndOfRoad e ->
    exists l, chain (via step) (lane p) l e /\ step e = None /\ over k (total m l) (sval p).
  Proof.
    induction n; intros p e H; rewrite fwd_eq in H; destruct (leave k _ _) eqn:E; try discriminate.
    destruct (step (lane p)) as [a|] eqn:Es.
    - destruct (IHn _ _ H) as (l & Hc & Hs & Ho); cbn in *.
      exists (lane p :: l); split; [eapply chain_cons; eauto|]. split; auto.
      apply leave_true in E. destruct k; cbn in *; lra.
    - inversion H; subst. exists [lane p]; split; [apply chain_one|]. split; auto.
      apply leave_true in E. destruct k; cbn in *; lra.
  Qed.

  Lemma bwd_sound : forall n p q, B n p = Canonical q ->
    exists l, chain (via step) (lane p) l (lane q) /\ behind m p l q /\
              0 <= sval q /\ offset q = offset p /\
              (l = [lane p] \/ sval q < len m (lane q)).
  Proof.
    induction n; intros p q H; rewrite bwd_eq in H; destruct (Qltb _ _) eqn:E; try discriminate.
    - inversion H; subst; exists [lane q]; apply Qltb_false in E.
      split; [apply chain_one|]. split; [unfold behind; cbn; lra | auto].
    - destruct (step (lane p)) as [a|] eqn:Es; [| discriminate].
      destruct (IHn _ _ H) as (l & Hc & Ha & Hf & Ho & Hl); cbn in *.
      exists (lane p :: l). apply Qltb_true in E.
      split; [eapply chain_cons; eauto|]. split; [| split; [auto | split; [auto|]]].
      + unfold behind in *. cbn in *. destruct Hc as (Hc & _).
        destruct l as [| a' l]; [discriminate|]. cbn in Hc; inversion Hc; subst a'. cbn in *. lra.
      + right. destruct Hl as [-> | Hl]; auto.
        unfold behind in Ha; cbn in Ha.
        destruct Hc as (_ & Hc & _); cbn in Hc; subst. lra.
    - inversion H; subst; exists [lane q]; apply Qltb_false in E.
      split; [apply chain_one|]. split; [unfold behind; cbn; lra | auto].
  Qed.

  Lemma bwd_end : forall n p e, B n p = EndOfRoad e ->
    exists l, chain (via step) (lane p) l e /\ step e = None /\ sval p + total m (tl l) < 0.
  Proof.
    induction n; intros p e H; rewrite bwd_eq in H; destruct (Qltb _ _) eqn:E; try discriminate.
    apply Qltb_true in E.
    destruct (step (lane p)) as [a|] eqn:Es.
    - destruct (IHn _ _ H) as (l & Hc & Hs & Ho); cbn in *.
      exists (lane p :: l); split; [eapply chain_cons; eauto|]. split; auto.
      destruct Hc as (Hc & _).
      destruct l as [| a' l]; [discriminate|]. cbn in Hc; inversion Hc; subst a'. cbn in *. lra.
    - inversion H; subst. exists [lane p]; split; [apply chain_one|]. split; auto. cbn; lra.
  Qed.

  (** Completeness: the walk goes as far as it must. *)
  Hypothesis positive : forall a, 0 < len m a.

  Lemma fwd_complete : forall l p q,
    chain (via step) (lane p) l (lane q) -> ahead m p l q ->
    fits k (sval q) (len m (lane q)) -> offset q == offset p ->
    (l = [lane p] \/ over k 0 (sval q)) ->
    canon_eq (F (length l) p) (Canonical q).
  Proof.
    induction l as [| a0 l IH]; intros p q Hc Ha Hf Ho Hl.
    - destruct Hc as (Hc & _); discriminate.
    - apply chain_inv in Hc. destruct Hc as [(Hc1 & Hc2) | (b & l' & H1 & H2 & H3)].
      + inversion Hc1; subst. rewrite fwd_eq.
        unfold ahead in Ha; cbn in Ha.
        assert (E : leave k (len m (lane p)) (sval p) = false).
        { apply leave_false. rewrite Hc2 in Hf. destruct k; cbn in *; lra. }
        rewrite E; cbn. repeat split; auto; try (symmetry; auto); lra.
      + inversion H1; subst l' a0; clear H1.
        pose proof (chain_nonempty _ _ _ _ H3) as Hne.
        assert (Hq : over k 0 (sval q)).
        { destruct Hl as [Hl | Hl]; auto. inversion Hl; congruence. }
        unfold ahead in Ha. rewrite removelast_cons in Ha by auto. cbn [total] in Ha.
        assert (Hn : 0 <= total m (removelast l)).
        { apply total_nonneg; intro x; specialize (positive x); lra. }
        rewrite fwd_eq. cbn [length].
        assert (E : leave k (len m (lane p)) (sval p) = true).
        { apply leave_true. destruct k; cbn in *; lra. }
        rewrite E. unfold via in H2. rewrite H2.
        apply IH; cbn; auto. unfold ahead; cbn. lra.
  Qed.

  Lemma fwd_end_complete : forall l p e,
    chain (via step) (lane p) l e -> step e = None -> over k (total m l) (sval p) ->
    F (length l) p = EndOfRoad e.
  Proof.
    induction l as [| a0 l IH]; intros p e Hc Hs Ho.
    - destruct Hc as (Hc & _); discriminate.
    - apply chain_inv in Hc. destruct Hc as [(Hc1 & Hc2) | (b & l' & H1 & H2 & H3)].
      + inversion Hc1; subst. rewrite fwd_eq. cbn in Ho.
        assert (E : leave k (len m (lane p)) (sval p) = true).
        { apply leave_true. destruct k; cbn in *; lra. }
        rewrite E; cbn. rewrite Hs. reflexivity.
      + inversion H1; subst l' a0; clear H1. cbn in Ho.
        assert (Hn : 0 <= total m l).
        { apply total_nonneg; intro x; specialize (positive x); lra. }
        rewrite fwd_eq. cbn [length].
        assert (E : leave k (len m (lane p)) (sval p) = true).
        { apply leave_true. destruct k; cbn in *; lra. }
        rewrite E. unfold via in H2. rewrite H2.
        apply IH; cbn; auto. destruct k; cbn in *; lra.
  Qed.

  Lemma bwd_complete : forall l p q,
    chain (via step) (lane p) l (lane q) -> behind m p l q ->
    0 <= sval q -> offset q == offset p ->
    (l = [lane p] \/ sval q < len m (lane q)) ->
    canon_eq (B (length l) p) (Canonical q).
  Proof.
    induction l as [| a0 l IH]; intros p q Hc Ha Hf Ho Hl.
    - destruct Hc as (Hc & _); discriminate.
    - apply chain_inv in Hc. destruct Hc as [(Hc1 & Hc2) | (b & l' & H1 & H2 & H3)].
      + inversion Hc1; subst. rewrite bwd_eq.
        unfold behind in Ha; cbn in Ha.
        assert (E : Qltb (sval p) 0 = false) by (apply Qltb_false; lra).
        rewrite E; cbn. repeat split; auto; try (symmetry; auto); lra.
      + inversion H1; subst l' a0; clear H1.
        pose proof (chain_nonempty _ _ _ _ H3) as Hne.
        assert (Hq : sval q < len m (lane q)).
        { destruct Hl as [Hl | Hl]; auto. inversion Hl; congruence. }
        unfold behind in Ha. cbn [tl] in Ha.
        assert (Ht : len m (lane q) <= total m l).
        { destruct H3 as (_ & H3 & _). rewrite <- H3.
          rewrite (total_split m l b) by auto.
          assert (0 <= total m (removelast l)) by
            (apply total_nonneg; intro x; specialize (positive x); lra). lra. }
        rewrite bwd_eq. cbn [length].
        assert (E : Qltb (sval p) 0 = true) by (apply Qltb_true; lra).
        rewrite E. unfold via in H2. rewrite H2.
        apply IH; cbn; auto. unfold behind; cbn.
        destruct H3 as (H3 & _). destruct l as [| b' l]; [discriminate|].
        cbn in H3; inversion H3; subst b'. cbn in *. lra.
  Qed.

  Lemma bwd_end_complete : forall l p e,
    chain (via step) (lane p) l e -> step e = None -> sval p + total m (tl l) < 0 ->
    B (length l) p = EndOfRoad e.
  Proof.
    induction l as [| a0 l IH]; intros p e Hc Hs Ho.
    - destruct Hc as (Hc & _); discriminate.
    - apply chain_inv in Hc. destruct Hc as [(Hc1 & Hc2) | (b & l' & H1 & H2 & H3)].
      + inversion Hc1; subst. rewrite bwd_eq. cbn in Ho.
        assert (E : Qltb (sval p) 0 = true) by (apply Qltb_true; lra).
        rewrite E; cbn. rewrite Hs. reflexivity.
      + inversion H1; subst l' a0; clear H1. cbn [tl] in Ho.
        assert (Hn : 0 <= total m l).
        { apply total_nonneg; intro x; specialize (positive x); lra. }
        rewrite bwd_eq. cbn [length].
        assert (E : Qltb (sval p) 0 = true) by (apply Qltb_true; lra).
        rewrite E. unfold via in H2. rewrite H2.
        apply IH; cbn; auto.
        destruct H3 as (H3 & _). destruct l as [| b' l]; [discriminate|].
        cbn in H3; inversion H3; subst b'. cbn in *. lra.
  Qed.

  (** Composition of forward walks *)
  Lemma fwd_compose : forall n p q d, 0 <= d -> F n p = Canonical q ->
    forall n', F n' (at_lane q (lane q) (sval q + d)) <> Running ->
    canon_eq (F (n + n') (at_lane p (lane p) (sval p + d)))
             (F n' (at_lane q (lane q) (sval q + d))).
  Proof.
    induction n; intros p q d Hd H n' Hr; rewrite fwd_eq in H; destruct (leave k _ _) eqn:E;
      try discriminate.
    - inversion H; subst. apply canon_eq_refl.
    - destruct (step (lane p)) as [a|] eqn:Es; [| discriminate].
      rewrite fwd_eq. cbn [plus at_lane lane sval].
      assert (E' : leave k (len m (lane p)) (sval p + d) = true).
      { apply leave_true in E; apply leave_true; destruct k; cbn in *; lra. }
      rewrite E', Es.
      eapply canon_eq_trans; [| apply (IHn _ _ d Hd H n' Hr)].
      apply fwd_morph. repeat split; cbn; try lra.
    - inversion H; subst. cbn [plus].
      rewrite (fwd_more n' (S n + n')) by (auto; lia). apply canon_eq_refl.
  Qed.

  (** ... and of backward walks (by two non-positive distances). *)
  Lemma bwd_compose : forall n p q d, d <= 0 -> B n p = Canonical q ->
    forall n', B n' (at_lane q (lane q) (sval q + d)) <> Running ->
    canon_eq (B (n + n') (at_lane p (lane p) (sval p + d)))
             (B n' (at_lane q (lane q) (sval q + d))).
  Proof.
    induction n; intros p q d Hd H n' Hr; rewrite bwd_eq in H; destruct (Qltb _ _) eqn:E;
      try discriminate.
    - inversion H; subst. apply canon_eq_refl.
    - destruct (step (lane p)) as [a|] eqn:Es; [| discriminate].
      rewrite bwd_eq. cbn [plus at_lane lane sval].
      assert (E' : Qltb (sval p + d) 0 = true).
      { apply Qltb_true in E; apply Qltb_true; lra. }
      rewrite E', Es.
      eapply canon_eq_trans; [| apply (IHn _ _ d Hd H n' Hr)].
      apply bwd_morph. repeat split; cbn; try lra.
    - inversion H; subst. cbn [plus].
      rewrite (bwd_more n' (S n + n')) by (auto; lia). apply canon_eq_refl.
  Qed.
End WalkFacts.

(** Termination *)
Lemma scaled_step : forall (n : nat) e x y, 0 < e -> e <= y ->
  x <= inject_Z (Z.of_nat (S n)) * e -> x - y <= inject_Z (Z.of_nat n) * e.
Proof.
  intros n e x y He Hy Hx. rewrite Nat2Z.inj_succ in Hx. unfold Z.succ in Hx.
  rewrite inject_Z_plus in Hx. set (w := inject_Z (Z.of_nat n)) in *. clearbody w.
  change (inject_Z 1) with 1 in Hx.
  assert (E : (w + 1) * e == w * e + e) by ring. lra.
Qed.

Lemma enough : forall e x, 0 < e -> exists n, x <= inject_Z (Z.of_nat n) * e.
Proof.
  intros e x He. exists (Z.to_nat (Qceiling (x / e))).
  destruct (Z_le_gt_dec 0 (Qceiling (x / e))) as [H | H].
  - rewrite Z2Nat.id by lia. pose proof (Qle_ceiling (x / e)).
    assert (E : x == (x / e) * e) by (field; lra).
    rewrite E at 1. apply Qmult_le_compat_r; [auto | lra].
  - assert (Hc : (Qceiling (x / e) <= 0)%Z) by lia.
    replace (Z.to_nat (Qceiling (x / e))) with 0%nat by lia. cbn.
    pose proof (Qle_ceiling (x / e)) as Hx.
    assert (Hz : x / e <= 0).
    { eapply Qle_trans; [apply Hx|]. change 0 with (inject_Z 0). rewrite <- Zle_Qle. auto. }
    assert (E : x == (x / e) * e) by (field; lra).
    rewrite E. change (inject_Z 0 * e) with (0 * e). apply Qmult_le_compat_r; [auto | lra].
Qed.

Lemma fwd_terminates : forall m step k e, 0 < e -> (forall a, e <= len m a) ->
  forall n p, sval p <= inject_Z (Z.of_nat n) * e -> fwd (len m) step (leave k) n p <> Running.
Proof.
  intros m step k e He Hl; induction n; intros p Hp; rewrite fwd_eq.
  - assert (E : leave k (len m (lane p)) (sval p) = false).
    { apply leave_false. specialize (Hl (lane p)).
      change (inject_Z (Z.of_nat 0)) with 0 in Hp. destruct k; cbn; lra. }
    rewrite E; discriminate.
  - destruct (leave k _ _); [| discriminate].
    destruct (step (lane p)); [| discriminate]. apply IHn; cbn.
    apply scaled_step; auto.
Qed.

Lemma bwd_terminates : forall m step e, 0 < e -> (forall a, e <= len m a) ->
  forall n p, - sval p <= inject_Z (Z.of_nat n) * e -> bwd (len m) step n p <> Running.
Proof.
  intros m step e He Hl; induction n; intros p Hp; rewrite bwd_eq.
  - assert (E : Qltb (sval p) 0 = false).
    { apply Qltb_false. change (inject_Z (Z.of_nat 0)) with 0 in Hp. lra. }
    rewrite E; discriminate.
  - destruct (Qltb _ _); [| discriminate].
    destruct (step (lane p)) as [a|]; [| discriminate]. apply IHn; cbn.
    pose proof (scaled_step n e _ (len m a) He (Hl a) Hp). lra.
Qed.

(** ** canonicalizeLaneletPose *)
Lemma chain_via_first_next : forall m a l b,
  chain (via (fun a => hd_error (next m a))) a l b <-> chain (first_next m) a l b.
Proof. intros; split; apply chain_mono; intros x y H; exact H. Qed.
Lemma chain_via_first_previous : forall m a l b,
  chain (via (fun a => hd_error (previous m a))) a l b <-> chain (first_previous m) a l b.
Proof. intros; split; apply chain_mono; intros x y H; exact H. Qed.

Lemma hd_error_none : forall (l : list id), hd_error l = None <-> l = [].
Proof. destruct l; cbn; split; congruence. Qed.

Lemma canonicalize_nonneg : forall m n p, 0 <= sval p -> canonicalize m n p = canon_forth m n p.
Proof.
  intros m n p H. unfold canonicalize. rewrite canon_back_bwd, bwd_eq.
  assert (E : Qltb (sval p) 0 = false) by (apply Qltb_false; auto). rewrite E; reflexivity.
Qed.

(** From a negative coordinate the second loop does nothing. *)
Lemma canonicalize_neg : forall m n p, sval p < 0 -> canonicalize m n p = canon_back m n p.
Proof.
  intros m n p H. unfold canonicalize. rewrite canon_back_bwd.
  destruct (bwd _ _ _ _) as [q | e |] eqn:E; auto.
  apply bwd_sound in E. destruct E as (l & Hc & Hb & H0 & Ho & Hl).
  assert (Hq : sval q <= len m (lane q)).
  { destruct Hl as [-> | Hl]; [| lra]. unfold behind in Hb; cbn in Hb. lra. }
  rewrite canon_forth_fwd, fwd_eq with (k := true).
  assert (E : leave true (len m (lane q)) (sval q) = false) by (apply leave_false; cbn; auto).
  rewrite E; reflexivity.
Qed.

Lemma pick_next_spec : forall (st : id -> bool) l b,
  pick (filter st l) l = Some b <-> prefers st l b.
Proof.
  intros st l b; unfold pick; split.
  - destruct (filter st l) as [| x r] eqn:E.
    + destruct l as [| y l]; [discriminate|]. intros H; inversion H; subst.
      exists [], l; split; auto. right; split; auto.
      intros x Hx. destruct (st x) eqn:Ex; auto.
      assert (In x (filter st (b :: l))) by (apply filter_In; auto). rewrite E in H0; destruct H0.
    + intros H; inversion H; subst. clear H.
      revert r E. induction l as [| y l IH]; intros r E; [discriminate|].
      cbn in E. destruct (st y) eqn:Ey.
      * inversion E; subst. exists [], l; split; auto. left; split; auto.
        intros ? [].
      * destruct (IH _ E) as (l1 & l2 & -> & [(H1 & H2) | (H1 & H2)]).
        -- exists (y :: l1), l2; split; auto. left; split; auto.
           intros x [<- | Hx]; auto.
        -- exfalso. rewrite <- (H2 b) in Ey by (subst; apply in_elt).
           assert (In b (filter st (l1 ++ b :: l2))) by (rewrite E; left; auto).
           apply filter_In in H. destruct H as (_ & H).
           rewrite (H2 b) in H by apply in_elt. discriminate.
  - intros (l1 & l2 & -> & [(H1 & H2) | (-> & H2)]).
    + rewrite filter_app. assert (E : filter st l1 = []).
      { clear - H2. induction l1; cbn; auto. rewrite (H2 a) by (left; auto).
        apply IHl1. intros; apply H2; right; auto. }
      rewrite E; cbn. rewrite H1. reflexivity.
    + assert (E : filter st ([] ++ b :: l2) = []).
      { clear - H2. induction ([] ++ b :: l2) as [| a l IH]; cbn; auto.
        rewrite (H2 a) by (left; auto). apply IH. intros; apply H2; right; auto. }
      rewrite E; reflexivity.
Qed.

Lemma pick_none : forall (st : id -> bool) l, pick (filter st l) l = None <-> l = [].
Proof.
  intros st l; unfold pick; split.
  - destruct (filter st l); [| discriminate]. destruct l; [auto | discriminate].
  - intros ->; reflexivity.
Qed.

Lemma prefers_in : forall st l b, prefers st l b -> In b l.
Proof. intros st l b (l1 & l2 & -> & _). apply in_elt. Qed.

Lemma chain_via_straight_next : forall m a l b,
  chain (via (pick_next m)) a l b <-> chain (straight_next m) a l b.
Proof. intros; split; apply chain_mono; intros x y H; apply pick_next_spec; exact H. Qed.
Lemma chain_via_straight_previous : forall m a l b,
  chain (via (pick_previous m)) a l b <-> chain (straight_previous m) a l b.
Proof. intros; split; apply chain_mono; intros x y H; apply pick_next_spec; exact H. Qed.
