(** * The entity in front: property theorems (C60). *)
From Coq Require Import String.
From Coq Require Import List Bool QArith Lqa.
From Verif Require Import M_Front.
Import ListNotations.
Local Open Scope string_scope.

(** ** Specification *)
(** [n] is within the horizon of [self] by the table of distances. *)
Definition near (self : string) (horizon : Q) (table : list ((string * string) * Q)) (n : string) (d : Q) : Prop :=
  (d < horizon)%Q /\ (In ((self, n), d) table \/ (In ((n, self), d) table /\ n <> self)).
(** [n] is in front at distance [x]. *)
Definition in_front self horizon table (ahead : string -> bool) (along : string -> option Q) n x : Prop :=
  (exists d, near self horizon table n d) /\ ahead n = true /\ along n = Some x.
(** The answer is an entity in front with none closer; no answer only if there is none. *)
Definition closest self horizon table ahead along (r : option string) : Prop :=
  match r with
  | Some n => exists x, in_front self horizon table ahead along n x /\
                        forall n' x', in_front self horizon table ahead along n' x' -> (x <= x')%Q
  | None => forall n x, ~ in_front self horizon table ahead along n x
  end.
(** No two neighbours are exactly equally far away. *)
Definition no_ties self horizon table : Prop :=
  forall n n' d d', near self horizon table n d -> near self horizon table n' d' -> (d == d')%Q -> n = n'.

Lemma neighbour_iff self horizon table n d :
  near self horizon table n d <-> exists e, In e table /\ neighbour self horizon e = Some (d, n).
Proof.
  split.
  - intros (H & [I | [I N]]); eexists; (split; [exact I |]); simpl.
    + destruct (Qle_bool horizon d) eqn:L; [apply Qle_bool_iff in L; lra |]. now rewrite String.eqb_refl.
    + destruct (Qle_bool horizon d) eqn:L; [apply Qle_bool_iff in L; lra |].
      apply String.eqb_neq in N. now rewrite N, String.eqb_refl.
  - intros ([[a b] d'] & I & E). simpl in E. destruct (Qle_bool horizon d') eqn:L; [discriminate |].
    assert (X : (d' < horizon)%Q).
    { destruct (Qlt_le_dec d' horizon) as [X | X]; [exact X | apply Qle_bool_iff in X; congruence]. }
    destruct (String.eqb_spec a self) as [-> | A].
    + injection E as -> ->. split; [exact X | now left].
    + destruct (String.eqb_spec b self) as [-> | B]; [| discriminate]. injection E as -> ->.
      split; [exact X | right; now split].
Qed.
Lemma emplace_in d n m x : In x (emplace d n m) -> x = (d, n) \/ In x m.
Proof.
  induction m as [| [k v] m IH]; simpl; [intuition |].
  destruct (Qeq_bool d k); [simpl; intuition |]. destruct (Qle_bool d k); simpl; intuition.
Qed.
Lemma emplace_keeps d n m x : In x m -> In x (emplace d n m).
Proof.
  induction m as [| [k v] m IH]; simpl; [intuition |].
  destruct (Qeq_bool d k); [auto |]. destruct (Qle_bool d k); simpl; intuition.
Qed.
Lemma emplace_new d n m : (forall k v, In (k, v) m -> (d == k)%Q -> v = n) -> exists k, In (k, n) (emplace d n m).
Proof.
  induction m as [| [k v] m IH]; intros H; simpl; [exists d; now left |].
  destruct (Qeq_bool d k) eqn:E.
  - apply Qeq_bool_iff in E. rewrite (H k v (or_introl eq_refl) E). exists k. now left.
  - destruct (Qle_bool d k); [exists d; now left |]. destruct IH as [q Q]; [| exists q; now right].
    intros k' v' I. apply H. now right.
Qed.
Lemma local_map_sound self horizon table d n :
  In (d, n) (local_map self horizon table) -> near self horizon table n d.
Proof.
  intros H. apply neighbour_iff. unfold local_map in H.
  assert (G : forall t m, (forall x, In x m -> exists e, In e table /\ neighbour self horizon e = Some x) ->
    (forall e, In e t -> In e table) ->
    forall x, In x (fold_left (fun m e => match neighbour self horizon e with Some (d, n) => emplace d n m | None => m end) t m) ->
    exists e, In e table /\ neighbour self horizon e = Some x).
  { induction t as [| e t IH]; intros m M T x I; simpl in I; [now apply M |].
    apply IH in I; [exact I | | intros; apply T; now right].
    intros y Y. destruct (neighbour self horizon e) as [[d' n'] |] eqn:N; [| now apply M].
    apply emplace_in in Y as [-> | Y]; [| now apply M]. exists e. split; [apply T; now left | exact N]. }
  eapply G; [| | exact H]; [intros x [] | auto].
Qed.
Lemma local_map_complete self horizon table d n : no_ties self horizon table ->
  near self horizon table n d -> exists k, In (k, n) (local_map self horizon table).
Proof.
  intros T H. apply neighbour_iff in H as (e0 & I0 & N0). unfold local_map.
  assert (G : forall t m, (forall k v, In (k, v) m -> near self horizon table v k) ->
    (forall e, In e t -> In e table) -> In e0 t \/ (exists k, In (k, n) m) ->
    exists k, In (k, n) (fold_left (fun m e => match neighbour self horizon e with Some (d, n) => emplace d n m | None => m end) t m)).
  { induction t as [| e t IH]; intros m M S H; simpl; [destruct H as [[] | H]; exact H |].
    apply IH.
    - intros k v I. destruct (neighbour self horizon e) as [[d' n'] |] eqn:N; [| now apply M].
      apply emplace_in in I as [[= -> ->] | I]; [| now apply M].
      apply neighbour_iff. exists e. split; [apply S; now left | exact N].
    - intros; apply S; now right.
    - destruct H as [[-> | H] | (k & H)]; [right | now left | right].
      + rewrite N0. apply emplace_new. intros k v I E. apply M in I.
        refine (T v n k d I _ _); [| now rewrite E]. apply neighbour_iff. eauto.
      + exists k. destruct (neighbour self horizon e) as [[d' n'] |]; [now apply emplace_keeps | exact H]. }
  apply G; [intros k v [] | auto | now left].
Qed.

Lemma best_spec ahead along m :
  match best ahead along m with
  | Some (x, n) => (exists d, In (d, n) m) /\ ahead n = true /\ along n = Some x /\
                   forall d n' x', In (d, n') m -> ahead n' = true -> along n' = Some x' -> (x <= x')%Q
  | None => forall d n x, In (d, n) m -> ahead n = true -> along n <> Some x
  end.
Proof.
  unfold best.
  set (f := fun acc e => _).
  assert (G : forall t acc,
    match acc with Some (x, n) => ahead n = true /\ along n = Some x | None => True end ->
    match fold_left f t acc with
    | Some (x, n) => ((exists d, In (d, n) t) \/ acc = Some (x, n)) /\ ahead n = true /\ along n = Some x /\
        (forall d n' x', In (d, n') t -> ahead n' = true -> along n' = Some x' -> (x <= x')%Q) /\
        (forall y k, acc = Some (y, k) -> (x <= y)%Q)
    | None => acc = None /\ forall d n x, In (d, n) t -> ahead n = true -> along n <> Some x
    end).
  { induction t as [| [d n] t IH]; intros acc A; simpl fold_left.
    - destruct acc as [[x k] |]; [| split; [reflexivity | intros ? ? ? []]].
      destruct A. split; [now right |]. split; [assumption |]. split; [assumption |]. split; [intros ? ? ? [] |].
      intros y j [= -> ->]. apply Qle_refl.
    - assert (A' : match f acc (d, n) with Some (x, k) => ahead k = true /\ along k = Some x | None => True end).
      { unfold f. simpl. destruct (ahead n) eqn:H; [| exact A]. destruct (along n) as [x |] eqn:L; [| exact A].
        destruct acc as [[y k] |]; [| now split]. destruct (Qle_bool y x); [exact A | now split]. }
      specialize (IH _ A').
      assert (K : forall x0 k0, f acc (d, n) = Some (x0, k0) ->
        ((k0 = n) \/ acc = Some (x0, k0)) /\
        (forall x', ahead n = true -> along n = Some x' -> (x0 <= x')%Q) /\
        (forall y k, acc = Some (y, k) -> (x0 <= y)%Q)).
      { intros x0 k0 F. unfold f in F. simpl in F. destruct (ahead n) eqn:H.
        - destruct (along n) as [x |] eqn:L.
          + destruct acc as [[y k] |].
            * destruct (Qle_bool y x) eqn:Q.
              -- injection F as <- <-. apply Qle_bool_iff in Q. split; [now right |]. split.
                 ++ intros x' _ [= <-]. exact Q.
                 ++ intros y' k' [= -> ->]. apply Qle_refl.
              -- injection F as <- <-. split; [now left |]. split.
                 ++ intros x' _ [= <-]. apply Qle_refl.
                 ++ intros y' k' [= -> ->]. destruct (Qlt_le_dec x y') as [Z | Z]; [lra |].
                    apply Qle_bool_iff in Z. congruence.
            * injection F as <- <-. split; [now left |]. split; [intros x' _ [= <-]; apply Qle_refl | discriminate].
          + split; [now right |]. split; [discriminate |]. intros y k E. rewrite E in F. injection F as <- <-. apply Qle_refl.
        - split; [now right |]. split; [discriminate |]. intros y k E. rewrite E in F. injection F as <- <-. apply Qle_refl. }
      destruct (fold_left f t (f acc (d, n))) as [[x k] |].
      + destruct IH as (I1 & I2 & I3 & I4 & I5). split; [| split; [exact I2 | split; [exact I3 | split]]].
        * destruct I1 as [[d' I1] | I1]; [left; exists d'; now right |].
          destruct (K _ _ I1) as ([-> | K1] & _); [left; exists d; now left | now right].
        * intros d' n' x' [E0 | I] H L; [injection E0 as <- <- | now apply (I4 d' n')].
          destruct (f acc (d, n)) as [[x0 k0] |] eqn:F.
          -- destruct (K _ _ eq_refl) as (_ & K2 & _). specialize (K2 _ H L). specialize (I5 _ _ eq_refl). lra.
          -- exfalso. unfold f in F. simpl in F. rewrite H, L in F.
             destruct acc as [[y k'] |]; [destruct (Qle_bool y x') |]; discriminate.
        * intros y k' E. destruct (f acc (d, n)) as [[x0 k0] |] eqn:F.
          -- destruct (K _ _ eq_refl) as (_ & _ & K3). specialize (K3 _ _ E). specialize (I5 _ _ eq_refl). lra.
          -- exfalso. unfold f in F. simpl in F. rewrite E in F.
             destruct (ahead n); [destruct (along n); [destruct (Qle_bool y q) |] |]; discriminate.
      + destruct IH as [I1 I2]. split.
        * unfold f in I1. simpl in I1. destruct (ahead n); [| exact I1].
          destruct (along n); [| exact I1]. destruct acc as [[y k] |]; [destruct (Qle_bool y q) |]; congruence.
        * intros d' n' x' [E0 | I] H; [injection E0 as <- <- | now apply (I2 d')]. intros L.
          unfold f in I1. simpl in I1. rewrite H, L in I1.
          destruct acc as [[y k'] |]; [destruct (Qle_bool y x') |]; discriminate. }
  specialize (G m None I). destruct (fold_left f m None) as [[x n] |].
  - destruct G as ([G | G] & G2 & G3 & G4 & _); [| discriminate]. repeat split; auto.
  - destruct G as [_ G]. exact G.
Qed.

(** C60. Unless two neighbours are exactly equally far away, the entity in front is the closest one. *)
Theorem C60_front_entity self horizon table ahead along : no_ties self horizon table ->
  closest self horizon table ahead along (front_entity self horizon table ahead along).
Proof.
  intros T. unfold front_entity. pose proof (best_spec ahead along (local_map self horizon table)) as B.
  destruct (best ahead along (local_map self horizon table)) as [[x n] |]; simpl.
  - destruct B as ((d & I) & H & L & M). exists x. split.
    + split; [| now split]. exists d. now apply local_map_sound.
    + intros n' x' ((d' & N) & H' & L'). destruct (local_map_complete _ _ _ _ _ T N) as [k K].
      exact (M _ _ _ K H' L').
  - intros n x ((d & N) & H & L). destruct (local_map_complete _ _ _ _ _ T N) as [k K].
    exact (B _ _ x K H L).
Qed.
(** Whatever it answers is in front; it never invents one. *)
Theorem C60_answer_is_in_front self horizon table ahead along n :
  front_entity self horizon table ahead along = Some n ->
  exists x, in_front self horizon table ahead along n x.
Proof.
  unfold front_entity. pose proof (best_spec ahead along (local_map self horizon table)) as B.
  destruct (best ahead along (local_map self horizon table)) as [[x k] |]; simpl; [| discriminate].
  intros [= <-]. destruct B as ((d & I) & H & L & _). exists x. split; [| now split].
  exists d. now apply local_map_sound.
Qed.
(** A car behind at the same distance as a car in front hides it: nobody is in front. *)
Definition C60_claim : Prop := forall self horizon table ahead along,
  closest self horizon table ahead along (front_entity self horizon table ahead along).
Theorem C60_front_entity_refuted : ~ C60_claim.
Proof.
  intros H. specialize (H "n" 30%Q [(("behind", "n"), 10); (("front", "n"), 10)]%Q
    (fun x => x =? "front") (fun x => if x =? "front" then Some 8%Q else None)).
  change (front_entity _ _ _ _ _) with (@None string) in H. simpl in H.
  apply (H "front" 8%Q). split; [| split; reflexivity].
  exists 10%Q. split; [reflexivity |]. right. split; [simpl; auto | discriminate].
Qed.
(** And the answer depends on the order in which the distances happen to be stored. *)
Theorem C60_order_dependent :
  front_entity "n" 30 [(("behind", "n"), 10); (("front", "n"), 10)]%Q (fun x => x =? "front") (fun _ => Some 8%Q) = None /\
  front_entity "n" 30 [(("front", "n"), 10); (("behind", "n"), 10)]%Q (fun x => x =? "front") (fun _ => Some 8%Q) = Some "front".
Proof. split; reflexivity. Qed.
Example C60_example :
  front_entity "n" 30 [(("a", "b"), 3); (("a", "n"), 10); (("n", "x"), 12); (("b", "n"), 40)]%Q
    (fun x => negb (x =? "b")) (fun x => if x =? "x" then Some 7%Q else Some 9%Q) = Some "x" /\
  no_ties "n" 30 [(("a", "b"), 3); (("a", "n"), 10); (("n", "x"), 12); (("b", "n"), 40)]%Q.
Proof.
  split; [reflexivity |].
  intros n n' d d' (A & B) (A' & B') E. simpl in B, B'.
  repeat match goal with
  | H : _ \/ _ |- _ => destruct H
  | H : _ /\ _ |- _ => destruct H
  | H : False |- _ => destruct H
  | H : (_, _) = (_, _) |- _ => injection H; clear H; intros; subst
  end; try congruence; try reflexivity; exfalso; lra.
Qed.

Print Assumptions C60_front_entity.
Print Assumptions C60_answer_is_in_front.
Print Assumptions C60_front_entity_refuted.
