(** The rate at which traffic lights are published. *)
From Coq Require Import Reals List Lra.
From Verif Require Import M_Rate S_Rate.
Import ListNotations.
Local Open Scope R_scope.

Lemma after_snoc h q : after (h ++ [q]) = obey (after h) q.
Proof. unfold after. rewrite fold_left_app. reflexivity. Qed.
Definition runs (u : updater) (r : R) : Prop := u = {| rate := r; timer := Some (1 / r); firing := [1 / r] |}.
Lemma starts_keep h2 : forall u r, Forall is_start h2 -> runs u r -> runs (fold_left obey h2 u) r.
Proof.
  induction h2 as [|q h2 IH]; intros u r F R; [exact R|]. inversion F as [|? ? [r' ->] F']; subst.
  cbn [fold_left obey]. apply IH; [exact F'|]. unfold runs in R. subst u. reflexivity.
Qed.
Lemma after_shape h : after h = fresh \/ exists r, runs (after h) r.
Proof.
  induction h as [|q h IH] using rev_ind; [left; reflexivity|]. right. rewrite after_snoc.
  destruct IH as [-> | [r ->]]; destruct q as [s|s]; eexists; reflexivity.
Qed.
(** ** C239: Whatever is requested, lights are published at the rate of the last reset, or without one of
    the first start, by this one timer and no other, and this rate is reported. *)
Theorem C239_rate : forall h r, asked h r ->
  rate (after h) = r /\ timer (after h) = Some (1 / r) /\ firing (after h) = [1 / r].
Proof.
  intros h r (h1 & h2 & F & E). assert (R : runs (after h) r); [|rewrite R; auto].
  destruct E as [-> | [-> ->]].
  - unfold after. rewrite fold_left_app. cbn [fold_left]. apply starts_keep; [exact F|].
    fold (after h1). destruct (after_shape h1) as [-> | [s ->]]; reflexivity.
  - unfold after. cbn [fold_left]. apply starts_keep; [exact F|]. reflexivity.
Qed.
(** There is such a rate as soon as anything is requested, and only one. *)
Theorem C239_asked : forall h, h <> [] -> exists r, asked h r /\ forall r', asked h r' -> r' = r.
Proof.
  intros h N.
  assert (A : exists r, asked h r).
  { induction h as [|q h IH] using rev_ind; [contradiction|]. destruct q as [s|s].
    - destruct h as [|q h].
      + exists s, [], []. split; [constructor|]. right. auto.
      + destruct IH as (r & h1 & h2 & F & E); [discriminate|]. exists r, h1, (h2 ++ [Start s]).
        split; [apply Forall_app; split; [exact F|repeat constructor; exists s; reflexivity]|].
        destruct E as [-> | [-> ->]]; [left; rewrite <- app_assoc; reflexivity|right; auto].
    - exists s, h, []. split; [constructor|]. left. reflexivity. }
  destruct A as [r A]. exists r. split; [exact A|]. intros r' A'.
  destruct (C239_rate _ _ A) as [<- _]. destruct (C239_rate _ _ A') as [<- _]. reflexivity.
Qed.
(** Before that nothing is published. *)
Theorem C239_nothing : firing (after []) = [] /\ forall h, firing (after h) = [] -> h = [].
Proof.
  split; [reflexivity|]. intros h F. destruct h as [|q h]; [reflexivity|]. exfalso.
  destruct (C239_asked (q :: h) ltac:(discriminate)) as (r & A & _). destruct (C239_rate _ _ A) as (_ & _ & G).
  rewrite G in F. discriminate.
Qed.
(** Refuted: a start with another rate changes the rate. *)
Theorem C239_start_refuted : exists r r', r <> r' /\ rate (after [Start r; Start r']) <> r'.
Proof. exists 1, 2. split; [lra|]. cbn. lra. Qed.
Example C239_example : asked [Start 30; Reset 10; Start 5] 10.
Proof. exists [Start 30], [Start 5]. split; [repeat constructor; exists 5; reflexivity|]. left. reflexivity. Qed.
