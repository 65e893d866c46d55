(** The positions of trajectories, and altitudes *)
From Coq Require Import Reals List ZArith Bool Lra Lia Psatz.
From Verif Require Import M_Segment P_Segment M_Spline S_Spline P_SplineHit.
Import ListNotations.
Open Scope R_scope.

(** From [s] up to [e] in steps of [step], the last one shorter *)
Inductive climb (e step : R) : R -> list R -> Prop :=
| climb_end s : e <= s -> climb e step s [e]
| climb_step s rest : s < e -> climb e step (s + step) rest -> climb e step s (s :: rest).

Lemma upward_climb : forall fuel s e step l, upward fuel s e step = Some l -> climb e step s l.
Proof.
  induction fuel as [| fuel IH]; intros s e step l H; cbn [upward] in H; [discriminate |].
  destruct (lt s e) eqn:E.
  - apply lt_true in E. destruct (upward fuel (s + step) e step) as [rest |] eqn:U; [| discriminate].
    injection H as <-. constructor; [exact E | now apply IH].
  - apply lt_false in E. injection H as <-. now constructor.
Qed.

Lemma upward_enough : forall n s e step, 0 < step -> e - s <= INR n * step ->
  exists l, forall fuel, (n < fuel)%nat -> upward fuel s e step = Some l.
Proof.
  induction n as [| n IH]; intros s e step P B.
  - exists [e]. intros [| fuel] F; [lia |]. cbn in B. cbn [upward].
    assert (lt s e = false) as -> by (apply lt_false; lra). reflexivity.
  - destruct (lt s e) eqn:E.
    + destruct (IH (s + step) e step P) as [l L].
      { rewrite S_INR in B. lra. }
      exists (s :: l). intros [| fuel] F; [lia |]. cbn [upward]. rewrite E, (L fuel) by lia. reflexivity.
    + exists [e]. intros [| fuel] F; [lia |]. cbn [upward]. now rewrite E.
Qed.

Lemma enough : forall v step, 0 < step -> exists n, v <= INR n * step.
Proof.
  intros v step P. exists (Z.to_nat (up (v / step))).
  assert (v = v / step * step) as E by (field; lra).
  destruct (archimed (v / step)) as [A _].
  assert (IZR (up (v / step)) <= INR (Z.to_nat (up (v / step)))) as B.
  { rewrite INR_IZR_INZ. apply IZR_le. lia. }
  set (w := v / step) in *. clearbody w. rewrite E. nra.
Qed.

Lemma downward_mirror : forall fuel s e step,
  downward fuel s e step = option_map (map Ropp) (upward fuel (- s) (- e) step).
Proof.
  induction fuel as [| fuel IH]; intros s e step; [reflexivity |]. cbn [downward upward].
  replace (lt (- s) (- e)) with (lt e s).
  - destruct (lt e s).
    + rewrite IH. replace (- (s - step)) with (- s + step) by ring.
      destruct (upward fuel (- s + step) (- e) step); cbn [option_map map]; [| reflexivity].
      now rewrite Ropp_involutive.
    + cbn [option_map map]. now rewrite Ropp_involutive.
  - destruct (lt e s) eqn:E; symmetry; [apply lt_true in E; apply lt_true; lra |].
    apply lt_false in E. apply lt_false. lra.
Qed.

Lemma climb_head : forall e step s l, climb e step s l -> exists a rest,
  l = a :: rest /\ (s <= e -> a = s) /\ s <= a + step * 0 + (if Rle_dec e s then s - e else 0).
Proof.
  intros e step s l H. inversion H; subst.
  - exists e, []. split; [reflexivity |]. split; [lra |]. destruct (Rle_dec e s); lra.
  - exists s, rest. split; [reflexivity |]. split; [lra |]. destruct (Rle_dec e s); lra.
Qed.

Lemma climb_last : forall e step s l, climb e step s l -> forall d, last l d = e.
Proof.
  induction 1 as [s L | s rest L H IH]; intros d; [reflexivity |].
  destruct rest; [inversion H |]. exact (IH d).
Qed.

Lemma climb_steps : forall e step s l, 0 < step -> climb e step s l ->
  forall k u v, nth_error l k = Some u -> nth_error l (S k) = Some v ->
  u < v <= u + step /\ (v <> e -> v = u + step).
Proof.
  intros e step s l P. induction 1 as [s L | s rest L H IH]; intros k u v U V.
  - destruct k as [| k]; cbn in V; [discriminate | destruct k; discriminate].
  - destruct k as [| k].
    + cbn in U. injection U as <-. cbn in V. inversion H; subst; cbn in V; injection V as <-.
      * split; [lra | congruence].
      * split; [lra | reflexivity].
    + exact (IH k u v U V).
Qed.

Lemma map_nth_inv : forall A B (f : A -> B) l k b, nth_error (map f l) k = Some b ->
  exists a, nth_error l k = Some a /\ b = f a.
Proof.
  intros A B f l k b H. rewrite nth_error_map in H. destruct (nth_error l k); [| discriminate].
  injection H as <-. eauto.
Qed.

Lemma last_map : forall A B (f : A -> B) l d, last (map f l) (f d) = f (last l d).
Proof. induction l as [| a [| b l] IH]; intros d; [reflexivity | reflexivity |]. exact (IH d). Qed.

(** *** The curve's own trajectory *)

Lemma curve_upward_beyond : forall n s e step, 0 < step -> e - s < INR n * step -> s <= e ->
  exists l, (forall fuel, (n < fuel)%nat -> curve_upward fuel s e step = Some l) /\
    (forall v, In v l -> s < v) /\ l <> [] /\ forall d, e < last l d.
Proof.
  induction n as [| n IH]; intros s e step P B L; [cbn in B; lra |].
  rewrite S_INR in B.
  assert (le s e = true) as E by now apply le_true.
  destruct (Rle_dec (s + step) e) as [G | G].
  - destruct (IH (s + step) e step P) as (l & F & A & N & Z); [lra | exact G |].
    exists ((s + step) :: l). split; [| split; [| split]].
    + intros [| fuel] H; [lia |]. cbn [curve_upward]. rewrite E, F by lia. reflexivity.
    + intros v [<- | I]; [lra |]. apply A in I. lra.
    + discriminate.
    + intros d. destruct l as [| a l]; [now elim N |]. exact (Z d).
  - exists [s + step]. split; [| split; [| split]].
    + intros [| fuel] H; [lia |]. cbn [curve_upward]. rewrite E. destruct fuel as [| fuel]; [lia |].
      cbn [curve_upward]. assert (le (s + step) e = false) as -> by (apply le_false; lra). reflexivity.
    + intros v [<- | []]. lra.
    + discriminate.
    + intros d. cbn. lra.
Qed.

(** *** Altitudes *)

Lemma altitudes_in : forall points lengths a b at_ v, (List.length lengths = List.length points - 1)%nat ->
  (In v (altitudes points lengths at_ a b) <->
   exists k p, nth_error points k = Some p /\ z p = v /\ a <= at_ + sum (firstn k lengths) <= b).
Proof.
  induction points as [| p points IH]; intros lengths a b at_ v L.
  - cbn. split; [easy |]. intros (k & p & H & _). destruct k; discriminate.
  - cbn [altitudes].
    assert (In v (if le a at_ && le at_ b then [z p] else []) <-> z p = v /\ a <= at_ <= b) as H.
    { destruct (le a at_ && le at_ b) eqn:E.
      - apply andb_true_iff in E. rewrite !le_true in E. cbn. tauto.
      - apply andb_false_iff in E. rewrite !le_false in E. cbn. split; [easy | intros; lra]. }
    destruct lengths as [| l lengths].
    + destruct points as [| q points]; [| cbn in L; lia]. rewrite H. split.
      * intros [A B]. exists 0%nat, p. cbn. rewrite Rplus_0_r. auto.
      * intros ([| k] & q & N & Z & R); [| destruct k; discriminate]. cbn in N. injection N as <-.
        cbn in R. split; [exact Z | lra].
    + destruct points as [| q points]; [cbn in L; lia |].
      rewrite in_app_iff, H, IH by (cbn in *; lia). split.
      * intros [[A B] | (k & u & N & Z & R)].
        -- exists 0%nat, p. cbn. rewrite Rplus_0_r. auto.
        -- exists (S k), u. cbn [firstn sum]. split; [exact N |]. split; [exact Z | lra].
      * intros ([| k] & u & N & Z & R).
        -- cbn in N. injection N as <-. cbn in R. left. split; [exact Z | lra].
        -- right. exists k, u. cbn [firstn sum] in R. split; [exact N |]. split; [exact Z | lra].
Qed.
