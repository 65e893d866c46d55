(** C69: speed requests relative to another entity; and time-constrained linear requests (C54). *)
From Coq Require Import List Bool Arith QArith Qabs Lia Lqa.
From Verif Require Import M_Job S_Job P_Job M_SpeedRequest S_SpeedRequest P_SpeedRequest T_SpeedRequest.
Import ListNotations.
Local Open Scope Q_scope.

(** ** Specification *)
(** What entity [e] knows of the speed of entity [n]; never anything of itself. *)
Definition knows (e : entity) (n : nat) (s : Q) : Prop := w_others (snd e) n = Some s.
Definition unknown (e : entity) (n : nat) : Prop := w_others (snd e) n = None.
(** The speed [r] asks for when the reference drives at [s]. *)
Definition asked (r : relative) (s : Q) : Q := match r with Delta _ v => s + v | Factor _ v => s * v end.

(** The relative requests without a time constraint. *)
Inductive requests_relative (r : relative) (k : bool) : action -> Prop :=
| relative_direct : requests_relative r k (RequestRelativeSpeed r k)
| relative_free tr : requests_relative r k (RequestRelative r tr NoConstraint k)
| relative_acceleration tr a : requests_relative r k (RequestRelative r tr (LongitudinalAcceleration a) k).

(** ** Proofs *)
Definition view (w : world) := (w_others w, w_name w).
Definition calm (j : job) : Prop :=
  (forall d w, view (fst (j_update j d w)) = view w) /\ (forall w, view (j_cleanup j w) = view w).
Definition calm_list (l : list job) : Prop := Forall calm l.

Lemma calm_status j b : calm j -> calm (with_status j b). Proof. auto. Qed.
Lemma calm_duration j b : calm j -> calm (with_duration j b). Proof. auto. Qed.
Lemma calm_make f c t : (forall d w, view (fst (f d w)) = view w) -> (forall w, view (c w) = view w) ->
  calm (make_job f c t true PostUpdate).
Proof. split; auto. Qed.

Lemma replace_calm t ex : forall l i w l' w' cs, replace t ex i l w = (l', w', cs) -> calm_list l ->
  calm_list l' /\ view w' = view w.
Proof.
  induction l as [|j l IH]; intros i w l' w' cs H F; simpl in H; [injection H as <- <- <-; auto|].
  inversion F as [|? ? C F']; subst.
  destruct (type_eqb (j_type j) t && eqb (j_exclusive j) ex && j_active j); simpl in H.
  - destruct (replace t ex (S i) l (j_cleanup j w)) as [[l2 w2] cs2] eqn:R. injection H as <- <- <-.
    destruct (IH _ _ _ _ _ R F') as [A B]. split; [constructor; auto; apply calm_status; auto|].
    rewrite B. apply C.
  - destruct (replace t ex (S i) l w) as [[l2 w2] cs2] eqn:R. injection H as <- <- <-.
    destruct (IH _ _ _ _ _ R F') as [A B]. split; [constructor; auto|auto].
Qed.

Lemma on_update_calm i s j w j' w' cs : on_update i s j w = (j', w', cs) -> calm j ->
  calm j' /\ view w' = view w.
Proof.
  intros H C. unfold on_update in H. destruct (j_active j); [|injection H as <- <- <-; auto].
  destruct C as [C1 C2]. assert (U1 := C1 (j_duration j) w).
  destruct (j_update j (j_duration j) w) as [w1 []] eqn:U; simpl in H, U1; injection H as <- <- <-.
  - split; [apply calm_duration, calm_status; split; auto|]. rewrite C2. auto.
  - split; [apply calm_duration; split; auto|auto].
Qed.

Lemma update_calm s ev : forall l i w l' w' cs, update_from i s ev l w = (l', w', cs) -> calm_list l ->
  calm_list l' /\ view w' = view w.
Proof.
  induction l as [|j l IH]; intros i w l' w' cs H F; simpl in H; [injection H as <- <- <-; auto|].
  inversion F as [|? ? C F']; subst. destruct (event_eqb (j_event j) ev).
  - destruct (on_update i s j w) as [[j1 w1] cs1] eqn:O. destruct (on_update_calm _ _ _ _ _ _ _ O C) as [A B].
    destruct (update_from (S i) s ev l w1) as [[l2 w2] cs2] eqn:R. injection H as <- <- <-.
    destruct (IH _ _ _ _ _ R F') as [A' B']. split; [constructor; auto|congruence].
  - destruct (update_from (S i) s ev l w) as [[l2 w2] cs2] eqn:R. injection H as <- <- <-.
    destruct (IH _ _ _ _ _ R F') as [A' B']. split; [constructor; auto|auto].
Qed.

Definition fine (e : entity) : Prop := good e /\ calm_list (fst e).

Lemma calm_hold v t : calm (make_job (hold_speed v) keep t true PostUpdate).
Proof. apply calm_make; auto. Qed.
Lemma calm_approach v t : calm (make_job (approach_speed v) cancel_target t true PostUpdate).
Proof. apply calm_make; auto. intros. unfold approach_speed. job_cases. Qed.
Lemma calm_above v t : calm (make_job (above v) reset_limits t true PostUpdate).
Proof. apply calm_make; auto. Qed.
Lemma calm_below v t : calm (make_job (below v) reset_limits t true PostUpdate).
Proof. apply calm_make; auto. Qed.
Lemma calm_near v t : calm (make_job (near v) reset_limits t true PostUpdate).
Proof. apply calm_make; auto. Qed.
Lemma calm_follow r t : calm (make_job (follow_speed r) keep t true PostUpdate).
Proof. apply calm_make; auto. intros. unfold follow_speed. job_cases. Qed.
Lemma calm_approach_relative r t : calm (make_job (approach_relative r) cancel_target t true PostUpdate).
Proof. apply calm_make; auto. intros. unfold approach_relative. job_cases. Qed.
Lemma calm_follow_limits r a t : calm (make_job (follow_limits r a) reset_limits t true PostUpdate).
Proof. apply calm_make; auto. intros. unfold follow_limits. job_cases. Qed.
Lemma calm_synchronize f t : calm (make_job (synchronize f) keep t true PostUpdate).
Proof. apply calm_make; auto. intros. unfold synchronize. job_cases. Qed.

Lemma calm_add f c t e : calm (make_job f c t true PostUpdate) -> calm_list (fst e) ->
  calm_list (fst (add f c t e)) /\ view (snd (add f c t e)) = view (snd e).
Proof.
  intros C F. unfold add, append. destruct (replace t true 0 (fst e) (snd e)) as [[l1 w1] cs] eqn:R.
  destruct (replace_calm _ _ _ _ _ _ _ _ R F) as [A B]. simpl. split; [apply Forall_app; split; auto|auto].
Qed.

(** Every request leaves what is known of the others alone. *)
Definition same (e e' : entity) : Prop := calm_list (fst e) -> calm_list (fst e') /\ view (snd e') = view (snd e).
Lemma same_refl e : same e e. Proof. split; auto. Qed.
Lemma same_trans e1 e2 e3 : same e1 e2 -> same e2 e3 -> same e1 e3.
Proof. intros A B H. destruct (A H) as [A1 A2]. destruct (B A1) as [B1 B2]. split; auto. congruence. Qed.
Lemma same_change g e : (forall w, view (g w) = view w) -> same e (change g e).
Proof. intros H F. split; auto. apply H. Qed.
Lemma same_add f c t e : calm (make_job f c t true PostUpdate) -> same e (add f c t e).
Proof. intros C F. apply calm_add; auto. Qed.

Ltac samed := repeat first
  [ apply same_refl
  | (eapply same_trans; [|apply same_change; intros; reflexivity])
  | (eapply same_trans; [|apply same_add;
       first [apply calm_hold|apply calm_approach|apply calm_above|apply calm_below|apply calm_near|apply calm_follow
             |apply calm_approach_relative|apply calm_follow_limits|apply calm_synchronize]]) ].
Lemma same_request_speed v k e : same e (request_speed v k e).
Proof. unfold request_speed. job_cases; samed. Qed.
Ltac samed2 := repeat first [(eapply same_trans; [|apply same_request_speed]) | progress samed].
Lemma same_auto v a k e : same e (constant_acceleration_auto v a k e).
Proof. unfold constant_acceleration_auto. job_cases; samed2. Qed.
Lemma same_constant v tr a k e : same e (constant_acceleration v tr a k e).
Proof.
  unfold constant_acceleration. job_cases; samed2; (eapply same_trans; [|apply same_auto]); samed2.
Qed.
Lemma same_relative_speed r k e : same e (request_relative_speed r k e).
Proof. unfold request_relative_speed. job_cases; samed2. Qed.
Lemma same_relative_constant r tr a k e : same e (relative_constant_acceleration r tr a k e).
Proof.
  unfold relative_constant_acceleration. job_cases; samed2; (eapply same_trans; [|apply same_relative_speed]); samed2.
Qed.
Section Plan.
Variable plan : Q -> Q -> Q -> Q -> limits -> option limits.
Lemma same_time v tr t e : same e (time_constraint plan v tr t e).
Proof. unfold time_constraint. job_cases; samed2; apply same_constant. Qed.
Lemma same_request v tr c k e : same e (request plan v tr c k e).
Proof. unfold request. job_cases; samed2; [apply same_constant|apply same_time]. Qed.
Lemma same_relative_time r tr t e : same e (relative_time_constraint plan r tr t e).
Proof.
  unfold relative_time_constraint. job_cases; samed2; try apply same_time;
    (eapply same_trans; [|apply same_relative_speed]); samed2.
Qed.
Lemma same_relative r tr c k e : same e (request_relative plan r tr c k e).
Proof.
  unfold request_relative. job_cases; samed2;
    [apply same_relative_constant|apply same_relative_time|apply same_relative_speed].
Qed.
Lemma calm_act x e : calm_list (fst e) -> calm_list (fst (act plan x e)) /\
  ((forall o, x <> Others o) -> view (snd (act plan x e)) = view (snd e)).
Proof.
  intros F. destruct x; cbn [act].
  - destruct (same_request v tr c continuous e F); auto.
  - destruct (same_request_speed v continuous e F); auto.
  - destruct (same_relative r tr c continuous e F); auto.
  - destruct (same_relative_speed r continuous e F); auto.
  - unfold request_synchronize. destruct (same_add (synchronize f) keep LinearAcceleration e (calm_synchronize f _) F); auto.
  - split; auto.
  - split; auto.
  - split; auto. intros H. destruct (H o eq_refl).
  - split; auto.
  - destruct (update step PostUpdate (fst e) (snd e)) as [[l w] cs] eqn:U.
    destruct (update_calm _ _ _ _ _ _ _ _ U F) as [A B]. auto.
Qed.
Lemma fine_act x e : fine e -> fine (act plan x e).
Proof. intros [A B]. split; [apply good_act; exact A|]. apply calm_act; exact B. Qed.
Lemma fine_acts : forall xs e, fine e -> fine (acts plan xs e).
Proof. induction xs as [|x xs IH]; intros e H; [exact H|]. apply IH, fine_act, H. Qed.
End Plan.
Lemma fine_spawned n v : fine (spawned n v).
Proof. split; [apply good_spawned|]. repeat constructor; auto. Qed.

(** ** The job of a relative request *)
Definition relative_job (r : relative) (k : bool) : job :=
  if k then make_job (follow_speed r) keep LinearVelocity true PostUpdate
  else make_job (approach_relative r) cancel_target LinearVelocity true PostUpdate.
Definition last_relative (r : relative) (k : bool) (e : entity) : Prop :=
  exists l d, fst e = l ++ [with_duration (relative_job r k) d] /\ wild_free l /\ calm_list l.

Lemma relative_shape r k e s : fine e -> absolute r (snd e) = Some s -> (k = true \/ reached s (snd e) = false) ->
  last_relative r k (request_relative_speed r k e) /\ w_speed (snd (request_relative_speed r k e)) = w_speed (snd e).
Proof.
  intros [G C] E H. unfold request_relative_speed. rewrite E.
  assert (X : reached s (snd e) && negb k = false) by (destruct H as [H|H]; rewrite H; [rewrite andb_false_r|]; auto).
  rewrite X. destruct k.
  - destruct (add_shape (follow_speed r) keep LinearVelocity e G) as (l & w & E1 & A & B & _).
    destruct (calm_add (follow_speed r) keep LinearVelocity e (calm_follow r _) C) as [D _].
    rewrite E1 in *. cbn [fst snd] in *. split; [|exact B]. exists l, 0. split; [reflexivity|split; [exact A|]].
    apply Forall_app in D. apply D.
  - destruct (add_shape (approach_relative r) cancel_target LinearVelocity e G) as (l & w & E1 & A & B & _).
    destruct (calm_add (approach_relative r) cancel_target LinearVelocity e (calm_approach_relative r _) C) as [D _].
    rewrite E1 in *. cbn [fst snd] in *. split; [|exact B]. exists l, 0. split; [reflexivity|split; [exact A|]].
    apply Forall_app in D. apply D.
Qed.

Lemma absolute_same r w w' : w_others w' = w_others w -> w_name w' = w_name w -> w_speed w' = w_speed w ->
  absolute r w' = absolute r w.
Proof. intros A B C. unfold absolute. rewrite A, B, C. reflexivity. Qed.
Lemma absolute_known r w s : w_others w (reference r) = Some s -> absolute r w = Some (asked r s).
Proof. intros E. unfold absolute, asked. rewrite E. destruct r; reflexivity. Qed.

Section Theorems.
Variable plan : Q -> Q -> Q -> Q -> limits -> option limits.

Lemma request_last r k x e s : fine e -> requests_relative r k x -> knows e (reference r) s ->
  (k = true \/ ~ close (asked r s) (speed e)) -> last_relative r k (act plan x e).
Proof.
  intros F R K H. assert (E := absolute_known r (snd e) s K).
  assert (H' : k = true \/ reached (asked r s) (snd e) = false).
  { destruct H as [H|H]; auto. right. destruct (reached (asked r s) (snd e)) eqn:X; auto.
    apply reached_close in X. contradiction. }
  assert (X : reached (asked r s) (snd e) && negb k = false) by (destruct H' as [Y|Y]; rewrite Y; [rewrite andb_false_r|]; auto).
  destruct R; cbn [act].
  - apply (relative_shape r k e (asked r s)); auto.
  - unfold request_relative. rewrite E, X. apply (relative_shape r k e (asked r s)); auto.
  - unfold request_relative. rewrite E, X. unfold relative_constant_acceleration. rewrite E, X.
    assert (AU : forall e0, fine e0 -> w_others (snd e0) = w_others (snd e) -> w_speed (snd e0) = w_speed (snd e) ->
      last_relative r k (request_relative_speed r k (add (follow_limits r a) reset_limits LinearAcceleration e0))).
    { intros e0 [G0 C0] O0 S0.
      destruct (calm_add (follow_limits r a) reset_limits LinearAcceleration e0 (calm_follow_limits r a _) C0) as [C1 O1]. apply (f_equal fst) in O1. cbn [view fst] in O1.
      destruct (add_shape (follow_limits r a) reset_limits LinearAcceleration e0 G0) as (l & w & E1 & _ & B & _).
      apply (relative_shape r k _ (asked r s)).
      - split; [apply good_add; auto; apply tame_follow_limits|exact C1].
      - apply absolute_known. rewrite O1, O0. exact K.
      - destruct H' as [Y|Y]; auto. right. rewrite (reached_speed _ (snd e)); auto. rewrite E1. cbn [snd]. congruence. }
    destruct tr.
    + apply AU; auto.
    + destruct (relative_shape r k e (asked r s) F E H') as [(l & d & L) _].
      exists l, d. exact L.
    + apply AU; auto.
Qed.

Lemma tail_follow i step r d w s : w_others w (reference r) = Some s ->
  update_from i step PostUpdate [with_duration (relative_job r true) d] w =
  ([with_duration (relative_job r true) (d + step)], set_target (Some (asked r s)) w, [Updated i d false]).
Proof.
  intros K. assert (E := absolute_known r w s K). unfold relative_job. cbn. unfold on_update. cbn.
  unfold follow_speed. rewrite K, E. reflexivity.
Qed.
Lemma tail_approach i step r d w s : w_others w (reference r) = Some s -> reached (asked r s) w = false ->
  update_from i step PostUpdate [with_duration (relative_job r false) d] w =
  ([with_duration (relative_job r false) (d + step)], set_target (Some (asked r s)) w, [Updated i d false]).
Proof.
  intros K R. assert (E := absolute_known r w s K). unfold relative_job. cbn. unfold on_update. cbn.
  unfold approach_relative. rewrite K, E, R. reflexivity.
Qed.
Lemma tail_release i step r d w :
  w_others w (reference r) = None \/ (exists s, w_others w (reference r) = Some s /\ reached (asked r s) w = true) ->
  exists l cs, update_from i step PostUpdate [with_duration (relative_job r false) d] w = (l, set_target None w, cs).
Proof.
  intros H. unfold relative_job. cbn. unfold on_update. cbn. unfold approach_relative.
  destruct H as [K|(s & K & R)]; rewrite K; [cbn; eauto|]. rewrite (absolute_known r w s K), R. cbn. eauto.
Qed.

(** One update with the relative job last. *)
Lemma post_relative r k e step s : last_relative r k e -> knows e (reference r) s ->
  (k = false -> ~ close (asked r s) (speed e)) ->
  last_relative r k (act plan (Post step) e) /\ target (act plan (Post step) e) = Some (asked r s).
Proof.
  intros (l & d & E & W & C) K H. destruct e as [l0 w]. simpl in E. subst l0. cbn [act fst snd].
  unfold knows in K. cbn [snd] in K. unfold speed in H. cbn [snd] in H.
  unfold update. rewrite update_from_app.
  destruct (update_from 0 step PostUpdate l w) as [[l1 w1] c1] eqn:U.
  destruct (update_tame _ _ _ _ _ _ _ _ U W) as (A & B & _).
  destruct (update_calm _ _ _ _ _ _ _ _ U C) as (C1 & O1). apply (f_equal fst) in O1. cbn [view fst] in O1.
  assert (K1 : w_others w1 (reference r) = Some s) by (rewrite O1; exact K).
  destruct k.
  - cbn [length plus]. rewrite (tail_follow _ step r d w1 s K1). cbn. split; [exists l1, (d + step); auto|reflexivity].
  - assert (R1 : reached (asked r s) w1 = false).
    { destruct (reached (asked r s) w1) eqn:X; auto. apply reached_close in X. rewrite B in X. destruct (H eq_refl X). }
    rewrite (tail_approach _ step r d w1 s K1 R1). cbn. split; [exists l1, (d + step); auto|reflexivity].
Qed.

Definition pending_at (r : relative) (k : bool) (e : entity) : Prop :=
  exists s, knows e (reference r) s /\ (k = false -> ~ close (asked r s) (speed e)).

Lemma relative_held r k : forall ys e, last_relative r k e -> (forall x, In x ys -> passive x) ->
  at_updates plan (pending_at r k) e ys -> last_relative r k (acts plan ys e).
Proof.
  induction ys as [|x ys IH]; intros e L P U; [exact L|]. apply at_updates_cons in U as [U0 U].
  assert (PX : passive x) by (apply P; left; auto).
  assert (L1 : last_relative r k (act plan x e)).
  { destruct x; try destruct PX; try exact L. destruct (U0 I) as (s & K & H).
    destruct (post_relative r k e step s L K H) as [A _]. exact A. }
  apply (IH _ L1 (fun y Y => P y (or_intror Y)) U).
Qed.

(** C69. A relative request makes every later update set the target to what is asked relative to the
    speed the reference then has, as long as no newer request is made, the reference is known and,
    unless continuous, the speed asked for was not reached. *)
Theorem C69_relative_target : forall name v0 xs r k x ys step s s',
  let e := acts plan xs (spawned name v0) in
  requests_relative r k x -> knows e (reference r) s -> (k = true \/ ~ close (asked r s) (speed e)) ->
  (forall y, In y ys -> passive y) -> at_updates plan (pending_at r k) (act plan x e) ys ->
  let e' := acts plan ys (act plan x e) in
  knows e' (reference r) s' -> (k = false -> ~ close (asked r s') (speed e')) ->
  target (act plan (Post step) e') = Some (asked r s').
Proof.
  intros name v0 xs r k x ys step s s' e R K H P U e' K' H'.
  apply (post_relative r k e' step s'); auto. apply relative_held; auto.
  apply (request_last r k x e s); auto. apply fine_acts, fine_spawned.
Qed.

(** A relative request that is not continuous is over, and the target released, at the first update
    that finds the speed asked for reached, or that does not know the reference. *)
Theorem C69_released : forall name v0 xs r x ys step s,
  let e := acts plan xs (spawned name v0) in
  requests_relative r false x -> knows e (reference r) s -> ~ close (asked r s) (speed e) ->
  (forall y, In y ys -> passive y) -> at_updates plan (pending_at r false) (act plan x e) ys ->
  let e' := acts plan ys (act plan x e) in
  (exists s', knows e' (reference r) s' /\ close (asked r s') (speed e')) \/ unknown e' (reference r) ->
  target (act plan (Post step) e') = None.
Proof.
  intros name v0 xs r x ys step s e R K H P U e' D.
  assert (L : last_relative r false e').
  { apply relative_held; auto. apply (request_last r false x e s); auto. apply fine_acts, fine_spawned. }
  destruct e' as [l0 w]. destruct L as (l & d & E & W & C). simpl in E. subst l0. cbn [act fst snd].
  unfold update. rewrite update_from_app.
  destruct (update_from 0 step PostUpdate l w) as [[l1 w1] c1] eqn:Up.
  destruct (update_tame _ _ _ _ _ _ _ _ Up W) as (A & B & _).
  destruct (update_calm _ _ _ _ _ _ _ _ Up C) as (C1 & O1). apply (f_equal fst) in O1. cbn [view fst] in O1.
  match goal with |- context [update_from ?i step PostUpdate [_] w1] =>
    destruct (tail_release i step r d w1) as (l2 & cs & E2) end.
  - destruct D as [(s' & K' & Cl)|N].
    + right. exists s'. unfold knows in K'. cbn [snd] in K'. split; [rewrite O1; exact K'|].
      unfold speed in Cl. cbn [snd] in Cl. rewrite <- B in Cl. apply reached_close in Cl. exact Cl.
    + left. unfold unknown in N. cbn [snd] in N. rewrite O1. exact N.
  - unfold relative_job in E2. rewrite E2. reflexivity.
Qed.

(** A step sets the speed at once. *)
Theorem C69_step : forall e r k s a, knows e (reference r) s -> (k = true \/ ~ close (asked r s) (speed e)) ->
  speed (act plan (RequestRelative r Step (LongitudinalAcceleration a) k) e) = asked r s.
Proof.
  intros e r k s a K H. cbn [act]. unfold request_relative, relative_constant_acceleration.
  rewrite (absolute_known r (snd e) s K).
  assert (X : reached (asked r s) (snd e) && negb k = false).
  { destruct H as [H|H]; [rewrite H; apply andb_false_r|].
    destruct (reached (asked r s) (snd e)) eqn:Y; auto. apply reached_close in Y. contradiction. }
  rewrite X. reflexivity.
Qed.

(** A request relative to an entity that is neither known nor the entity itself fails. *)
Theorem C69_unknown_reference : forall e r tr c k, unknown e (reference r) -> w_name (snd e) <> reference r ->
  failed (act plan (RequestRelative r tr c k) e) /\ failed (act plan (RequestRelativeSpeed r k) e).
Proof.
  intros e r tr c k U N. unfold unknown in U. cbn [act]. unfold request_relative, request_relative_speed, absolute.
  rewrite U. destruct (Nat.eqb_spec (w_name (snd e)) (reference r)); [contradiction|]. split; reflexivity.
Qed.
(** A relative continuous request with a time constraint is refused. *)
Theorem C69_continuous_time_refused : forall e r tr t s, knows e (reference r) s ->
  failed (act plan (RequestRelative r tr (Time t) true) e).
Proof.
  intros e r tr t s K. cbn [act]. unfold request_relative. rewrite (absolute_known r (snd e) s K).
  rewrite andb_false_r. reflexivity.
Qed.
(** An entity never knows itself as another one. *)
Lemma self_view name v0 xs : unknown (acts plan xs (spawned name v0)) name /\
  w_name (snd (acts plan xs (spawned name v0))) = name.
Proof.
  assert (G : forall ys e, fine e -> w_name (snd e) = name -> unknown e name ->
            w_name (snd (acts plan ys e)) = name /\ unknown (acts plan ys e) name).
  { induction ys as [|x ys IH]; intros e F N U; [auto|]. cbn [acts fold_left].
    assert (D : (forall o, x <> Others o) \/ exists o, x = Others o) by (destruct x; eauto; left; discriminate).
    assert (X : w_name (snd (act plan x e)) = name /\ unknown (act plan x e) name).
    { destruct D as [D|[o ->]].
      - assert (V := proj2 (calm_act plan x e (proj2 F)) D). injection V as V1 V2. split; [congruence|].
        unfold unknown in *. rewrite V1. exact U.
      - unfold unknown. cbn. rewrite N, Nat.eqb_refl. auto. }
    apply IH; [apply fine_act, F|apply X|apply X]. }
  destruct (G xs (spawned name v0) (fine_spawned name v0) eq_refl eq_refl). auto.
Qed.

(** A request relative to the entity itself refers to its own speed when the request is made: a step
    is carried out. *)
Theorem C69_step_relative_to_itself : forall name v0 xs r k a,
  let e := acts plan xs (spawned name v0) in
  reference r = name -> (k = true \/ ~ close (asked r (speed e)) (speed e)) ->
  speed (act plan (RequestRelative r Step (LongitudinalAcceleration a) k) e) = asked r (speed e).
Proof.
  intros name v0 xs r k a e N H. destruct (self_view name v0 xs) as [U W]. fold e in U, W.
  assert (E : absolute r (snd e) = Some (asked r (speed e))).
  { unfold absolute. unfold unknown in U. rewrite N, U, W, Nat.eqb_refl. destruct r; reflexivity. }
  cbn [act]. unfold request_relative, relative_constant_acceleration. rewrite E.
  assert (X : reached (asked r (speed e)) (snd e) && negb k = false).
  { destruct H as [H|H]; [rewrite H; apply andb_false_r|].
    destruct (reached (asked r (speed e)) (snd e)) eqn:Y; auto. apply reached_close in Y. contradiction. }
  rewrite X. reflexivity.
Qed.

(** But a request that takes time has no effect: at the next update the target is not the speed asked
    for, it is released, whatever it was. *)
Theorem C69_relative_to_itself_lost : forall name v0 xs r ys step,
  let e := acts plan xs (spawned name v0) in
  reference r = name -> ~ close (asked r (speed e)) (speed e) ->
  (forall y, In y ys -> passive y /\ ~ is_post y) ->
  target (act plan (Post step) (acts plan ys (act plan (RequestRelativeSpeed r false) e))) = None.
Proof.
  intros name v0 xs r ys step e N H P. destruct (self_view name v0 xs) as [U W]. fold e in U, W.
  assert (E : absolute r (snd e) = Some (asked r (speed e))).
  { unfold absolute. unfold unknown in U. rewrite N, U, W, Nat.eqb_refl. destruct r; reflexivity. }
  assert (X : reached (asked r (speed e)) (snd e) = false).
  { destruct (reached (asked r (speed e)) (snd e)) eqn:Y; auto. apply reached_close in Y. contradiction. }
  set (e1 := act plan (RequestRelativeSpeed r false) e).
  assert (L1 : last_relative r false e1) by (apply (relative_shape r false e (asked r (speed e))); auto; apply fine_acts, fine_spawned).
  assert (L2 : last_relative r false (acts plan ys e1)).
  { clearbody e1. revert e1 L1. induction ys as [|y ys IH]; intros e1 L1; [exact L1|]. cbn [acts fold_left]. apply IH.
    - intros z Z. apply P; right; auto.
    - destruct (P y (or_introl eq_refl)) as [PX NP]. destruct y; try destruct PX; try exact L1. destruct (NP I). }
  assert (U2 : unknown (acts plan ys e1) name).
  { assert (EQ : acts plan ys e1 = acts plan (xs ++ RequestRelativeSpeed r false :: ys) (spawned name v0)).
    { rewrite acts_app. reflexivity. }
    rewrite EQ. apply self_view. }
  destruct (acts plan ys e1) as [l0 w]. destruct L2 as (l & d & El & Wl & Cl). simpl in El. subst l0. cbn [act fst snd].
  unfold update. rewrite update_from_app.
  destruct (update_from 0 step PostUpdate l w) as [[l1 w1] c1] eqn:Up.
  destruct (update_calm _ _ _ _ _ _ _ _ Up Cl) as (C1 & O1). apply (f_equal fst) in O1. cbn [view fst] in O1.
  match goal with |- context [update_from ?i step PostUpdate [?j] w1] =>
    destruct (tail_release i step r d w1) as (l2 & cs & E2) end.
  - left. unfold unknown in U2. cbn [snd] in U2. rewrite O1, N. exact U2.
  - unfold relative_job in E2. rewrite E2. reflexivity.
Qed.

(** A linear change in a given time is one with the constant acceleration that takes that time; relative
    to another entity, it aims at the speed asked for when the request is made. *)
Theorem C69_linear_time : forall e v t k, ~ close v (speed e) -> epsilon < Qabs t ->
  act plan (Request v Linear (Time t) k) e =
  act plan (Request v Linear (LongitudinalAcceleration ((v - speed e) / t)) false) e.
Proof.
  intros e v t k H T. cbn [act]. unfold request, time_constraint.
  assert (X : reached v (snd e) = false).
  { destruct (reached v (snd e)) eqn:Y; auto. apply reached_close in Y. contradiction. }
  rewrite X. cbn [andb]. assert (Y : Qle_bool (Qabs t) epsilon = false).
  { destruct (Qle_bool (Qabs t) epsilon) eqn:Z; auto. apply Qle_bool_iff in Z. lra. }
  rewrite Y. reflexivity.
Qed.
Theorem C69_relative_time : forall e r s tr t, tr = Linear \/ tr = Auto -> knows e (reference r) s ->
  ~ close (asked r s) (speed e) -> epsilon < Qabs t ->
  act plan (RequestRelative r tr (Time t) false) e = act plan (Request (asked r s) tr (Time t) false) e.
Proof.
  intros e r s tr t TR K H T. cbn [act]. unfold request_relative, relative_time_constraint, request.
  rewrite (absolute_known r (snd e) s K).
  assert (X : reached (asked r s) (snd e) = false).
  { destruct (reached (asked r s) (snd e)) eqn:Y; auto. apply reached_close in Y. contradiction. }
  rewrite X. cbn [andb]. assert (Y : Qle_bool (Qabs t) epsilon = false).
  { destruct (Qle_bool (Qabs t) epsilon) eqn:Z; auto. apply Qle_bool_iff in Z. lra. }
  rewrite Y. destruct TR as [-> | ->]; reflexivity.
Qed.

End Theorems.

(** ** The hypotheses are met by an ordinary run: entity 1 follows entity 2 at half its speed. *)
Definition no_plan : Q -> Q -> Q -> Q -> limits -> option limits := fun _ _ _ _ _ => None.
Definition drives (s : Q) : action := Others (fun n => if Nat.eqb n 2 then Some s else None).
Example relative_run :
  let e := acts no_plan [drives 10; Post (1 # 10)] (spawned 1 0) in
  let r := Factor 2 (1 # 2) in
  let ys := [Post (1 # 10); Move 3 1; drives 8] in
  let x := RequestRelative r Auto NoConstraint false in
  let e' := acts no_plan ys (act no_plan x e) in
  requests_relative r false x /\ knows e 2 10 /\ ~ close (asked r 10) (speed e) /\
  (forall y, In y ys -> passive y) /\ at_updates no_plan (pending_at r false) (act no_plan x e) ys /\
  knows e' 2 8 /\ ~ close (asked r 8) (speed e') /\
  target (act no_plan (Post (1 # 10)) e') = Some (8 * (1 # 2)).
Proof.
  cbv zeta. split; [apply relative_free|]. split; [reflexivity|]. split; [compute; intros H; apply H; reflexivity|].
  split; [intros y [<-|[<-|[<-|[]]]]; exact I|]. split.
  - intros a st b E. destruct a as [|a0 a]; [|destruct a as [|a1 a]; [|destruct a as [|a2 a]; [|destruct a]]]; try discriminate.
    exists 10. split; [reflexivity|]. intros _. compute. intros H; apply H; reflexivity.
  - split; [reflexivity|]. split; [compute; intros H; apply H; reflexivity|]. reflexivity.
Qed.
Example itself_run : let e := acts no_plan [Move 5 0] (spawned 1 0) in
  ~ close (asked (Delta 1 3) (speed e)) (speed e) /\
  target (act no_plan (Post (1 # 10)) (act no_plan (RequestRelativeSpeed (Delta 1 3) false) e)) = None.
Proof. split; [compute; intros H; apply H; reflexivity|reflexivity]. Qed.

(** A relative request with a constant acceleration ends the scenario if its reference disappears. *)
Theorem C69_reference_gone_refuted :
  let e := acts no_plan [drives 10; RequestRelative (Delta 2 0) Auto (LongitudinalAcceleration 1) false] (spawned 1 0) in
  ~ failed e /\ failed (acts no_plan [Others (fun _ => None); Post (1 # 10)] e).
Proof. split; [discriminate|reflexivity]. Qed.

Print Assumptions C69_relative_target.
Print Assumptions C69_released.
Print Assumptions C69_step.
Print Assumptions C69_unknown_reference.
Print Assumptions C69_continuous_time_refused.
Print Assumptions C69_step_relative_to_itself.
Print Assumptions C69_relative_to_itself_lost.
Print Assumptions C69_linear_time.
Print Assumptions C69_relative_time.
Print Assumptions C69_reference_gone_refuted.
