(** C28, C54, C55. *)
From Coq Require Import List Bool Arith QArith Qabs Lia Lqa.
From Verif Require Import M_Job S_Job P_Job M_SpeedRequest S_SpeedRequest P_SpeedRequest.
Import ListNotations.
Local Open Scope Q_scope.

Section Target.
Variable plan : Q -> Q -> Q -> Q -> limits -> option limits.

Lemma reached_close : forall v w, reached v w = true <-> close v (w_speed w).
Proof. intros. unfold reached, close. apply Qle_bool_iff. Qed.
Lemma reached_speed : forall v w w', w_speed w' = w_speed w -> reached v w' = reached v w.
Proof. intros v w w' E. unfold reached. rewrite E. auto. Qed.

Definition speed_job (v : Q) (k : bool) : job :=
  if k then make_job (hold_speed v) keep LinearVelocity true PostUpdate
  else make_job (approach_speed v) cancel_target LinearVelocity true PostUpdate.

Lemma add_shape : forall f c t e, good e -> exists l w,
  add f c t e = (l ++ [make_job f c t true PostUpdate], w) /\ wild_free l /\
  w_speed w = w_speed (snd e) /\
  (t <> LinearAcceleration -> w_limits w = w_limits (snd e)) /\
  (idle t e -> w = snd e /\ l = fst e) /\
  (forall j, In j l -> j_type j = t -> j_active j = false) /\
  (forall j, In j l -> j_active j = true -> In j (fst e)).
Proof.
  intros f c t [l0 w0] G. unfold add, append. simpl.
  destruct (replace t true 0 l0 w0) as [[l w] cs] eqn:R.
  destruct (replace_tame _ _ _ _ _ _ _ _ R G) as (A & B & N & L & D & E & F).
  exists l, w. split; auto. split; auto. split; auto. split; auto. split; [|split]; auto.
  - intros I. unfold idle in I. simpl in I. rewrite (replace_idle t true l0 0 w0 I) in R.
    injection R as <- <- <-. auto.
Qed.

Lemma request_speed_shape : forall v k e, good e -> (k = true \/ reached v (snd e) = false) ->
  exists l w, request_speed v k e = (l ++ [speed_job v k], w) /\ wild_free l /\
  w_speed w = w_speed (snd e) /\ w_limits w = w_limits (snd e) /\
  (idle LinearVelocity e -> w_target w = Some v) /\
  (forall j, In j l -> j_active j = true -> In j (fst e)) /\
  (idle LinearVelocity e -> l = fst e).
Proof.
  intros v k e G H. unfold request_speed.
  assert (C : reached v (snd e) && negb k = false) by
    (destruct H as [H|H]; rewrite H; [rewrite andb_false_r|]; auto).
  rewrite C. destruct k.
  - destruct (add_shape (hold_speed v) keep LinearVelocity (change (set_target (Some v)) e) G)
      as (l & w & E & A & B & D & F & _ & I).
    exists l, w. split; [exact E|]. split; auto. split; auto. split; [apply D; discriminate|].
    split; [|split].
    + intros Id. destruct (F Id) as [-> _]. auto.
    + exact I.
    + intros Id. destruct (F Id) as [_ ->]. auto.
  - destruct (add_shape (approach_speed v) cancel_target LinearVelocity (change (set_target (Some v)) e) G)
      as (l & w & E & A & B & D & F & _ & I).
    exists l, w. split; [exact E|]. split; auto. split; auto. split; [apply D; discriminate|].
    split; [|split].
    + intros Id. destruct (F Id) as [-> _]. auto.
    + exact I.
    + intros Id. destruct (F Id) as [_ ->]. auto.
Qed.

Lemma idle_add : forall f c t t' e, good e -> t <> t' -> idle t' e -> idle t' (add f c t e).
Proof.
  intros f c t t' e G N I j J T. destruct (add_shape f c t e G) as (l & w & E & _ & _ & _ & _ & _ & K).
  rewrite E in J. simpl in J. apply in_app_or in J as [J|[<-|[]]].
  - destruct (j_active j) eqn:A; auto. rewrite <- A. apply I; auto.
  - simpl in T. congruence.
Qed.

(** A request that is not ignored ends with its speed job. *)
Lemma auto_shape : forall v a k e, good e -> (k = true \/ reached v (snd e) = false) ->
  exists l w, constant_acceleration_auto v a k e = (l ++ [speed_job v k], w) /\ wild_free l /\
    (idle LinearVelocity e -> w_target w = Some v).
Proof.
  intros v a k e G H. unfold constant_acceleration_auto.
  assert (C : reached v (snd e) && negb k = false) by
    (destruct H as [H|H]; rewrite H; [rewrite andb_false_r|]; auto).
  rewrite C.
  assert (S : forall e1, good e1 -> w_speed (snd e1) = w_speed (snd e) ->
              (idle LinearVelocity e -> idle LinearVelocity e1) ->
    exists l w, request_speed v k e1 = (l ++ [speed_job v k], w) /\ wild_free l /\
    (idle LinearVelocity e -> w_target w = Some v)).
  { intros e1 G1 E1 I1. destruct (request_speed_shape v k e1 G1) as (l & w & E & A & _ & _ & T & _).
    - destruct H as [H|H]; auto. right. rewrite (reached_speed v (snd e)); auto.
    - exists l, w. auto. }
  destruct (accelerating v (snd e)); [|destruct (decelerating v (snd e))].
  - apply S.
    + apply good_add; auto using tame_above.
    + destruct (add_shape (above v) reset_limits LinearAcceleration
                  (change (set_acceleration_limit (Qabs a)) e) G) as (l & w & -> & _ & B & _). exact B.
    + intros I. apply idle_add; auto. discriminate.
  - apply S.
    + apply good_add; auto using tame_below.
    + destruct (add_shape (below v) reset_limits LinearAcceleration
                  (change (set_deceleration_limit (Qabs a)) e) G) as (l & w & -> & _ & B & _). exact B.
    + intros I. apply idle_add; auto. discriminate.
  - apply S; auto.
Qed.

Lemma constant_shape : forall v tr a k e, good e -> (k = true \/ reached v (snd e) = false) ->
  exists l w, constant_acceleration v tr a k e = (l ++ [speed_job v k], w) /\ wild_free l /\
    (idle LinearVelocity e -> w_target w = Some v).
Proof.
  intros v tr a k e G H. unfold constant_acceleration.
  assert (C : reached v (snd e) && negb k = false) by
    (destruct H as [H|H]; rewrite H; [rewrite andb_false_r|]; auto).
  rewrite C. destruct tr.
  - apply (auto_shape v a k (change (set_accel a) e)); auto.
  - destruct (request_speed_shape v k e G H) as (l & w & E & A & _ & _ & T & _).
    rewrite E. exists l, (set_speed v w). split; auto.
  - apply auto_shape; auto.
Qed.

Lemma request_shape : forall v k x e, good e -> requests v k x ->
  (k = true \/ reached v (snd e) = false) -> ~ failed (act plan x e) ->
  exists l w, act plan x e = (l ++ [speed_job v k], w) /\ wild_free l /\
    (idle LinearVelocity e -> w_target w = Some v).
Proof.
  intros v k x e G R H F.
  assert (RS : forall b, b = true \/ reached v (snd e) = false ->
    exists l w, request_speed v b e = (l ++ [speed_job v b], w) /\ wild_free l /\
    (idle LinearVelocity e -> w_target w = Some v)).
  { intros b Hb. destruct (request_speed_shape v b e G Hb) as (l & w & E & A & _ & _ & T & _). eauto. }
  destruct R; cbn [act] in *; unfold request in *.
  - apply RS; auto.
  - assert (C : reached v (snd e) && negb k = false) by
      (destruct H as [H|H]; rewrite H; [rewrite andb_false_r|]; auto).
    rewrite C. apply RS; auto.
  - assert (C : reached v (snd e) && negb k = false) by
      (destruct H as [H|H]; rewrite H; [rewrite andb_false_r|]; auto).
    rewrite C. apply constant_shape; auto.
  - destruct H as [H|H]; [discriminate|]. rewrite H in *. cbn [andb] in *.
    unfold time_constraint in *. rewrite H in *.
    assert (ST : exists l w, change (set_speed v) (request_speed v false e) =
                  (l ++ [speed_job v false], w) /\ wild_free l /\
                  (idle LinearVelocity e -> w_target w = Some v)).
    { destruct (RS false) as (l & w & E & A & T); auto. rewrite E.
      exists l, (set_speed v w). split; auto. }
    destruct (Qle_bool (Qabs t) epsilon); auto. destruct tr; auto.
    + apply constant_shape; auto.
    + destruct (plan v (w_speed (snd e)) (w_accel (snd e)) t (w_limits (snd e))) as [lim|].
      2:{ exfalso. apply F. reflexivity. }
      set (e0 := change (set_limits lim) e).
      destruct (add_shape (near v) reset_limits LinearAcceleration e0 G)
        as (l1 & w1 & E1 & A1 & B1 & _ & _ & _ & K1).
      destruct (request_speed_shape v false (add (near v) reset_limits LinearAcceleration e0))
        as (l & w & E & A & _ & _ & T & _).
      * apply good_add; auto using tame_near.
      * right. rewrite E1. rewrite (reached_speed v (snd e)); auto.
      * exists l, w. split; [exact E|]. split; auto. intros I. apply T. apply idle_add; auto. discriminate.
Qed.

(** The speed job stays last and active while nothing newer is requested and the speed is not reached. *)
Definition last_job (v : Q) (k : bool) (e : entity) : Prop :=
  exists l d, fst e = l ++ [with_duration (speed_job v k) d] /\ wild_free l.

Lemma post_last : forall v k e step,
  last_job v k e -> (k = false -> reached v (snd e) = false) ->
  last_job v k (act plan (Post step) e) /\ target (act plan (Post step) e) = Some v.
Proof.
  intros v k [l0 w] step (l & d & E & W) H. simpl in E. subst l0. cbn [act fst snd].
  unfold update. rewrite update_from_app.
  destruct (update_from 0 step PostUpdate l w) as [[l1 w1] c1] eqn:U.
  destruct (update_tame _ _ _ _ _ _ _ _ U W) as (A & B & _).
  destruct k; simpl.
  - split; auto. exists l1, (d + step). split; auto.
  - assert (R : reached v w1 = false) by (rewrite (reached_speed v w); auto).
    unfold on_update, approach_speed. simpl. unfold approach_speed. rewrite R. simpl.
    split; auto. exists l1, (d + step). split; auto.
Qed.

Lemma acts_app : forall a b e, acts plan (a ++ b) e = acts plan b (acts plan a e).
Proof. intros. unfold acts. apply fold_left_app. Qed.

Lemma at_updates_cons : forall P x xs e,
  at_updates plan P e (x :: xs) -> (is_post x -> P e) /\ at_updates plan P (act plan x e) xs.
Proof.
  intros P x xs e H. split.
  - intros X. destruct x; try destruct X. apply (H [] step xs). auto.
  - intros a s b E. apply (H (x :: a) s b). simpl. congruence.
Qed.

Lemma held : forall v k ys e,
  last_job v k e -> (forall x, In x ys -> passive x) ->
  at_updates plan (fun e => k = false -> ~ close v (speed e)) e ys ->
  last_job v k (acts plan ys e) /\
  ((exists x, In x ys /\ is_post x) \/ target e = Some v -> target (acts plan ys e) = Some v).
Proof.
  intros v k ys. induction ys as [|x ys IH]; intros e L P U; simpl.
  - split; auto. intros [(x & [] & _)|T]; auto.
  - apply at_updates_cons in U as [U0 U].
    assert (PX : passive x) by (apply P; left; auto).
    assert (L1 : last_job v k (act plan x e) /\ ((is_post x \/ target e = Some v) -> target (act plan x e) = Some v)).
    { destruct x; try destruct PX; try (split; [exact L|intros [[]|T]; exact T]).
      destruct (post_last v k e step L) as [A B].
      - intros K. specialize (U0 I K). destruct (reached v (snd e)) eqn:R; auto.
        apply reached_close in R. tauto.
      - split; auto. }
    destruct L1 as [L1 T1].
    destruct (IH (act plan x e) L1 (fun y Y => P y (or_intror Y)) U) as [L2 T2].
    split; auto. intros [(y & [<-|Y] & Py)|T].
    + apply T2. right. auto.
    + apply T2. left. eauto.
    + apply T2. right. auto.
Qed.

(** C28, as the code guarantees it. Whatever happened to the entity before ([xs]), a request for [v]
    that is not ignored (the speed is not [v] already, or the request is continuous and not
    time-constrained) determines the target speed from the end of the next update on, for as long as
    no newer request is made ([ys]) and, unless continuous, no update found the speed reached. *)
Theorem C28_latest_request_determines_target : forall name v0 xs v k x ys,
  let e := acts plan xs (spawned name v0) in
  requests v k x -> (k = true \/ ~ close v (speed e)) -> ~ failed (act plan x e) ->
  (forall y, In y ys -> passive y) ->
  at_updates plan (fun e => k = false -> ~ close v (speed e)) (act plan x e) ys ->
  (exists y, In y ys /\ is_post y) ->
  target (acts plan ys (act plan x e)) = Some v.
Proof.
  intros name v0 xs v k x ys e R N F P U Y.
  destruct (request_shape v k x e) as (l & w & E & W & _); auto.
  - apply good_acts, good_spawned.
  - destruct N as [N|N]; auto. right. destruct (reached v (snd e)) eqn:Q; auto.
    apply reached_close in Q. tauto.
  - apply (held v k ys (act plan x e)); auto.
    rewrite E. exists l, 0. split; auto. simpl. destruct k; auto.
Qed.

(** If no other speed request is in force, already from the request on. *)
Theorem C28_immediately_if_idle : forall name v0 xs v k x ys,
  let e := acts plan xs (spawned name v0) in
  requests v k x -> (k = true \/ ~ close v (speed e)) -> ~ failed (act plan x e) ->
  idle LinearVelocity e ->
  (forall y, In y ys -> passive y) ->
  at_updates plan (fun e => k = false -> ~ close v (speed e)) (act plan x e) ys ->
  target (acts plan ys (act plan x e)) = Some v.
Proof.
  intros name v0 xs v k x ys e R N F I P U.
  destruct (request_shape v k x e) as (l & w & E & W & T); auto.
  - apply good_acts, good_spawned.
  - destruct N as [N|N]; auto. right. destruct (reached v (snd e)) eqn:Q; auto.
    apply reached_close in Q. tauto.
  - apply (held v k ys (act plan x e)); auto.
    + rewrite E. exists l, 0. split; auto. simpl. destruct k; auto.
    + right. rewrite E. apply T; auto.
Qed.

(** The target is released at the first update that finds the speed reached. *)
Theorem C28_released_when_reached : forall name v0 xs v x ys step,
  let e := acts plan xs (spawned name v0) in
  requests v false x -> ~ close v (speed e) -> ~ failed (act plan x e) ->
  (forall y, In y ys -> passive y) ->
  at_updates plan (fun e => ~ close v (speed e)) (act plan x e) ys ->
  close v (speed (acts plan ys (act plan x e))) ->
  target (act plan (Post step) (acts plan ys (act plan x e))) = None.
Proof.
  intros name v0 xs v x ys step e R N F P U C.
  destruct (request_shape v false x e) as (l & w & E & W & _); auto.
  - apply good_acts, good_spawned.
  - right. destruct (reached v (snd e)) eqn:Q; auto. apply reached_close in Q. tauto.
  - destruct (held v false ys (act plan x e)) as [L _]; auto.
    + rewrite E. exists l, 0. split; auto.
    + intros a s b Y _. apply (U a s b Y).
    + destruct (acts plan ys (act plan x e)) as [l0 w0]. destruct L as (l2 & d & E2 & W2).
      simpl in E2. subst l0. apply reached_close in C. cbn [act fst snd]. simpl in C.
      unfold update. rewrite update_from_app.
      destruct (update_from 0 step PostUpdate l2 w0) as [[l1 w1] c1] eqn:Up.
      destruct (update_tame _ _ _ _ _ _ _ _ Up W2) as (A & B & _).
      assert (R1 : reached v w1 = true) by (rewrite (reached_speed v w0); auto).
      simpl. unfold on_update. simpl. unfold approach_speed. rewrite R1. reflexivity.
Qed.

(** ** Acceleration limits *)

Definition limit_job (v : Q) (up : bool) : job :=
  make_job (if up then above v else below v) reset_limits LinearAcceleration true PostUpdate.

(** The limiting job is the only active one of its kind, and what follows it are speed jobs. *)
Definition limited (v : Q) (up : bool) (e : entity) : Prop :=
  exists l r d, fst e = l ++ with_duration (limit_job v up) d :: r /\ wild_free l /\ wild_free r /\
    (forall j, In j (l ++ r) -> j_type j = LinearAcceleration -> j_active j = false).

Definition beyond (v : Q) (up : bool) (s : Q) : Prop := if up then v <= s else s <= v.
Lemma beyond_spec : forall v (up : bool) d w,
  snd ((if up then above v else below v) d w) = true <-> beyond v up (w_speed w).
Proof. intros v [] d w; simpl; apply Qle_bool_iff. Qed.

Lemma post_limited : forall v up e step, limited v up e ->
  (~ beyond v up (speed e) ->
     limited v up (act plan (Post step) e) /\ limits_of (act plan (Post step) e) = limits_of e) /\
  (beyond v up (speed e) -> limits_of (act plan (Post step) e) = default_limits).
Proof.
  intros v up [l0 w] step (l & r & d & E & W & Wr & I). simpl in E. subst l0. cbn [act fst snd].
  unfold update. rewrite update_from_app.
  destruct (update_from 0 step PostUpdate l w) as [[l1 w1] c1] eqn:U.
  destruct (update_tame _ _ _ _ _ _ _ _ U W) as (A & B & _ & _ & J & L).
  assert (Il : forall j, In j l -> j_type j = LinearAcceleration -> j_active j = false)
    by (intros j Hj; apply I, in_or_app; auto).
  assert (Ir : forall j, In j r -> j_type j = LinearAcceleration -> j_active j = false)
    by (intros j Hj; apply I, in_or_app; auto).
  specialize (J LinearAcceleration Il). specialize (L Il).
  cbn [update_from event_eqb j_event with_duration limit_job make_job].
  unfold on_update. cbn [j_active j_update j_duration with_duration limit_job make_job].
  destruct ((if up then above v else below v) d w1) as [w2 b] eqn:F.
  assert (w2 = w1) by (unfold above, below in F; destruct up; injection F as <- _; reflexivity). subst w2.
  assert (BS : b = true <-> beyond v up (w_speed w)).
  { rewrite <- B. rewrite <- (beyond_spec v up d w1), F. simpl. tauto. }
  destruct b.
  - unfold inactivate. cbn [j_cleanup with_duration limit_job make_job].
    destruct (update_from (S (0 + length l)) step PostUpdate r (reset_limits w1)) as [[r1 w3] c3] eqn:V.
    destruct (update_tame _ _ _ _ _ _ _ _ V Wr) as (_ & _ & _ & _ & _ & Lr).
    specialize (Lr Ir).
    split.
    + intros N. exfalso. apply N. apply BS. auto.
    + intros _. unfold limits_of. simpl. rewrite Lr. reflexivity.
  - destruct (update_from (S (0 + length l)) step PostUpdate r w1) as [[r1 w3] c3] eqn:V.
    destruct (update_tame _ _ _ _ _ _ _ _ V Wr) as (Ar & _ & _ & _ & Jr & Lr).
    specialize (Jr LinearAcceleration Ir).
    specialize (Lr Ir).
    split.
    + intros _. unfold limits_of. simpl. split; [|congruence].
      exists l1, r1, (d + step). split; auto. split; auto. split; auto.
      intros j Hj. apply in_app_or in Hj as [Hj|Hj]; auto.
    + intros Y. apply BS in Y. discriminate.
Qed.

Lemma limits_held : forall v up ys e,
  limited v up e -> (forall x, In x ys -> passive x /\ keeps_limits x) ->
  at_updates plan (fun e => ~ beyond v up (speed e)) e ys ->
  limited v up (acts plan ys e) /\ limits_of (acts plan ys e) = limits_of e.
Proof.
  intros v up ys. induction ys as [|x ys IH]; intros e L P U; simpl; auto.
  apply at_updates_cons in U as [U0 U]. destruct (P x (or_introl eq_refl)) as [PX KX].
  assert (L1 : limited v up (act plan x e) /\ limits_of (act plan x e) = limits_of e).
  { destruct x; try destruct PX; try destruct KX; try (split; [exact L|reflexivity]).
    apply (post_limited v up e step L). auto. apply (U0 I). }
  destruct L1 as [L1 E1]. destruct (IH _ L1 (fun y Y => P y (or_intror Y)) U) as [L2 E2].
  split; auto. congruence.
Qed.

(** The requests with a constant acceleration. *)
Lemma limit_request_shape : forall v tr a k e, good e ->
  (tr = Linear \/ tr = Auto) -> ~ close v (speed e) ->
  let up := Qle_bool (speed e) v in
  limited v up (act plan (Request v tr (LongitudinalAcceleration a) k) e) /\
  (idle LinearAcceleration e ->
   limits_of (act plan (Request v tr (LongitudinalAcceleration a) k) e) =
   let l := limits_of e in
   {| max_acc := if up then Qabs a else max_acc l; max_acc_rate := max_acc_rate l;
      max_dec := if up then max_dec l else Qabs a; max_dec_rate := max_dec_rate l;
      max_speed := max_speed l |}).
Proof.
  intros v tr a k e G TR N up.
  assert (R : reached v (snd e) = false).
  { destruct (reached v (snd e)) eqn:Q; auto. apply reached_close in Q. tauto. }
  set (e0 := match tr with Linear => change (set_accel a) e | _ => e end).
  assert (E : act plan (Request v tr (LongitudinalAcceleration a) k) e = constant_acceleration_auto v a k e0).
  { cbn [act]. unfold request, constant_acceleration. rewrite R. cbn [andb]. unfold e0.
    destruct TR as [-> | ->]; auto. }
  assert (G0 : good e0) by (unfold e0; destruct tr; auto).
  assert (S0 : w_speed (snd e0) = w_speed (snd e)) by (unfold e0; destruct tr; auto).
  assert (L0 : w_limits (snd e0) = w_limits (snd e)) by (unfold e0; destruct tr; auto).
  assert (F0 : fst e0 = fst e) by (unfold e0; destruct tr; auto).
  rewrite E. clear E. unfold constant_acceleration_auto.
  rewrite (reached_speed v (snd e) (snd e0) S0), R. cbn [andb].
  unfold accelerating, decelerating. rewrite S0.
  change (Qle_bool (w_speed (snd e)) v) with up.
  assert (D : up = false -> Qle_bool v (w_speed (snd e)) = true).
  { intros U. apply Qle_bool_iff. destruct (Qlt_le_dec v (w_speed (snd e))); [apply Qlt_le_weak; auto|].
    exfalso. unfold up, speed in U. assert (X := q). apply Qle_bool_iff in X. congruence. }
  set (set_limit := if up then set_acceleration_limit (Qabs a) else set_deceleration_limit (Qabs a)).
  set (f := if up then above v else below v).
  assert (E1 : (if up then add (above v) reset_limits LinearAcceleration
                             (change (set_acceleration_limit (Qabs a)) e0)
                else if Qle_bool v (w_speed (snd e)) then
                  add (below v) reset_limits LinearAcceleration
                             (change (set_deceleration_limit (Qabs a)) e0) else e0) =
               add f reset_limits LinearAcceleration (change set_limit e0)).
  { unfold f, set_limit. destruct up; auto. rewrite D; auto. }
  rewrite E1. clear E1.
  destruct (add_shape f reset_limits LinearAcceleration (change set_limit e0) G0)
    as (l1 & w1 & A1 & W1 & B1 & _ & I1 & J1 & _).
  rewrite A1.
  assert (G1 : good (l1 ++ [make_job f reset_limits LinearAcceleration true PostUpdate], w1)).
  { apply Forall_app. split; auto. constructor; auto. unfold f. destruct up; auto using tame_above, tame_below. }
  assert (R1 : reached v w1 = false).
  { rewrite (reached_speed v (snd e)); auto. rewrite B1. unfold set_limit. destruct up; exact S0. }
  (* the speed job *)
  assert (SP : forall g c, exists l w,
    add g c LinearVelocity (change (set_target (Some v)) (l1 ++ [make_job f reset_limits LinearAcceleration true PostUpdate], w1)) =
    (l ++ make_job f reset_limits LinearAcceleration true PostUpdate :: [make_job g c LinearVelocity true PostUpdate], w) /\
    wild_free l /\ w_limits w = w_limits w1 /\
    (forall j, In j l -> j_type j = LinearAcceleration -> j_active j = false)).
  { intros g c. unfold add, append, change. cbn [fst snd].
    assert (RA : forall l i w, wild_free l ->
      (forall j, In j l -> j_type j = LinearAcceleration -> j_active j = false) ->
      let J := make_job f reset_limits LinearAcceleration true PostUpdate in
      exists l' w' cs, replace LinearVelocity true i (l ++ [J]) w = (l' ++ [J], w', cs) /\ wild_free l' /\
        w_limits w' = w_limits w /\
        (forall j, In j l' -> j_type j = LinearAcceleration -> j_active j = false)).
    { induction l as [|j l IH]; intros i w Wl Il J.
      - exists [], w, []. simpl. repeat split; auto.
      - inversion Wl as [|? ? Tj Wl']; subst. cbn [app replace].
        destruct (type_eqb (j_type j) LinearVelocity && eqb (j_exclusive j) true && j_active j) eqn:M.
        + unfold inactivate. destruct (IH (S i) (j_cleanup j w) Wl' (fun y Y => Il y (or_intror Y)))
            as (l' & w' & cs & Q1 & Q2 & Q3 & Q4).
          subst J. rewrite Q1. exists (with_status j false :: l'), w', (CleanedUp i :: cs).
          split; auto. split; [constructor; auto; apply tame_status; auto|]. split.
          * rewrite Q3. apply tame_limits; auto. apply andb_true_iff in M as [M _].
            apply andb_true_iff in M as [M _]. apply type_eqb_spec in M. congruence.
          * intros y [<-|Y]; auto.
        + destruct (IH (S i) w Wl' (fun y Y => Il y (or_intror Y)))
            as (l' & w' & cs & Q1 & Q2 & Q3 & Q4).
          subst J. rewrite Q1. exists (j :: l'), w', cs.
          split; auto. split; [constructor; auto|]. split; auto.
          intros y [<-|Y]; auto. apply Il. left; auto. }
    destruct (RA l1 0%nat (set_target (Some v) w1) W1 J1) as (l & w & cs & Q1 & Q2 & Q3 & Q4).
    rewrite Q1. exists l, w. rewrite <- app_assoc. split; auto. }
  set (g := if k then hold_speed v else approach_speed v).
  set (c := if k then keep else cancel_target).
  destruct (SP g c) as (l & w & Q1 & Q2 & Q3 & Q4).
  assert (X : request_speed v k (l1 ++ [make_job f reset_limits LinearAcceleration true PostUpdate], w1)
    = (l ++ make_job f reset_limits LinearAcceleration true PostUpdate :: [make_job g c LinearVelocity true PostUpdate], w)).
  { unfold request_speed. cbn [snd]. rewrite R1. cbn [andb]. unfold g, c in *. destruct k; exact Q1. }
  rewrite X. split.
  - exists l, [make_job g c LinearVelocity true PostUpdate], 0. split; [|split; [|split]]; auto.
    + constructor; auto. unfold g, c. destruct k; auto using tame_hold, tame_approach.
    + intros j J Tj. apply in_app_or in J as [J|[<-|[]]]; auto. discriminate.
  - intros Id. destruct I1 as [I1 _].
    { intros j J. apply Id. simpl in J. rewrite F0 in J. exact J. }
    unfold limits_of. cbn [snd]. rewrite Q3, I1. unfold set_limit. simpl. rewrite <- L0.
    unfold limits_of. destruct up; auto.
Qed.

(** C54, as the code guarantees it. If no request with limits is in force, a request with a constant
    acceleration [a] limits the acceleration (or deceleration) to |a| until an update finds the speed
    reached. *)
Theorem C54_limit_in_force : forall name v0 xs v tr a k ys,
  let e := acts plan xs (spawned name v0) in
  let e1 := act plan (Request v tr (LongitudinalAcceleration a) k) e in
  (tr = Linear \/ tr = Auto) -> ~ close v (speed e) -> idle LinearAcceleration e ->
  (forall y, In y ys -> passive y /\ keeps_limits y) ->
  (speed e < v -> at_updates plan (fun e => speed e < v) e1 ys ->
     max_acc (limits_of (acts plan ys e1)) = Qabs a) /\
  (v < speed e -> at_updates plan (fun e => v < speed e) e1 ys ->
     max_dec (limits_of (acts plan ys e1)) = Qabs a).
Proof.
  intros name v0 xs v tr a k ys e e1 TR N I P.
  destruct (limit_request_shape v tr a k e) as [L E]; auto.
  { apply good_acts, good_spawned. }
  specialize (E I). split; intros LT U.
  - assert (UP : Qle_bool (speed e) v = true) by (apply Qle_bool_iff, Qlt_le_weak; auto).
    rewrite UP in L, E. destruct (limits_held v true ys e1 L P) as [_ H].
    { intros x s b Y. specialize (U x s b Y). simpl in U |- *. lra. }
    rewrite H. unfold e1. rewrite E. reflexivity.
  - assert (UP : Qle_bool (speed e) v = false).
    { destruct (Qle_bool (speed e) v) eqn:Q; auto. apply Qle_bool_iff in Q. lra. }
    rewrite UP in L, E. destruct (limits_held v false ys e1 L P) as [_ H].
    { intros x s b Y. specialize (U x s b Y). simpl in U |- *. lra. }
    rewrite H. unfold e1. rewrite E. reflexivity.
Qed.

(** C55: when an update finds the speed of such a request reached, the limits are the defaults. *)
Theorem C55_limits_reset : forall name v0 xs v tr a k ys step,
  let e := acts plan xs (spawned name v0) in
  let e1 := act plan (Request v tr (LongitudinalAcceleration a) k) e in
  let e2 := acts plan ys e1 in
  (tr = Linear \/ tr = Auto) -> ~ close v (speed e) ->
  (forall y, In y ys -> passive y /\ keeps_limits y) ->
  (speed e < v -> at_updates plan (fun e => speed e < v) e1 ys -> v <= speed e2 ->
     limits_of (act plan (Post step) e2) = default_limits) /\
  (v < speed e -> at_updates plan (fun e => v < speed e) e1 ys -> speed e2 <= v ->
     limits_of (act plan (Post step) e2) = default_limits).
Proof.
  intros name v0 xs v tr a k ys step e e1 e2 TR N P.
  destruct (limit_request_shape v tr a k e) as [L _]; auto.
  { apply good_acts, good_spawned. }
  split; intros LT U R.
  - assert (UP : Qle_bool (speed e) v = true) by (apply Qle_bool_iff, Qlt_le_weak; auto).
    rewrite UP in L. destruct (limits_held v true ys e1 L P) as [L2 _].
    { intros x s b Y. specialize (U x s b Y). simpl in U |- *. lra. }
    apply (post_limited v true e2 step L2). exact R.
  - assert (UP : Qle_bool (speed e) v = false).
    { destruct (Qle_bool (speed e) v) eqn:Q; auto. apply Qle_bool_iff in Q. lra. }
    rewrite UP in L. destruct (limits_held v false ys e1 L P) as [L2 _].
    { intros x s b Y. specialize (U x s b Y). simpl in U |- *. lra. }
    apply (post_limited v false e2 step L2). exact R.
Qed.
End Target.

(** ** What does not hold *)
Definition no_plan : Q -> Q -> Q -> Q -> limits -> option limits := fun _ _ _ _ l => Some l.

(** The target speed right after a request is the requested one. *)
Definition C28_claim : Prop := forall plan name v0 xs v k,
  let e := acts plan xs (spawned name v0) in
  ~ close v (speed e) -> target (act plan (RequestSpeed v k) e) = Some v.
(** Replacing a pending request clears the target just set: until the next update the entity has none. *)
Theorem C28_immediately_refuted : ~ C28_claim.
Proof.
  intros H. specialize (H no_plan 0%nat 0 [RequestSpeed 10 false] 20 false). cbv zeta in H.
  assert (N : ~ close 20 (speed (acts no_plan [RequestSpeed 10 false] (spawned 0 0)))).
  { vm_compute. intros F. apply F. reflexivity. }
  specialize (H N). vm_compute in H. discriminate.
Qed.

(** A request for the current speed replaces an older request. *)
Definition C28_claim_current_speed : Prop := forall plan name v0 xs v w step,
  let e := acts plan xs (spawned name v0) in
  target (act plan (Post step) (act plan (RequestSpeed v false) e)) = Some w -> w == v.
(** It is ignored: the older request stays in force. *)
Theorem C28_current_speed_refuted : ~ C28_claim_current_speed.
Proof.
  intros H. specialize (H no_plan 0%nat 10 [RequestSpeed 20 true] 10 20 (1 # 10)). cbv zeta in H.
  assert (T : target (act no_plan (Post (1 # 10)) (act no_plan (RequestSpeed 10 false)
               (acts no_plan [RequestSpeed 20 true] (spawned 0 10)))) = Some 20) by reflexivity.
  specialize (H T). vm_compute in H. discriminate.
Qed.

(** A continuous time-constrained request is held. *)
Definition C28_claim_continuous_time : Prop := forall plan name v0 v t step,
  let e := act plan (Request v Linear (Time t) true) (spawned name v0) in
  ~ failed e -> target (act plan (Post step) (act plan (Move v 0) e)) = Some v.
Theorem C28_continuous_time_refuted : ~ C28_claim_continuous_time.
Proof.
  intros H. specialize (H no_plan 0%nat 0 10 5 (1 # 10)). cbv zeta in H.
  assert (N : ~ failed (act no_plan (Request 10 Linear (Time 5) true) (spawned 0 0)))
    by (unfold failed; vm_compute; discriminate).
  specialize (H N). vm_compute in H. discriminate.
Qed.

(** The acceleration is limited as requested. *)
Definition C54_claim : Prop := forall plan name v0 xs v a k,
  let e := acts plan xs (spawned name v0) in
  let e1 := act plan (Request v Auto (LongitudinalAcceleration a) k) e in
  speed e < v -> ~ close v (speed e) -> max_acc (limits_of e1) = Qabs a.
(** Replacing a pending request resets the limit just set: the second request is executed with the
    default limit 10 instead of 1. *)
Theorem C54_limit_in_force_refuted : ~ C54_claim.
Proof.
  intros H.
  specialize (H no_plan 0%nat 0 [Request 10 Auto (LongitudinalAcceleration 2) false; Move 5 2] 20 1 false).
  cbv zeta in H. assert (A : max_acc (limits_of (act no_plan (Request 20 Auto (LongitudinalAcceleration 1) false)
    (acts no_plan [Request 10 Auto (LongitudinalAcceleration 2) false; Move 5 2] (spawned 0 0)))) = 10)
    by reflexivity.
  rewrite A in H. assert (E : 10 = Qabs 1).
  { apply H.
    - reflexivity.
    - vm_compute. intros F. apply F. reflexivity. }
  vm_compute in E. discriminate.
Qed.

(** The limits after a request are those before it. *)
Definition C55_claim : Prop := forall plan name v0 l v a step,
  let e := act plan (Limits l) (spawned name v0) in
  let e1 := act plan (Request v Auto (LongitudinalAcceleration a) false) e in
  speed e < v -> ~ close v (speed e) ->
  limits_of (act plan (Post step) (act plan (Move v 0) e1)) = l.
Theorem C55_limits_restored_refuted : ~ C55_claim.
Proof.
  intros H.
  specialize (H no_plan 0%nat 0
    {| max_acc := 1; max_acc_rate := 1; max_dec := 1; max_dec_rate := 1; max_speed := 1 |} 10 2 (1 # 10)).
  cbv zeta in H.
  assert (E : default_limits =
    {| max_acc := 1; max_acc_rate := 1; max_dec := 1; max_dec_rate := 1; max_speed := 1 |}).
  { etransitivity; [|apply H].
    - reflexivity.
    - reflexivity.
    - vm_compute. intros F. apply F. reflexivity. }
  discriminate.
Qed.

(** ** The hypotheses are met *)
(** A synchronised entity with a pending request gets a new one and accelerates. *)
Definition before : list action :=
  [Others (fun n => if Nat.eqb n 1 then Some 7 else None); RequestRelativeSpeed (Delta 1 3) true;
   Synchronize (fun w => Some (w_speed w + 1)); Post (1 # 10); Move 1 1; RequestSpeed 10 false; Post (1 # 10)].
Definition after : list action := [Move 2 1; Post (1 # 10); Move 3 1; Post (1 # 10); Move 4 1].
Example C28_meets :
  let e := acts no_plan before (spawned 0 0) in
  let x := Request 20 Linear (LongitudinalAcceleration 2) false in
  requests 20 false x /\ ~ close 20 (speed e) /\ ~ failed (act no_plan x e) /\
  (forall y, In y after -> passive y) /\
  at_updates no_plan (fun e => false = false -> ~ close 20 (speed e)) (act no_plan x e) after /\
  (exists y, In y after /\ is_post y) /\
  target (act no_plan x e) = None /\
  target (acts no_plan after (act no_plan x e)) = Some 20.
Proof.
  cbv zeta. split; [constructor|]. split; [vm_compute; intros F; apply F; reflexivity|].
  split; [unfold failed; vm_compute; discriminate|].
  split; [simpl; intros y Y; intuition (subst; exact I)|].
  split; [|split; [exists (Post (1 # 10)); simpl; auto|split; reflexivity]].
  intros a s b E _.
  destruct a as [|? a]; [discriminate|]. injection E as <- E.
  destruct a as [|? a]; [vm_compute; intros F; apply F; reflexivity|]. injection E as <- E.
  destruct a as [|? a]; [discriminate|]. injection E as <- E.
  destruct a as [|? a]; [vm_compute; intros F; apply F; reflexivity|]. injection E as <- E.
  destruct a as [|? a]; [discriminate|]. injection E as <- E. destruct a; discriminate.
Qed.
(** After an older constant-acceleration request has been met, limits hold again. *)
Example C54_meets :
  let e := acts no_plan [Request 10 Auto (LongitudinalAcceleration 2) false; Move 10 0; Post (1 # 10)]
             (spawned 0 0) in
  let e1 := act no_plan (Request 20 Auto (LongitudinalAcceleration (-3)) false) e in
  idle LinearAcceleration e /\ ~ close 20 (speed e) /\ speed e < 20 /\
  at_updates no_plan (fun e => speed e < 20) e1 after /\
  max_acc (limits_of (acts no_plan after e1)) = 3 /\
  target (acts no_plan after e1) = Some 20 /\
  limits_of (acts no_plan [Move 20 0; Post (1 # 10)] (acts no_plan after e1)) = default_limits.
Proof.
  cbv zeta. split.
  { intros j J. vm_compute in J. repeat (destruct J as [<-|J]; [simpl; auto; discriminate|]). destruct J. }
  split; [vm_compute; intros F; apply F; reflexivity|]. split; [reflexivity|].
  split; [|split; [reflexivity|split; reflexivity]].
  intros a s b E.
  destruct a as [|? a]; [discriminate|]. injection E as <- E.
  destruct a as [|? a]; [reflexivity|]. injection E as <- E.
  destruct a as [|? a]; [discriminate|]. injection E as <- E.
  destruct a as [|? a]; [reflexivity|]. injection E as <- E.
  destruct a as [|? a]; [discriminate|]. injection E as <- E. destruct a; discriminate.
Qed.

Print Assumptions C28_latest_request_determines_target.
Print Assumptions C28_immediately_if_idle.
Print Assumptions C28_released_when_reached.
Print Assumptions C54_limit_in_force.
Print Assumptions C55_limits_reset.
Print Assumptions C28_immediately_refuted.
Print Assumptions C28_current_speed_refuted.
Print Assumptions C28_continuous_time_refuted.
Print Assumptions C54_limit_in_force_refuted.
Print Assumptions C55_limits_restored_refuted.
