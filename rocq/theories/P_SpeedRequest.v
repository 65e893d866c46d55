(** Proofs about speed requests. *)
From Coq Require Import List Bool Arith QArith Qabs Lia Lqa.
From Verif Require Import M_Job S_Job P_Job M_SpeedRequest S_SpeedRequest.
Import ListNotations.
Local Open Scope Q_scope.

Notation job := (M_Job.job world).

(** Callbacks change neither the speed nor what is known of the others, and only speed-limiting jobs
    change the limits. *)
Record tame (j : job) : Prop := {
  tame_update : forall d w, w_speed (fst (j_update j d w)) = w_speed w /\
                            w_name (fst (j_update j d w)) = w_name w;
  tame_cleanup : forall w, w_speed (j_cleanup j w) = w_speed w /\ w_name (j_cleanup j w) = w_name w;
  tame_limits : j_type j <> LinearAcceleration ->
    (forall d w, w_limits (fst (j_update j d w)) = w_limits w) /\
    (forall w, w_limits (j_cleanup j w) = w_limits w);
  tame_event : j_event j = PostUpdate /\ j_exclusive j = true }.

Lemma tame_status : forall j b, tame j -> tame (with_status j b).
Proof. intros j b [A B C D]. constructor; auto. Qed.
Lemma tame_duration : forall j b, tame j -> tame (with_duration j b).
Proof. intros j b [A B C D]. constructor; auto. Qed.

Definition wild_free (l : list job) : Prop := Forall tame l.

Lemma replace_tame : forall t ex l i w l' w' cs,
  replace t ex i l w = (l', w', cs) -> wild_free l ->
  wild_free l' /\ w_speed w' = w_speed w /\ w_name w' = w_name w /\ length l' = length l /\
  (forall j, In j l' -> j_type j = t -> ex = true -> j_active j = false) /\
  (forall j, In j l' -> j_active j = true -> In j l) /\
  (t <> LinearAcceleration -> w_limits w' = w_limits w).
Proof.
  induction l as [|j l IH]; intros i w l' w' cs H F; simpl in H.
  - injection H as <- <- <-. repeat split; auto. intros j [].
  - inversion F as [|? ? T F']; subst.
    destruct (type_eqb (j_type j) t && eqb (j_exclusive j) ex && j_active j) eqn:M; simpl in H.
    + destruct (replace t ex (S i) l (j_cleanup j w)) as [[l2 w2] cs2] eqn:R.
      injection H as <- <- <-. destruct (IH _ _ _ _ _ R F') as (A & B & N & C & D & E & G).
      destruct (tame_cleanup j T w) as [T1 T2].
      apply andb_true_iff in M as [M MA]. apply andb_true_iff in M as [M1 M2].
      apply type_eqb_spec in M1.
      split; [constructor; auto; apply tame_status; auto|].
      split; [congruence|]. split; [congruence|]. split; [simpl; congruence|]. split; [|split].
      * intros x [<-|X]; auto.
      * intros x [<-|X] Ax; [discriminate Ax|right; auto].
      * intros K. rewrite G by auto. apply tame_limits; auto. congruence.
    + destruct (replace t ex (S i) l w) as [[l2 w2] cs2] eqn:R.
      injection H as <- <- <-. destruct (IH _ _ _ _ _ R F') as (A & B & N & C & D & E & G).
      split; [constructor; auto|].
      split; [congruence|]. split; [congruence|]. split; [simpl; congruence|]. split; [|split]; auto.
      * intros x [<-|X] Tx Ex; auto. destruct (tame_event j T) as [_ T2].
        rewrite Tx, T2, Ex in M. assert (type_eqb t t = true) by (apply type_eqb_spec; auto).
        rewrite H in M. simpl in M. auto.
      * intros x [<-|X] Ax; [left; auto|right; auto].
Qed.

(** If no job of the kind is active, replacing does nothing. *)
Lemma replace_idle : forall t ex l i (w : world),
  (forall j, In j l -> j_type j = t -> j_active j = false) -> replace t ex i l w = (l, w, []).
Proof.
  induction l as [|j l IH]; intros i w H; simpl; auto.
  destruct (type_eqb (j_type j) t && eqb (j_exclusive j) ex && j_active j) eqn:M.
  - apply andb_true_iff in M as [M MA]. apply andb_true_iff in M as [M1 M2].
    apply type_eqb_spec in M1. rewrite (H j) in MA; [discriminate|left; auto|auto].
  - rewrite IH; auto. intros x X. apply H. right; auto.
Qed.

Lemma on_update_tame : forall i s j w j' w' cs,
  on_update i s j w = (j', w', cs) -> tame j ->
  tame j' /\ w_speed w' = w_speed w /\ w_name w' = w_name w /\
  (j_active j = false -> j' = j /\ w' = w) /\
  (j_active j' = true -> j_active j = true) /\ j_type j' = j_type j /\
  (j_type j <> LinearAcceleration -> w_limits w' = w_limits w).
Proof.
  intros i s j w j' w' cs H T. unfold on_update in H. destruct (j_active j) eqn:A.
  - destruct (tame_update j T (j_duration j) w) as [U1 U2].
    destruct (j_update j (j_duration j) w) as [w1 []] eqn:U; simpl in H, U1, U2;
      injection H as <- <- <-.
    + destruct (tame_cleanup j T w1) as [C1 C2].
      split; [apply tame_duration, tame_status; auto|].
      split; [congruence|]. split; [congruence|]. split; [discriminate|]. split; [auto|]. split; auto.
      intros K. destruct (tame_limits j T K) as [L1 L2]. rewrite L2. specialize (L1 (j_duration j) w).
      rewrite U in L1. exact L1.
    + split; [apply tame_duration; auto|].
      split; [congruence|]. split; [congruence|]. split; [discriminate|]. split; [auto|]. split; auto.
      intros K. destruct (tame_limits j T K) as [L1 L2]. specialize (L1 (j_duration j) w).
      rewrite U in L1. exact L1.
  - injection H as <- <- <-. repeat split; auto; try apply T; auto; intros; congruence.
Qed.

Lemma update_tame : forall s e l i w l' w' cs,
  update_from i s e l w = (l', w', cs) -> wild_free l ->
  wild_free l' /\ w_speed w' = w_speed w /\ w_name w' = w_name w /\ length l' = length l /\
  (forall t, (forall j, In j l -> j_type j = t -> j_active j = false) ->
     (forall j, In j l' -> j_type j = t -> j_active j = false)) /\
  ((forall j, In j l -> j_type j = LinearAcceleration -> j_active j = false) -> w_limits w' = w_limits w).
Proof.
  induction l as [|j l IH]; intros i w l' w' cs H F; simpl in H.
  - injection H as <- <- <-. repeat split; auto.
  - inversion F as [|? ? T F']; subst.
    destruct (event_eqb (j_event j) e).
    + destruct (on_update i s j w) as [[j1 w1] cs1] eqn:O.
      destruct (on_update_tame _ _ _ _ _ _ _ O T) as (A & B & N & C & D & E & G).
      destruct (update_from (S i) s e l w1) as [[l2 w2] cs2] eqn:R. injection H as <- <- <-.
      destruct (IH _ _ _ _ _ R F') as (A' & B' & N' & L' & D' & G').
      split; [constructor; auto|]. split; [congruence|]. split; [congruence|].
      split; [simpl; congruence|]. split.
      * intros t K x [<-|X] Tx.
        -- destruct (j_active j1) eqn:Q; auto. rewrite D in * by auto.
           rewrite E in Tx. specialize (K j (or_introl eq_refl) Tx). specialize (D eq_refl). congruence.
        -- eapply (D' t); eauto. intros y Y. apply K. right; auto.
      * intros K. rewrite G' by (intros y Y; apply K; right; auto).
        destruct (type_eqb (j_type j) LinearAcceleration) eqn:Ty.
        -- apply type_eqb_spec in Ty. destruct (C (K j (or_introl eq_refl) Ty)) as [_ ->]. auto.
        -- apply G. intros Z. apply type_eqb_spec in Z. congruence.
    + destruct (update_from (S i) s e l w) as [[l2 w2] cs2] eqn:R. injection H as <- <- <-.
      destruct (IH _ _ _ _ _ R F') as (A' & B' & N' & L' & D' & G').
      split; [constructor; auto|]. split; [congruence|]. split; [congruence|].
      split; [simpl; congruence|]. split.
      * intros t K x [<-|X] Tx; [apply K; [left; auto|auto]|].
        eapply (D' t); eauto. intros y Y. apply K. right; auto.
      * intros K. apply G'. intros y Y; apply K; right; auto.
Qed.

Lemma update_from_app : forall s e (l1 l2 : list job) i w,
  update_from i s e (l1 ++ l2) w =
  (let '(a, w1, c1) := update_from i s e l1 w in
   let '(b, w2, c2) := update_from (i + length l1) s e l2 w1 in (a ++ b, w2, c1 ++ c2)).
Proof.
  induction l1 as [|j l1 IH]; intros l2 i w; simpl.
  - rewrite Nat.add_0_r. destruct (update_from i s e l2 w) as [[? ?] ?]. auto.
  - destruct (if event_eqb (j_event j) e then on_update i s j w else (j, w, [])) as [[j1 w1] c1].
    rewrite IH. rewrite <- plus_n_Sm. simpl.
    destruct (update_from (S i) s e l1 w1) as [[? ?] ?].
    destruct (update_from (S (i + length l1)) s e l2 w0) as [[? ?] ?]. rewrite app_assoc. auto.
Qed.

(** ** Reachable entities *)
Lemma tame_make : forall f c t,
  (forall d w, w_speed (fst (f d w)) = w_speed w /\ w_name (fst (f d w)) = w_name w) ->
  (forall w, w_speed (c w) = w_speed w /\ w_name (c w) = w_name w) ->
  (t <> LinearAcceleration -> (forall d w, w_limits (fst (f d w)) = w_limits w) /\
                              (forall w, w_limits (c w) = w_limits w)) ->
  tame (make_job f c t true PostUpdate).
Proof. intros. constructor; auto. Qed.

Ltac job_cases :=
  repeat match goal with
  | |- context [match ?x with _ => _ end] => destruct x eqn:?
  end; simpl; auto.
Lemma tame_hold : forall v, tame (make_job (hold_speed v) keep LinearVelocity true PostUpdate).
Proof. intros. apply tame_make; repeat split; auto. Qed.
Lemma tame_approach : forall v,
  tame (make_job (approach_speed v) cancel_target LinearVelocity true PostUpdate).
Proof.
  intros. apply tame_make.
  - intros. unfold approach_speed. job_cases.
  - auto.
  - intros _. split; auto. intros. unfold approach_speed. job_cases.
Qed.
Lemma tame_above : forall v, tame (make_job (above v) reset_limits LinearAcceleration true PostUpdate).
Proof. intros. apply tame_make; repeat split; auto; congruence. Qed.
Lemma tame_below : forall v, tame (make_job (below v) reset_limits LinearAcceleration true PostUpdate).
Proof. intros. apply tame_make; repeat split; auto; congruence. Qed.
Lemma tame_near : forall v, tame (make_job (near v) reset_limits LinearAcceleration true PostUpdate).
Proof. intros. apply tame_make; repeat split; auto; congruence. Qed.
Lemma tame_follow : forall r, tame (make_job (follow_speed r) keep LinearVelocity true PostUpdate).
Proof.
  intros. apply tame_make; auto.
  - intros. unfold follow_speed. job_cases.
  - intros _. split; auto. intros. unfold follow_speed. job_cases.
Qed.
Lemma tame_approach_relative : forall r,
  tame (make_job (approach_relative r) cancel_target LinearVelocity true PostUpdate).
Proof.
  intros. apply tame_make; auto.
  - intros. unfold approach_relative. job_cases.
  - intros _. split; auto. intros. unfold approach_relative. job_cases.
Qed.
Lemma tame_follow_limits : forall r a,
  tame (make_job (follow_limits r a) reset_limits LinearAcceleration true PostUpdate).
Proof.
  intros. apply tame_make; auto; try congruence. intros. unfold follow_limits. job_cases.
Qed.
Lemma tame_synchronize : forall f,
  tame (make_job (synchronize f) keep LinearAcceleration true PostUpdate).
Proof. intros. apply tame_make; auto; try congruence. intros. unfold synchronize. job_cases. Qed.

Definition good (e : entity) : Prop := wild_free (fst e).
Lemma good_change : forall g e, good e -> good (change g e).
Proof. auto. Qed.
Lemma good_add : forall f c t e, tame (make_job f c t true PostUpdate) -> good e -> good (add f c t e).
Proof.
  intros f c t [l w] T G. unfold add, append. simpl.
  destruct (replace t true 0 l w) as [[l1 w1] cs] eqn:R.
  destruct (replace_tame _ _ _ _ _ _ _ _ R G) as (A & _). apply Forall_app. split; auto.
Qed.

Local Hint Resolve good_change good_add tame_hold tame_approach tame_above tame_below tame_near
  tame_follow tame_approach_relative tame_follow_limits tame_synchronize : good.
Lemma good_request_speed : forall v k e, good e -> good (request_speed v k e).
Proof. intros. unfold request_speed. job_cases; auto with good. Qed.
Local Hint Resolve good_request_speed : good.
Lemma good_auto : forall v a k e, good e -> good (constant_acceleration_auto v a k e).
Proof. intros. unfold constant_acceleration_auto. job_cases; auto 6 with good. Qed.
Local Hint Resolve good_auto : good.
Lemma good_constant : forall v tr a k e, good e -> good (constant_acceleration v tr a k e).
Proof. intros. unfold constant_acceleration. job_cases; auto 6 with good. Qed.
Local Hint Resolve good_constant : good.
Section Plan.
Variable plan : Q -> Q -> Q -> Q -> limits -> option limits.
Lemma good_time : forall v tr t e, good e -> good (time_constraint plan v tr t e).
Proof. intros. unfold time_constraint. job_cases; auto 8 with good. Qed.
Local Hint Resolve good_time : good.
Lemma good_request : forall v tr c k e, good e -> good (request plan v tr c k e).
Proof. intros. unfold request. job_cases; auto 6 with good. Qed.
Lemma good_relative_speed : forall r k e, good e -> good (request_relative_speed r k e).
Proof. intros. unfold request_relative_speed. job_cases; auto 6 with good. Qed.
Local Hint Resolve good_relative_speed : good.
Lemma good_relative_constant : forall r tr a k e,
  good e -> good (relative_constant_acceleration r tr a k e).
Proof. intros. unfold relative_constant_acceleration. job_cases; auto 8 with good. Qed.
Local Hint Resolve good_relative_constant : good.
Lemma good_relative_time : forall r tr t e, good e -> good (relative_time_constraint plan r tr t e).
Proof. intros. unfold relative_time_constraint. job_cases; auto 8 with good. Qed.
Local Hint Resolve good_relative_time : good.
Lemma good_relative : forall r tr c k e, good e -> good (request_relative plan r tr c k e).
Proof. intros. unfold request_relative. job_cases; auto 6 with good. Qed.
Lemma good_act : forall x e, good e -> good (act plan x e).
Proof.
  intros [] e G; simpl; auto using good_request, good_relative with good.
  - unfold request_synchronize. auto with good.
  - destruct (update step PostUpdate (fst e) (snd e)) as [[l w] cs] eqn:U.
    destruct (update_tame _ _ _ _ _ _ _ _ U G) as (A & _). exact A.
Qed.
Lemma good_acts : forall xs e, good e -> good (acts plan xs e).
Proof. induction xs as [|x xs IH]; intros e G; simpl; auto. apply IH, good_act, G. Qed.
End Plan.
Lemma good_spawned : forall n v, good (spawned n v).
Proof.
  intros. repeat constructor; simpl; auto; congruence.
Qed.
