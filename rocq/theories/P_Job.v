(** Proofs about job lists. *)
From Coq Require Import List Bool Arith QArith Lia Lqa.
From Verif Require Import M_Job S_Job.
Import ListNotations.
Local Open Scope nat_scope.

Lemma type_eqb_spec : forall a b, type_eqb a b = true <-> a = b.
Proof. intros [] []; simpl; split; congruence. Qed.
Lemma event_eqb_spec : forall a b, event_eqb a b = true <-> a = b.
Proof. intros [] []; simpl; split; congruence. Qed.

Section Proofs.
Context {W : Type}.
Notation job := (job W).
Notation op := (op W).

(** A pass over the list, job by job. *)
Inductive pass (R : nat -> job -> job -> list call -> Prop) :
  nat -> list job -> list job -> list call -> Prop :=
| pass_nil i : pass R i [] [] []
| pass_cons i j j' c l l' cs :
    R i j j' c -> pass R (S i) l l' cs -> pass R i (j :: l) (j' :: l') (c ++ cs).

Definition matches (t : type) (ex : bool) (j : job) : bool :=
  type_eqb (j_type j) t && Bool.eqb (j_exclusive j) ex && j_active j.
Definition replaced (t : type) (ex : bool) (i : nat) (j j' : job) (c : list call) : Prop :=
  (matches t ex j = true /\ j' = with_status j false /\ c = [CleanedUp i]) \/
  (matches t ex j = false /\ j' = j /\ c = []).
Definition updated (step : Q) (e : event) (i : nat) (j j' : job) (c : list call) : Prop :=
  (event_eqb (j_event j) e && j_active j = false /\ j' = j /\ c = []) \/
  (event_eqb (j_event j) e && j_active j = true /\
   ((j' = with_duration j (j_duration j + step) /\ c = [Updated i (j_duration j) false]) \/
    (j' = with_duration (with_status j false) (j_duration j + step) /\
     c = [Updated i (j_duration j) true; CleanedUp i]))).

Lemma replace_pass : forall t ex l i w l' w' cs,
  replace t ex i l w = (l', w', cs) -> pass (replaced t ex) i l l' cs.
Proof.
  induction l as [|j l IH]; intros i w l' w' cs H; simpl in H.
  - injection H as <- <- <-. constructor.
  - destruct (type_eqb (j_type j) t && eqb (j_exclusive j) ex && j_active j) eqn:M; simpl in H.
    + destruct (replace t ex (S i) l (j_cleanup j w)) as [[l2 w2] cs2] eqn:R.
      injection H as <- <- <-. apply (pass_cons _ i j (with_status j false) [CleanedUp i]).
      * left; auto.
      * eapply IH; eauto.
    + destruct (replace t ex (S i) l w) as [[l2 w2] cs2] eqn:R.
      injection H as <- <- <-. apply (pass_cons _ i j j []).
      * right; auto.
      * eapply IH; eauto.
Qed.
Lemma update_pass : forall step e l i w l' w' cs,
  update_from i step e l w = (l', w', cs) -> pass (updated step e) i l l' cs.
Proof.
  induction l as [|j l IH]; intros i w l' w' cs H; simpl in H.
  - injection H as <- <- <-. constructor.
  - destruct (event_eqb (j_event j) e) eqn:E; [|].
    + unfold on_update in H. destruct (j_active j) eqn:A.
      * destruct (j_update j (j_duration j) w) as [w1 []]; simpl in H.
        -- destruct (update_from (S i) step e l (j_cleanup j w1)) as [[l2 w2] cs2] eqn:R.
           injection H as <- <- <-. eapply (pass_cons _ i j _ [_; _]).
           ++ right. rewrite E, A. split; auto.
           ++ eapply IH; eauto.
        -- destruct (update_from (S i) step e l w1) as [[l2 w2] cs2] eqn:R.
           injection H as <- <- <-. eapply (pass_cons _ i j _ [_]).
           ++ right. rewrite E, A. split; auto.
           ++ eapply IH; eauto.
      * destruct (update_from (S i) step e l w) as [[l2 w2] cs2] eqn:R.
        injection H as <- <- <-. apply (pass_cons _ i j j []).
        -- left. rewrite A, andb_false_r. auto.
        -- eapply IH; eauto.
    + destruct (update_from (S i) step e l w) as [[l2 w2] cs2] eqn:R.
      injection H as <- <- <-. apply (pass_cons _ i j j []).
      * left. rewrite E. auto.
      * eapply IH; eauto.
Qed.

(** Calls of a pass concern the jobs passed. *)
Definition own (R : nat -> job -> job -> list call -> Prop) : Prop :=
  forall i j j' c, R i j j' c -> forall x, In x c -> concernsb i x = true.
Lemma replaced_own : forall t ex, own (replaced t ex).
Proof.
  intros t ex i j j' c [(_ & _ & ->)|(_ & _ & ->)] x []; [|destruct H]. subst. simpl.
  apply Nat.eqb_refl.
Qed.
Lemma updated_own : forall step e, own (updated step e).
Proof.
  intros step e i j j' c [(_ & _ & ->)|(_ & [[_ ->]|[_ ->]])] x H; simpl in H;
    [destruct H|destruct H as [<-|[]]|destruct H as [<-|[<-|[]]]]; simpl; apply Nat.eqb_refl.
Qed.
Lemma about_all : forall i cs, (forall x, In x cs -> concernsb i x = true) -> about i cs = cs.
Proof.
  induction cs as [|x cs IH]; intros H; simpl; auto. rewrite H by (left; auto). f_equal.
  apply IH. intros; apply H; right; auto.
Qed.
Lemma about_none : forall i k cs, (forall x, In x cs -> concernsb k x = true) -> i <> k -> about i cs = [].
Proof.
  induction cs as [|x cs IH]; intros H N; simpl; auto.
  assert (E : concernsb i x = false).
  { specialize (H x (or_introl eq_refl)). destruct x; simpl in *; apply Nat.eqb_eq in H;
      apply Nat.eqb_neq; congruence. }
  rewrite E. apply IH; auto. intros; apply H; right; auto.
Qed.
Lemma about_app : forall i a b, about i (a ++ b) = about i a ++ about i b.
Proof. intros. apply filter_app. Qed.

Lemma pass_length : forall R i l l' cs, pass R i l l' cs -> length l' = length l.
Proof. induction 1; simpl; auto. Qed.
Lemma pass_before : forall R, own R -> forall i l l' cs, pass R i l l' cs ->
  forall k, k < i -> about k cs = [].
Proof.
  intros R O i l l' cs P. induction P; intros k K; auto.
  rewrite about_app, IHP by lia. rewrite (about_none k i c); auto; [|lia]. intros. eapply O; eauto.
Qed.
Lemma pass_after : forall R, own R -> forall i l l' cs, pass R i l l' cs ->
  forall k, i + length l <= k -> about k cs = [].
Proof.
  intros R O i l l' cs P. induction P; intros k K; auto. simpl in K.
  rewrite about_app, IHP by lia. rewrite (about_none k i c); auto; [|lia]. intros. eapply O; eauto.
Qed.
Lemma pass_nth : forall R, own R -> forall i l l' cs, pass R i l l' cs ->
  forall k j', nth_error l' k = Some j' ->
  exists j, nth_error l k = Some j /\ R (i + k) j j' (about (i + k) cs).
Proof.
  intros R O i l l' cs P. induction P; intros k x E.
  - destruct k; discriminate.
  - destruct k as [|k]; simpl in E.
    + injection E as <-. exists j. split; auto. rewrite Nat.add_0_r, about_app.
      rewrite (pass_before R O _ _ _ _ P) by lia. rewrite app_nil_r, about_all; auto.
      intros. eapply O; eauto.
    + destruct (IHP k x E) as (y & Y & Q). exists y. split; auto.
      rewrite <- plus_n_Sm. rewrite about_app, (about_none _ i c); auto.
      * intros. eapply O; eauto.
      * lia.
Qed.

(** ** The history of one job *)
Definition kind_of (j : job) : kind :=
  {| k_type := j_type j; k_exclusive := j_exclusive j; k_event := j_event j |}.
Lemma replaced_kind : forall t ex i j j' c, replaced t ex i j j' c -> kind_of j' = kind_of j.
Proof. intros t ex i j j' c [(_ & -> & _)|(_ & -> & _)]; reflexivity. Qed.
Lemma updated_kind : forall s e i j j' c, updated s e i j j' c -> kind_of j' = kind_of j.
Proof.
  intros s e i j j' c [(_ & -> & _)|(_ & [[-> _]|[-> _]])]; reflexivity.
Qed.

Definition quiet (i : nat) (ds : list Q) : list call := map (fun d => Updated i d false) ds.

Lemma requested_app : forall (a b : list op), requested (a ++ b) = requested a ++ requested b.
Proof. induction a as [|[] a IH]; intros b; simpl; auto. f_equal; auto. Qed.
Lemma execs_app : forall (a b : list op) l w,
  execs (a ++ b) l w =
  (let '(l1, w1, cs1) := execs a l w in let '(l2, w2, cs2) := execs b l1 w1 in (l2, w2, cs1 ++ cs2)).
Proof.
  induction a as [|o a IH]; intros b l w; simpl.
  - destruct (execs b l w) as [[? ?] ?]; auto.
  - destruct (exec o l w) as [[l1 w1] cs1]. rewrite IH.
    destruct (execs a l1 w1) as [[l2 w2] cs2]. destruct (execs b l2 w2) as [[l3 w3] cs3].
    rewrite app_assoc. auto.
Qed.
Lemma count_updates_app : forall e (a b : list op),
  count_updates e (a ++ b) = count_updates e a + count_updates e b.
Proof.
  induction a as [|[] a IH]; intros b; simpl; auto.
  destruct (event_eqb e0 e); rewrite IH; auto.
Qed.
Lemma updates_since_app : forall (a b : list op) i e,
  i < length (requested a) -> updates_since i e (a ++ b) = updates_since i e a + count_updates e b.
Proof.
  induction a as [|[] a IH]; intros b i ev H; simpl in *; try lia; auto.
  destruct i; auto.
  - apply count_updates_app.
  - apply IH. lia.
Qed.
Lemma updates_since_new : forall (a : list op) e f c t ex ev,
  updates_since (length (requested a)) e (a ++ [Append f c t ex ev]) = 0.
Proof. induction a as [|[] a IH]; intros; simpl; auto. Qed.

(** What is known about job [i], in state [j] with calls [h], after the operations [os]. *)
Record story (os : list op) (i : nat) (j : job) (h : list call) : Prop := {
  st_kind : nth_error (requested os) i = Some (kind_of j);
  st_active : j_active j = true ->
    exists ds, h = quiet i ds /\ length ds = updates_since i (j_event j) os /\
      (forall k q, k > i -> nth_error (requested os) k = Some q -> ~ same_key (kind_of j) q);
  st_inactive : j_active j = false ->
    exists ds, (h = quiet i ds ++ [CleanedUp i] /\
                exists k q, k > i /\ nth_error (requested os) k = Some q /\ same_key (kind_of j) q)
               \/ (exists d, h = quiet i ds ++ [Updated i d true; CleanedUp i]);
  st_times : forall dt, steady dt os ->
    (j_active j = true -> (j_duration j == inject_Z (Z.of_nat (length (elapsed_times i h))) * dt)%Q) /\
    forall k d, nth_error (elapsed_times i h) k = Some d -> (d == inject_Z (Z.of_nat k) * dt)%Q }.

Lemma elapsed_quiet : forall i ds, elapsed_times i (quiet i ds) = ds.
Proof. induction ds; simpl; auto. rewrite Nat.eqb_refl. f_equal; auto. Qed.
Lemma elapsed_app : forall i a b, elapsed_times i (a ++ b) = elapsed_times i a ++ elapsed_times i b.
Proof.
  induction a as [|[k d x|k] a IH]; intros b; simpl; auto.
  destruct (Nat.eqb k i); simpl; [f_equal|]; auto.
Qed.
Lemma cleanups_app : forall i a b, cleanups i (a ++ b) = cleanups i a + cleanups i b.
Proof.
  induction a as [|[k d x|k] a IH]; intros b; simpl; auto.
  destruct (Nat.eqb k i); simpl; auto.
Qed.
Lemma cleanups_quiet : forall i ds, cleanups i (quiet i ds) = 0.
Proof. induction ds; simpl; auto. Qed.

Lemma nth_requested_old : forall (os : list op) o k,
  k < length (requested os) -> nth_error (requested (os ++ [o])) k = nth_error (requested os) k.
Proof. intros. rewrite requested_app. apply nth_error_app1; auto. Qed.
Lemma steady_app : forall dt (a b : list op), steady dt (a ++ b) -> steady dt a.
Proof. intros dt a b H step e I. apply (H step e). apply in_or_app; auto. Qed.

(** Nothing happens to the job. *)
Lemma story_idle : forall os o i j h,
  story os i j h ->
  (j_active j = true -> count_updates (j_event j) [o] = 0 /\
     forall q, requested [o] = [q] -> ~ same_key (kind_of j) q) ->
  story (os ++ [o]) i j h.
Proof.
  intros os o i j h [K A I T] N.
  assert (L : i < length (requested os)).
  { apply nth_error_Some. rewrite K. discriminate. }
  constructor.
  - rewrite nth_requested_old; auto.
  - intros B. destruct (A B) as (ds & H & U & S). destruct (N B) as [N1 N2].
    exists ds. split; auto. split.
    + rewrite updates_since_app by auto. rewrite N1. lia.
    + intros k q G Q. rewrite requested_app in Q.
      destruct (Nat.lt_ge_cases k (length (requested os))) as [C|C].
      * rewrite nth_error_app1 in Q by auto. eauto.
      * rewrite nth_error_app2 in Q by auto. apply N2.
        destruct o; simpl in Q |- *; try (destruct (k - length (requested os)); discriminate).
        destruct (k - length (requested os)) as [|m]; simpl in Q; [congruence|destruct m; discriminate].
  - intros B. destruct (I B) as (ds & [[H (k & q & G & Q & S)]|H]); exists ds; [left|right; auto].
    split; auto. exists k, q. repeat split; auto; [|apply S|apply S].
    rewrite nth_requested_old; auto. apply nth_error_Some. congruence.
  - intros dt D. apply T. eapply steady_app; eauto.
Qed.

Lemma matches_spec : forall t ex (j : job),
  matches t ex j = true <-> j_type j = t /\ j_exclusive j = ex /\ j_active j = true.
Proof.
  intros. unfold matches. rewrite !andb_true_iff, type_eqb_spec, eqb_true_iff. tauto.
Qed.

Theorem history : forall os w l w' cs,
  execs os [] w = (l, w', cs) ->
  length l = length (requested os) /\
  (forall i j, nth_error l i = Some j -> story os i j (about i cs)) /\
  (forall i, length l <= i -> about i cs = []).
Proof.
  intros os w. induction os as [|o os IH] using rev_ind; intros l w' cs H.
  - simpl in H. injection H as <- <- <-. simpl. split; auto. split; auto.
    intros [] j E; discriminate.
  - rewrite execs_app in H. destruct (execs os [] w) as [[l1 w1] cs1].
    destruct (IH _ _ _ eq_refl) as (L & S & N). clear IH.
    simpl in H. destruct (exec o l1 w1) as [[l2 w2] cs2] eqn:X. injection H as <- <- <-.
    rewrite app_nil_r. destruct o as [f c t ex e|step e|g]; simpl in X.
    + unfold append in X. destruct (replace t ex 0 l1 w1) as [[l3 w3] cs3] eqn:R.
      injection X as <- <- <-. apply replace_pass in R.
      pose proof (pass_length _ _ _ _ _ R) as PL.
      split; [|split].
      * rewrite app_length, requested_app, app_length, PL, L. reflexivity.
      * intros i j E. rewrite about_app.
        destruct (Nat.lt_ge_cases i (length l3)) as [C|C].
        -- rewrite nth_error_app1 in E by auto.
           destruct (pass_nth _ (replaced_own t ex) _ _ _ _ R i j E) as (j0 & E0 & Q).
           simpl in Q. specialize (S i j0 E0). destruct Q as [(M & -> & ->)|(M & -> & ->)].
           ++ apply matches_spec in M as (M1 & M2 & M3).
              destruct S as [K A I T]. destruct (A M3) as (ds & Hh & U & G).
              assert (LI : i < length (requested os)) by (apply nth_error_Some; congruence).
              constructor; simpl.
              ** rewrite nth_requested_old by auto. exact K.
              ** discriminate.
              ** intros _. exists ds. left. rewrite Hh. split; auto.
                 exists (length (requested os)). eexists. split; [lia|]. split.
                 { rewrite requested_app, nth_error_app2, Nat.sub_diag by auto. reflexivity. }
                 { split; auto. }
              ** intros dt D. destruct (T dt (steady_app _ _ _ D)) as [T1 T2]. split; [discriminate|].
                 intros k d. rewrite elapsed_app. simpl. rewrite app_nil_r. apply T2.
           ++ rewrite app_nil_r. apply story_idle; auto. intros B. split; auto.
              intros q Q. simpl in Q. injection Q as <-. intros [S1 S2]. simpl in *.
              assert (matches t ex j0 = true) by (apply matches_spec; auto). congruence.
        -- rewrite nth_error_app2 in E by auto.
           destruct (i - length l3) as [|m] eqn:D; simpl in E; [|destruct m; discriminate].
           injection E as <-. assert (i = length l1) by lia. subst i.
           rewrite N by auto. rewrite (pass_after _ (replaced_own t ex) _ _ _ _ R) by auto.
           simpl. constructor; simpl.
           ++ rewrite requested_app, nth_error_app2, L, Nat.sub_diag by lia. reflexivity.
           ++ intros _. exists []. split; auto. split.
              ** rewrite L, updates_since_new. reflexivity.
              ** intros k q G Q. exfalso. rewrite requested_app in Q.
                 assert (k < length (requested os ++ requested [Append f c t ex e]))
                   by (apply nth_error_Some; congruence).
                 rewrite app_length in H. simpl in H. lia.
           ++ discriminate.
           ++ intros dt _. split; [intros _; simpl; ring|]. intros [] d E; discriminate.
      * intros i C. rewrite app_length in C. simpl in C. rewrite about_app, N by lia.
        apply (pass_after _ (replaced_own t ex) _ _ _ _ R). lia.
    + apply update_pass in X. pose proof (pass_length _ _ _ _ _ X) as PL. split; [|split].
      * rewrite requested_app, app_length, PL, L. simpl. lia.
      * intros i j E. rewrite about_app.
        destruct (pass_nth _ (updated_own step e) _ _ _ _ X i j E) as (j0 & E0 & Q).
        simpl in Q. specialize (S i j0 E0). destruct Q as [(M & -> & ->)|(M & Q)].
        -- rewrite app_nil_r. apply story_idle; auto. intros B. split.
           ++ simpl. rewrite B, andb_true_r in M. destruct (event_eqb e (j_event j0)) eqn:F; auto.
              apply event_eqb_spec in F. subst. assert (event_eqb (j_event j0) (j_event j0) = true)
                by (apply event_eqb_spec; auto). congruence.
           ++ intros q Q. discriminate Q.
        -- apply andb_true_iff in M as [M1 M2]. apply event_eqb_spec in M1.
           destruct S as [K A I T]. destruct (A M2) as (ds & Hh & U & G). rewrite Hh in *.
           assert (LI : i < length (requested os)) by (apply nth_error_Some; congruence).
           assert (TT : forall dt, steady dt (os ++ [Update step e]) ->
             (j_duration j0 == inject_Z (Z.of_nat (length ds)) * dt)%Q /\ step = dt /\
             forall k d, nth_error (ds ++ [j_duration j0]) k = Some d ->
                         (d == inject_Z (Z.of_nat k) * dt)%Q).
           { intros dt D. destruct (T dt (steady_app _ _ _ D)) as [T1 T2].
             rewrite elapsed_quiet in T1, T2. specialize (T1 M2). split; auto. split.
             - apply (D step e). apply in_or_app. right. left. auto.
             - intros k d Hk. destruct (Nat.lt_ge_cases k (length ds)) as [C|C].
               + rewrite nth_error_app1 in Hk by auto. auto.
               + rewrite nth_error_app2 in Hk by auto.
                 destruct (k - length ds) as [|m] eqn:Z; simpl in Hk; [|destruct m; discriminate].
                 injection Hk as <-. replace k with (length ds) by lia. auto. }
           destruct Q as [[-> ->]|[-> ->]].
           ++ assert (HQ : quiet i ds ++ [Updated i (j_duration j0) false] =
                           quiet i (ds ++ [j_duration j0])).
              { unfold quiet. rewrite map_app. reflexivity. }
              rewrite HQ. constructor; simpl.
              ** rewrite nth_requested_old by auto. exact K.
              ** intros _. exists (ds ++ [j_duration j0]). split; auto. split.
                 { rewrite updates_since_app, app_length by auto. simpl. rewrite U, M1.
                   destruct (event_eqb e e) eqn:F; auto.
                   assert (event_eqb e e = true) by (apply event_eqb_spec; auto). congruence. }
                 { intros k q Gk Q. rewrite requested_app in Q. simpl in Q. rewrite app_nil_r in Q.
                   apply (G k q Gk Q). }
              ** rewrite M2. discriminate.
              ** intros dt D. destruct (TT dt D) as (T1 & T2 & T3). rewrite elapsed_quiet. split; auto.
                 intros _. rewrite app_length, Nat2Z.inj_add, inject_Z_plus.
                 subst step. change (inject_Z (Z.of_nat (length [j_duration j0]))) with (1%Q).
                 setoid_rewrite T1. ring.
           ++ constructor; simpl.
              ** rewrite nth_requested_old by auto. exact K.
              ** discriminate.
              ** intros _. exists ds. right. eauto.
              ** intros dt D. destruct (TT dt D) as (T1 & T2 & T3). split; [discriminate|].
                 intros k d. rewrite elapsed_app, elapsed_quiet. simpl. rewrite Nat.eqb_refl. apply T3.
      * intros i C. rewrite about_app, N by lia.
        apply (pass_after _ (updated_own step e) _ _ _ _ X). lia.
    + injection X as <- <- <-. split; [|split].
      * rewrite requested_app, app_length. simpl. lia.
      * intros i j E. rewrite app_nil_r. apply story_idle; auto. intros _. split; auto.
        intros q Q; discriminate Q.
      * intros i C. rewrite app_nil_r. auto.
Qed.

Lemma elapsed_about : forall i cs, elapsed_times i (about i cs) = elapsed_times i cs.
Proof.
  induction cs as [|[k d x|k] cs IH]; simpl; auto; destruct (Nat.eqb k i) eqn:E; simpl; rewrite ?E;
    auto. f_equal; auto.
Qed.
Lemma cleanups_about : forall i cs, cleanups i (about i cs) = cleanups i cs.
Proof.
  induction cs as [|[k d x|k] cs IH]; simpl; auto; destruct (Nat.eqb k i) eqn:E; simpl; rewrite ?E; auto.
Qed.
Lemma about_In : forall i cs x, In x (about i cs) <-> In x cs /\ concernsb i x = true.
Proof. intros. apply filter_In. Qed.
Lemma concerns_b : forall i x, concernsb i x = true <-> concerns i x.
Proof. intros i []; simpl; apply Nat.eqb_eq. Qed.
End Proofs.
