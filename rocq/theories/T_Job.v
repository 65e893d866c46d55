(** C26, C27. *)
From Coq Require Import List Bool Arith QArith Lia.
From Verif Require Import M_Job S_Job P_Job.
Import ListNotations.
Local Open Scope nat_scope.

Section Claims.
Context {W : Type}.

(** C26. Whatever was requested and updated, and whatever the callbacks do: job number [i] is active
    if and only if no job of the same type and exclusiveness was requested after it and it has not
    answered that it is finished. *)
Theorem C26_active_iff : forall (os : list (op W)) w l w' cs i j,
  execs os [] w = (l, w', cs) -> nth_error l i = Some j ->
  exists q, nth_error (requested os) i = Some q /\
  (j_active j = true <->
    (forall k q', k > i -> nth_error (requested os) k = Some q' -> ~ same_key q q') /\
    (forall d, ~ In (Updated i d true) cs)).
Proof.
  intros os w l w' cs i j X E. destruct (history _ _ _ _ _ X) as (_ & S & _).
  destruct (S i j E) as [K A I _]. exists (kind_of j). split; auto. split.
  - intros B. destruct (A B) as (ds & H & _ & G). split; auto.
    intros d D. assert (F : In (Updated i d true) (about i cs)).
    { apply about_In. split; auto. simpl. apply Nat.eqb_refl. }
    rewrite H in F. unfold quiet in F. apply in_map_iff in F as (y & F & _). discriminate.
  - intros [G D]. destruct (j_active j) eqn:B; auto. exfalso.
    destruct (I eq_refl) as (ds & [[H (k & q & Gk & Q & M)]|[d H]]).
    + eapply G; eauto.
    + apply (D d). assert (F : In (Updated i d true) (about i cs)).
      { rewrite H. apply in_or_app. right. left. auto. }
      apply about_In in F. tauto.
Qed.

(** Hence at most one job of each kind is active. *)
Theorem C26_at_most_one : forall (os : list (op W)) w l w' cs i k j j',
  execs os [] w = (l, w', cs) -> nth_error l i = Some j -> nth_error l k = Some j' ->
  j_active j = true -> j_active j' = true ->
  j_type j = j_type j' -> j_exclusive j = j_exclusive j' -> i = k.
Proof.
  assert (L : forall (os : list (op W)) w l w' cs i k j j',
    execs os [] w = (l, w', cs) -> nth_error l i = Some j -> nth_error l k = Some j' ->
    j_active j = true -> j_type j = j_type j' -> j_exclusive j = j_exclusive j' -> i < k -> False).
  { intros os w l w' cs i k j j' X E E' B T Ex LT.
    destruct (history _ _ _ _ _ X) as (_ & S & _).
    destruct (S i j E) as [_ A _ _]. destruct (A B) as (_ & _ & _ & G).
    apply (G k (kind_of j')); auto.
    - apply (S k j' E').
    - split; auto. }
  intros os w l w' cs i k j j' X E E' B B' T Ex.
  destruct (lt_eq_lt_dec i k) as [[C|C]|C]; auto; exfalso;
    [eapply (L os w l w' cs i k)|eapply (L os w l w' cs k i)]; eauto.
Qed.

(** Every request makes a job, and while it is active it is updated at each update of its event. *)
Theorem C26_active_is_updated : forall (os : list (op W)) w l w' cs,
  execs os [] w = (l, w', cs) ->
  length l = length (requested os) /\
  forall i j, nth_error l i = Some j -> j_active j = true ->
    length (elapsed_times i cs) = updates_since i (j_event j) os.
Proof.
  intros os w l w' cs X. destruct (history _ _ _ _ _ X) as (L & S & _). split; auto.
  intros i j E B. destruct (S i j E) as [_ A _ _]. destruct (A B) as (ds & H & U & _).
  rewrite <- elapsed_about, H, elapsed_quiet. auto.
Qed.

Lemma split_about : forall i cs a c b, cs = a ++ c :: b -> concernsb i c = true ->
  about i cs = about i a ++ c :: about i b.
Proof. intros i cs a c b -> C. rewrite about_app. simpl. rewrite C. reflexivity. Qed.

Lemma last_unique : forall (h r : list call) (x : call) a b, h ++ [x] = a ++ x :: b -> ~ In x h -> b = [].
Proof.
  intros h r x a b E N. destruct b as [|y b] using rev_ind; auto. exfalso. clear IHb.
  apply N. rewrite app_comm_cons, app_assoc in E. apply app_inj_tail in E as [E _]. rewrite E.
  apply in_or_app. right. left. auto.
Qed.

(** C27. After any history (so also right after any operation of it), the cleanup of a job has been
    called once if the job has finished or a newer job of its kind was requested, and not at all
    otherwise; after that call the job is not called any more. *)
Theorem C27_cleanup_once : forall (os : list (op W)) w l w' cs i q,
  execs os [] w = (l, w', cs) -> nth_error (requested os) i = Some q ->
  cleanups i cs <= 1 /\
  (cleanups i cs = 1 <->
     (exists d, In (Updated i d true) cs) \/
     (exists k q', k > i /\ nth_error (requested os) k = Some q' /\ same_key q q')) /\
  (forall a b, cs = a ++ CleanedUp i :: b -> forall c, In c b -> ~ concerns i c) /\
  (forall a b d, cs = a ++ Updated i d true :: b -> forall d' x, ~ In (Updated i d' x) b).
Proof.
  intros os w l w' cs i q X Q. destruct (history _ _ _ _ _ X) as (L & S & _).
  destruct (nth_error l i) as [j|] eqn:E.
  2:{ apply nth_error_None in E. assert (i < length (requested os)) by (apply nth_error_Some; congruence).
      lia. }
  destruct (C26_active_iff os w l w' cs i j X E) as (q' & Q' & AI).
  replace q' with q in * by congruence. clear q' Q'.
  destruct (S i j E) as [K A I _]. assert (q = kind_of j) by congruence. subst q. clear K.
  destruct (j_active j) eqn:B.
  - destruct (A eq_refl) as (ds & H & _ & G).
    assert (C0 : cleanups i cs = 0) by (rewrite <- cleanups_about, H; apply cleanups_quiet).
    assert (NC : forall a x b, cs = a ++ x :: b -> concernsb i x = true -> exists d, x = Updated i d false).
    { intros a x b Z C. assert (F : In x (about i cs)).
      { rewrite Z, about_app. apply in_or_app. right. simpl. rewrite C. left. auto. }
      rewrite H in F. apply in_map_iff in F as (d & <- & _). eauto. }
    split; [lia|]. split; [|split].
    + destruct AI as [AI _]. destruct (AI eq_refl) as [AI1 AI2]. split; [lia|].
      intros [[d D]|(k & q & Gk & Q' & M)]; exfalso; [eapply AI2|eapply AI1]; eauto.
    + intros a b Z. destruct (NC _ _ _ Z) as [d D]; [simpl; apply Nat.eqb_refl|discriminate].
    + intros a b d Z. destruct (NC _ _ _ Z) as [d' D]; [simpl; apply Nat.eqb_refl|discriminate].
  - destruct (I eq_refl) as (ds & H).
    assert (C1 : cleanups i cs = 1).
    { rewrite <- cleanups_about. destruct H as [[-> _]|[d ->]]; rewrite cleanups_app, cleanups_quiet;
        simpl; rewrite Nat.eqb_refl; auto. }
    assert (HH : exists h, about i cs = h ++ [CleanedUp i] /\ ~ In (CleanedUp i) h /\
                 forall a b d, h ++ [CleanedUp i] = a ++ Updated i d true :: b -> b = [CleanedUp i]).
    { destruct H as [[H _]|[d H]].
      - exists (quiet i ds). split; auto. split.
        + intros F. apply in_map_iff in F as (y & F & _). discriminate.
        + intros a b d0 Z. exfalso. assert (F : In (Updated i d0 true) (quiet i ds ++ [CleanedUp i])).
          { rewrite Z. apply in_or_app. right. left. auto. }
          apply in_app_or in F as [F|[F|[]]]; [|discriminate].
          apply in_map_iff in F as (y & F & _). discriminate.
      - exists (quiet i ds ++ [Updated i d true]). split; [rewrite H, <- app_assoc; auto|]. split.
        + intros F. apply in_app_or in F as [F|[F|[]]]; [|discriminate].
          apply in_map_iff in F as (y & F & _). discriminate.
        + intros a b d0 Z. destruct b as [|y b] using rev_ind.
          * apply app_inj_tail in Z as [_ Z]. discriminate.
          * clear IHb. rewrite app_comm_cons, app_assoc in Z. apply app_inj_tail in Z as [Z <-].
            f_equal. destruct b as [|y b] using rev_ind; auto. clear IHb. exfalso.
            rewrite app_comm_cons, app_assoc in Z. apply app_inj_tail in Z as [Z _].
            assert (F : In (Updated i d0 true) (quiet i ds)).
            { rewrite Z. apply in_or_app. right. left. auto. }
            apply in_map_iff in F as (z & F & _). discriminate. }
    destruct HH as (h & H1 & H2 & H3).
    split; [lia|]. split; [|split].
    + split; auto. intros _. destruct H as [[_ H]|[d H]]; [right; auto|left; exists d].
      assert (F : In (Updated i d true) (about i cs)).
      { rewrite H. apply in_or_app. right. left. auto. }
      apply about_In in F. tauto.
    + intros a b Z c Ic Cc. apply concerns_b in Cc.
      pose proof (split_about i cs _ _ _ Z) as Y. rewrite H1 in Y.
      specialize (Y (Nat.eqb_refl i)). apply (last_unique h []) in Y; auto.
      assert (F : In c (about i b)) by (apply about_In; auto). rewrite Y in F. destruct F.
    + intros a b d Z d' x F. pose proof (split_about i cs _ _ _ Z) as Y. rewrite H1 in Y.
      specialize (Y (Nat.eqb_refl i)). apply H3 in Y.
      assert (F' : In (Updated i d' x) (about i b)).
      { apply about_In. split; auto. simpl. apply Nat.eqb_refl. }
      rewrite Y in F'. destruct F' as [F'|[]]. discriminate.
Qed.

(** With a constant step, the k-th call (counting from 0) gets the elapsed time k * step. *)
Theorem C27_elapsed : forall (os : list (op W)) w l w' cs dt i k d,
  execs os [] w = (l, w', cs) -> steady dt os ->
  nth_error (elapsed_times i cs) k = Some d -> (d == inject_Z (Z.of_nat k) * dt)%Q.
Proof.
  intros os w l w' cs dt i k d X D E. destruct (history _ _ _ _ _ X) as (_ & S & N).
  rewrite <- elapsed_about in E.
  destruct (nth_error l i) as [j|] eqn:F.
  - destruct (S i j F) as [_ _ _ T]. destruct (T dt D) as [_ T2]. eauto.
  - apply nth_error_None in F. rewrite (N i F) in E. destruct k; discriminate.
Qed.
End Claims.

(** Two speed jobs, the second replacing the first, and a travelled-distance job; the second
    finishes at its third call. *)
Definition example : list (op nat) :=
  [Append (fun _ w => (S w, false)) (fun w => 100 + w) LinearAcceleration true PostUpdate;
   Append (fun _ w => (w, false)) (fun w => w) TraveledDistance true PostUpdate;
   Update (1 # 10) PostUpdate;
   Append (fun d w => (w, Qle_bool (2 # 10) d)) (fun w => w) LinearAcceleration true PostUpdate;
   Update (1 # 10) PostUpdate; Update (1 # 10) PreUpdate; Update (1 # 10) PostUpdate;
   Update (1 # 10) PostUpdate; Update (1 # 10) PostUpdate].
Example example_runs :
  let '(l, w, cs) := execs example [] 0 in
  map j_active l = [false; true; false] /\ w = 101 /\
  elapsed_times 0 cs = [0%Q] /\ map Qred (elapsed_times 2 cs) = [0; 1 # 10; 1 # 5]%Q /\
  length (elapsed_times 1 cs) = 5 /\
  updates_since 1 PostUpdate example = 5 /\
  cleanups 0 cs = 1 /\ cleanups 1 cs = 0 /\ cleanups 2 cs = 1.
Proof. vm_compute. repeat split. Qed.
Example example_steady : steady (1 # 10) example.
Proof. intros step e H. simpl in H. intuition congruence. Qed.

Print Assumptions C26_active_iff.
Print Assumptions C26_at_most_one.
Print Assumptions C26_active_is_updated.
Print Assumptions C27_cleanup_once.
Print Assumptions C27_elapsed.
