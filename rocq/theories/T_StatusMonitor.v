(** * The status monitor: what it reports, what it restores, and whether it ends *)

From Coq Require Import ZArith Bool List Lia.
From Verif Require Import M_StatusMonitor.
Import ListNotations.
Open Scope Z_scope.

(** ** C78: the report *)

(** Specification, by the history of accesses alone: the last time a thread was heard of, and
    whether it has exited after having been heard of. *)
Fixpoint last_heard (t : thread) (h : list access) (known : option Z) : option Z :=
  match h with
  | [] => known
  | Touch now u :: r => last_heard t r (if Nat.eqb u t then Some now else known)
  | Exit _ :: r => last_heard t r known
  end.

Fixpoint has_exited (t : thread) (h : list access) (known gone : bool) : bool :=
  match h with
  | [] => gone
  | Touch _ u :: r => has_exited t r (Nat.eqb u t || known) gone
  | Exit u :: r => has_exited t r known ((Nat.eqb u t && known) || gone)
  end.

(** The times a thread was heard of, oldest first. *)
Definition times (t : thread) (h : list access) : list Z :=
  flat_map (fun a => match a with Touch now u => if Nat.eqb u t then [now] else [] | _ => [] end) h.

Fixpoint gaps (l : list Z) : list Z :=
  match l with
  | a :: ((b :: _) as r) => (b - a) :: gaps r
  | _ => []
  end.

Lemma lookup_replace t u x m :
  lookup u (replace t x m) =
  if Nat.eqb t u then match lookup u m with Some _ => Some x | None => None end else lookup u m.
Proof.
  induction m as [|[v y] m IH]; simpl.
  - destruct (Nat.eqb t u); reflexivity.
  - destruct (Nat.eqb v t) eqn:A; simpl.
    + apply Nat.eqb_eq in A. subst v. destruct (Nat.eqb t u); reflexivity.
    + destruct (Nat.eqb v u) eqn:B.
      * apply Nat.eqb_eq in B. subst v. destruct (Nat.eqb t u) eqn:C; auto.
        apply Nat.eqb_eq in C. subst. rewrite Nat.eqb_refl in A. discriminate.
      * rewrite IH. reflexivity.
Qed.

Lemma lookup_app u m n : lookup u (m ++ n) = match lookup u m with Some x => Some x | None => lookup u n end.
Proof.
  induction m as [|[v y] m IH]; simpl; auto. destruct (Nat.eqb v u); auto.
Qed.

Lemma lookup_touch now t u m :
  lookup u (touch now t m) =
  if Nat.eqb t u then
    Some (match lookup t m with
          | Some x => Status now (min_with (minimum x) (now - last_access x))
                             (max_with (maximum x) (now - last_access x)) (exited x)
          | None => Status now None None false
          end)
  else lookup u m.
Proof.
  unfold touch. destruct (lookup t m) as [x|] eqn:E.
  - rewrite lookup_replace. destruct (Nat.eqb t u) eqn:C; auto.
    apply Nat.eqb_eq in C. subst. rewrite E. reflexivity.
  - rewrite lookup_app. simpl. destruct (Nat.eqb t u) eqn:C.
    + apply Nat.eqb_eq in C. subst. rewrite E. reflexivity.
    + destruct (lookup u m); reflexivity.
Qed.

Lemma lookup_exit t u m :
  lookup u (mark_as_exited t m) =
  match lookup u m with
  | Some x => Some (if Nat.eqb t u then Status (last_access x) (minimum x) (maximum x) true else x)
  | None => None
  end.
Proof.
  unfold mark_as_exited. destruct (lookup t m) as [x|] eqn:E.
  - rewrite lookup_replace. destruct (Nat.eqb t u) eqn:C.
    + apply Nat.eqb_eq in C. subst. rewrite E. reflexivity.
    + destruct (lookup u m); reflexivity.
  - destruct (lookup u m) as [y|] eqn:F; auto. destruct (Nat.eqb t u) eqn:C; auto.
    apply Nat.eqb_eq in C. subst. congruence.
Qed.

Definition keys (m : statuses) := map fst m.

Lemma keys_replace t x m : keys (replace t x m) = keys m.
Proof.
  induction m as [|[v y] m IH]; simpl; auto. destruct (Nat.eqb v t); simpl; congruence.
Qed.

Lemma lookup_keys t m : lookup t m = None <-> ~ In t (keys m).
Proof.
  induction m as [|[v y] m IH]; simpl; [tauto|]. destruct (Nat.eqb v t) eqn:E.
  - apply Nat.eqb_eq in E. subst. split; [discriminate|tauto].
  - apply Nat.eqb_neq in E. rewrite IH. tauto.
Qed.

Lemma nodup_after h : NoDup (keys (after h)).
Proof.
  unfold after. assert (G : forall m, NoDup (keys m) -> NoDup (keys (fold_left apply_access h m))).
  { induction h as [|a h IH]; simpl; auto. intros m N. apply IH. destruct a as [now t|t]; simpl.
    - unfold touch. destruct (lookup t m) eqn:E; [rewrite keys_replace; auto|].
      unfold keys. rewrite map_app. simpl. apply lookup_keys in E. fold (keys m).
      clear -N E. induction (keys m) as [|k l IHl]; simpl; [repeat constructor; auto|].
      inversion N; subst. constructor.
      + rewrite in_app_iff. simpl. intros [X|[X|[]]]; [auto|]. subst. apply E. simpl. auto.
      + apply IHl; auto. intros X. apply E. simpl. auto.
    - unfold mark_as_exited. destruct (lookup t m); auto. rewrite keys_replace. auto. }
  apply G. constructor.
Qed.

Lemma in_lookup t x m : NoDup (keys m) -> In (t, x) m <-> lookup t m = Some x.
Proof.
  induction m as [|[v y] m IH]; simpl; intros N; [split; [contradiction|discriminate]|].
  inversion N; subst. destruct (Nat.eqb v t) eqn:E.
  - apply Nat.eqb_eq in E. subst. split.
    + intros [X|X]; [congruence|]. exfalso. apply H1. apply in_map_iff. exists (t, x). auto.
    + intros X. left. congruence.
  - apply Nat.eqb_neq in E. rewrite <- IH by auto. split; [intros [X|X]; [congruence|auto]|auto].
Qed.

(** What the table holds about a thread, by the history. *)
Lemma table_general t : forall h m,
  option_map last_access (lookup t (fold_left apply_access h m)) =
    last_heard t h (option_map last_access (lookup t m)) /\
  match lookup t (fold_left apply_access h m) with
  | Some x => exited x = has_exited t h (match lookup t m with Some _ => true | None => false end)
                                    (match lookup t m with Some y => exited y | None => false end)
  | None => True
  end.
Proof.
  induction h as [|a h IH]; intros m; simpl.
  - split; auto. destruct (lookup t m); auto.
  - destruct a as [now u|u]; simpl.
    + destruct (IH (touch now u m)) as [A B]. rewrite lookup_touch in A, B.
      destruct (Nat.eqb u t) eqn:E; simpl in *; [|split; auto].
      apply Nat.eqb_eq in E. subst u. destruct (lookup t m) as [y|]; simpl in *; auto.
    + destruct (IH (mark_as_exited u m)) as [A B]. rewrite lookup_exit in A, B. split.
      * rewrite A. destruct (lookup t m); simpl; auto. destruct (Nat.eqb u t); auto.
      * destruct (lookup t (fold_left apply_access h (mark_as_exited u m))) as [x|] in B |- *; auto.
        rewrite B. destruct (lookup t m); simpl; [|rewrite andb_false_r; reflexivity].
        rewrite andb_true_r. destruct (Nat.eqb u t); reflexivity.
Qed.

(** The report says "good" exactly when every thread ever heard of has exited or was last heard of
    less than the threshold ago. *)
Theorem C78_good_iff : forall h now threshold,
  all_good now threshold (after h) = true <->
  forall t last, last_heard t h None = Some last ->
    has_exited t h false false = true \/ now - last < threshold.
Proof.
  intros h now th. unfold all_good. rewrite forallb_forall. split.
  - intros H t last E. destruct (table_general t h []) as [A B]. fold (after h) in A, B. simpl in A, B.
    rewrite E in A. destruct (lookup t (after h)) as [x|] eqn:L; [|discriminate].
    simpl in A. inversion A; subst. apply (in_lookup _ _ _ (nodup_after h)) in L.
    specialize (H _ L). unfold good in H. simpl in H. apply orb_true_iff in H.
    destruct H as [H|H]; [left; congruence|right; apply Z.ltb_lt; auto].
  - intros H [t x] I. apply (in_lookup _ _ _ (nodup_after h)) in I.
    destruct (table_general t h []) as [A B]. fold (after h) in A, B. simpl in A, B.
    rewrite I in A, B. simpl in A. symmetry in A. unfold good. simpl. apply orb_true_iff.
    destruct (H t _ A) as [X|X]; [left; congruence|right; apply Z.ltb_lt; auto].
Qed.

(** The intervals reported for a thread are the smallest and the largest gap between the times it
    was heard of. *)
Lemma times_snoc t h a : times t (h ++ [a]) = times t h ++ times t [a].
Proof. unfold times. rewrite flat_map_app. reflexivity. Qed.

Lemma gaps_snoc l a b : gaps (l ++ [a; b]) = gaps (l ++ [a]) ++ [b - a].
Proof.
  induction l as [|x l IH]; simpl; auto. destruct l as [|y l]; simpl in *; [reflexivity|].
  f_equal. exact IH.
Qed.

Definition smallest (l : list Z) : option Z :=
  match l with [] => None | x :: r => Some (fold_left Z.min r x) end.
Definition largest (l : list Z) : option Z :=
  match l with [] => None | x :: r => Some (fold_left Z.max r x) end.

Lemma smallest_snoc l x : smallest (l ++ [x]) = min_with (smallest l) x.
Proof. destruct l as [|y l]; simpl; auto. rewrite fold_left_app. reflexivity. Qed.
Lemma largest_snoc l x : largest (l ++ [x]) = max_with (largest l) x.
Proof. destruct l as [|y l]; simpl; auto. rewrite fold_left_app. reflexivity. Qed.

Lemma intervals t : forall h,
  match lookup t (after h) with
  | None => times t h = []
  | Some x => (exists l, times t h = l ++ [last_access x]) /\
              minimum x = smallest (gaps (times t h)) /\ maximum x = largest (gaps (times t h))
  end.
Proof.
  intros h. induction h as [|a h IH] using rev_ind; [reflexivity|].
  unfold after in *. rewrite fold_left_app. simpl. rewrite times_snoc.
  set (m := fold_left apply_access h []) in *.
  destruct a as [now u|u]; simpl.
  - rewrite lookup_touch. destruct (Nat.eqb u t) eqn:E; simpl; [|rewrite app_nil_r; auto].
    apply Nat.eqb_eq in E. subst u.
    split; [exists (times t h); destruct (lookup t m); reflexivity|].
    destruct (lookup t m) as [x|].
    + destruct IH as ((l & EL) & A & B). rewrite EL, <- app_assoc. simpl.
      rewrite gaps_snoc, smallest_snoc, largest_snoc. simpl. rewrite A, B, EL. auto.
    + rewrite IH. auto.
  - rewrite lookup_exit, app_nil_r. destruct (lookup t m) as [x|]; auto.
    destruct (Nat.eqb u t); auto.
Qed.

Theorem C78_intervals : forall h t x, lookup t (after h) = Some x ->
  minimum x = smallest (gaps (times t h)) /\ maximum x = largest (gaps (times t h)).
Proof. intros h t x E. pose proof (intervals t h) as H. rewrite E in H. tauto. Qed.

(** [smallest] and [largest] are what they are called. *)
Lemma fold_min_le l : forall a, fold_left Z.min l a <= a.
Proof. induction l; simpl; intros; [lia|]. specialize (IHl (Z.min a0 a)). lia. Qed.

Theorem C78_smallest_is_least : forall l x, smallest l = Some x -> In x l /\ forall y, In y l -> x <= y.
Proof.
  intros [|a l] x; simpl; [discriminate|]. intros E. inversion E; subst. clear E.
  assert (G : forall l a, (a = fold_left Z.min l a \/ In (fold_left Z.min l a) l) /\
                          forall y, In y l -> fold_left Z.min l a <= y).
  { clear. induction l as [|b l IH]; simpl; intros a; [split; [auto|contradiction]|].
    destruct (IH (Z.min a b)) as [I L]. pose proof (fold_min_le l (Z.min a b)). split.
    - destruct I as [I|I]; [|auto]. destruct (Z.min_spec a b) as [[? M]|[? M]]; rewrite M in *; auto.
    - intros y [->|Y]; [lia|auto]. }
  destruct (G l a) as [I L]. split; [tauto|].
  intros y [->|Y]; [apply fold_min_le|auto].
Qed.

Theorem C78_largest_is_greatest : forall l x, largest l = Some x -> In x l /\ forall y, In y l -> y <= x.
Proof.
  intros [|a l] x; simpl; [discriminate|]. intros E. inversion E; subst. clear E.
  assert (F : forall l a, a <= fold_left Z.max l a).
  { clear. induction l; simpl; intros; [lia|]. specialize (IHl (Z.max a0 a)). lia. }
  assert (G : forall l a, (a = fold_left Z.max l a \/ In (fold_left Z.max l a) l) /\
                          forall y, In y l -> y <= fold_left Z.max l a).
  { clear -F. induction l as [|b l IH]; simpl; intros a; [split; [auto|contradiction]|].
    destruct (IH (Z.max a b)) as [I L]. pose proof (F l (Z.max a b)). split.
    - destruct I as [I|I]; [|auto]. destruct (Z.max_spec a b) as [[? M]|[? M]]; rewrite M in *; auto.
    - intros y [->|Y]; [lia|auto]. }
  destruct (G l a) as [I L]. split; [tauto|].
  intros y [->|Y]; [apply F|auto].
Qed.

(** A thread that is heard of again after it exited counts as good for ever. *)
Theorem C78_exited_for_ever_refuted : exists h t, 
  last_heard t h None = Some 5 /\ (exists before, h = before ++ [Touch 5 t]) /\
  forall now threshold, all_good now threshold (after h) = true.
Proof.
  exists [Touch 0 1%nat; Exit 1%nat; Touch 5 1%nat], 1%nat. split; [reflexivity|]. split.
  - exists [Touch 0 1%nat; Exit 1%nat]. reflexivity.
  - reflexivity.
Qed.

Example C78_example :
  all_good 20 10 (after [Touch 0 1%nat; Touch 12 2%nat; Touch 14 1%nat]) = true /\
  all_good 22 10 (after [Touch 0 1%nat; Touch 12 2%nat; Touch 14 1%nat]) = false /\
  gaps (times 1%nat [Touch 0 1%nat; Touch 12 2%nat; Touch 14 1%nat]) = [14].
Proof. repeat split. Qed.

(** ** C79: overriding the threshold *)

(** Overrides that are nested, whichever threads they belong to. *)
Inductive nested : list threshold_op -> Prop :=
| nested_nil : nested []
| nested_cons t v inner rest :
    nested inner -> nested rest -> nested (Enter t v :: inner ++ Leave t :: rest).

Lemma nested_restores l : nested l -> forall s,
  threshold (thresholds_after l s) = threshold s /\
  forall u, saved (thresholds_after l s) u = saved s u.
Proof.
  induction 1 as [|t v inner rest N1 IH1 N2 IH2]; intros s; [auto|].
  unfold thresholds_after in *. simpl. rewrite fold_left_app. simpl.
  set (s1 := Thresholds v (put t (threshold s :: saved s t) (saved s))).
  destruct (IH1 s1) as [A B].
  assert (E : saved (fold_left threshold_step inner s1) t = threshold s :: saved s t).
  { rewrite B. simpl. unfold put. rewrite Nat.eqb_refl. reflexivity. }
  rewrite E. match goal with |- context [fold_left threshold_step rest ?x] => set (s2 := x) end.
  destruct (IH2 s2) as [C D]. split; [rewrite C; reflexivity|].
  intros u. rewrite D. simpl. unfold put. destruct (Nat.eqb u t) eqn:F.
  - apply Nat.eqb_eq in F. subst. reflexivity.
  - rewrite B. simpl. unfold put. rewrite F. reflexivity.
Qed.

(** Nested overrides give the threshold back, and inside one its own value is in force. *)
Theorem C79_nested_overrides_restore : forall l, nested l -> forall s,
  threshold (thresholds_after l s) = threshold s.
Proof. intros l N s. apply nested_restores; auto. Qed.

Theorem C79_inside_in_force : forall l, nested l -> forall s t v,
  threshold (thresholds_after (Enter t v :: l) s) = v.
Proof.
  intros l N s t v. exact (proj1 (nested_restores l N (threshold_step s (Enter t v)))).
Qed.

(** Two threads whose overrides overlap without nesting leave the wrong threshold behind for good,
    and a value set during an override is lost. *)
Theorem C79_overlap_refuted : forall v other s, other <> threshold s ->
  exists l, (forall t, saved (thresholds_after l s) t = saved s t) /\
    threshold (thresholds_after l s) = other /\
    filter (fun o => match o with Enter 1%nat _ | Leave 1%nat => true | _ => false end) l
      = [Enter 1%nat other; Leave 1%nat] /\
    filter (fun o => match o with Enter 2%nat _ | Leave 2%nat => true | _ => false end) l
      = [Enter 2%nat v; Leave 2%nat].
Proof.
  intros v other s N. exists [Enter 1%nat other; Enter 2%nat v; Leave 1%nat; Leave 2%nat].
  split; [|repeat split].
  intros [|[|[|t]]]; reflexivity.
Qed.

Theorem C79_update_lost : forall l, nested l -> forall s t v w,
  threshold (thresholds_after (Enter t v :: l ++ [Update w; Leave t]) s) = threshold s.
Proof.
  intros l N s t v w. unfold thresholds_after. simpl. rewrite fold_left_app. simpl.
  destruct (nested_restores l N (Thresholds v (put t (threshold s :: saved s t) (saved s)))) as [_ B].
  specialize (B t). unfold thresholds_after in B. rewrite B. simpl. unfold put. rewrite Nat.eqb_refl. reflexivity.
Qed.

Example C79_example : nested [Enter 1%nat 30; Enter 2%nat 60; Leave 2%nat; Leave 1%nat].
Proof.
  apply (nested_cons 1%nat 30 [Enter 2%nat 60; Leave 2%nat] []); [|constructor].
  apply (nested_cons 2%nat 60 [] []); constructor.
Qed.

(** ** C80: the monitor's end *)

(** The states a schedule can reach. *)
Record ending_inv (s : ending) : Prop := EndingInv {
  e_lock : locked s = true <-> (wd s = Writing \/ de s = HasMutex \/ de s = Joining);
  e_excl : wd s = Writing -> de s = Before \/ de s = Returned;
  e_flag : terminating s = true <-> de s = Joining;
  e_fin : wd s = Finished -> de s = Joining \/ de s = Returned;
  e_ret : de s = Returned -> wd s = Finished }.

Lemma ending_step s w : ending_inv s -> ending_inv (move s w).
Proof.
  destruct s as [p q t l]. intros [A B C D E]. simpl in *.
  destruct p, q, t, l; try (exfalso; intuition discriminate);
    destruct w; simpl; constructor; simpl; intuition (try discriminate).
Qed.

Lemma ending_reach l : ending_inv (schedule l alive).
Proof.
  unfold schedule. assert (G : forall s, ending_inv s -> ending_inv (fold_left move l s)).
  { induction l; simpl; auto using ending_step. }
  apply G. constructor; simpl; intuition discriminate.
Qed.

(** Once the destructor waits, the watchdog's position decides: if it waits for the mutex, nobody
    ever moves again; otherwise the destructor returns as soon as the watchdog got two steps. *)
Theorem C80_hangs_or_ends : forall l, let s := schedule l alive in
  de s = Joining ->
  (wd s = WantsMutex -> forall more, schedule more s = s) /\
  (wd s <> WantsMutex -> forall more,
     (de (schedule more s) = Returned \/ de (schedule more s) = Joining) /\
     de (schedule (more ++ [Watchdog; Watchdog; Destructor]) s) = Returned).
Proof.
  intros l s J. pose proof (ending_reach l) as I. fold s in I. clearbody s. split.
  - intros W more. destruct s as [p q t k]. simpl in *. subst.
    destruct I as [A _ _ _ _]. simpl in A. assert (k = true) by (apply A; auto). subst.
    induction more as [|[] more IH]; simpl; auto.
  - intros W more. unfold schedule. rewrite fold_left_app.
    assert (G : forall more s, ending_inv s -> wd s <> WantsMutex -> (de s = Joining \/ de s = Returned) ->
      ending_inv (fold_left move more s) /\ wd (fold_left move more s) <> WantsMutex /\
      (de (fold_left move more s) = Joining \/ de (fold_left move more s) = Returned)).
    { clear. induction more as [|w more IH]; simpl; auto. intros s I W J.
      apply IH; [apply ending_step; auto| |];
        destruct s as [p q t k]; destruct I as [A B C D E]; simpl in *;
        destruct p, q, t, k; destruct w; simpl; try discriminate; auto; exfalso; intuition discriminate. }
    destruct (G more s I W (or_introl J)) as (I' & W' & J'). split; [tauto|].
    destruct (fold_left move more s) as [p q t k]. destruct I' as [A B C D E]. simpl in *.
    destruct p, q, t, k; simpl; auto; exfalso; intuition discriminate.
Qed.

(** Both happen: the claim "the monitor always ends" is false. *)
Theorem C80_refuted : exists l, de (schedule l alive) = Joining /\
  forall more, de (schedule more (schedule l alive)) <> Returned.
Proof.
  exists [Watchdog; Destructor; Destructor]. split; [reflexivity|].
  intros more. rewrite (proj1 (C80_hangs_or_ends [Watchdog; Destructor; Destructor] eq_refl) eq_refl).
  discriminate.
Qed.

(** The schedules after which it can still end are those after which the watchdog does not wait for
    a mutex the destructor holds. *)
Theorem C80_can_still_end : forall l, let s := schedule l alive in
  (exists more, de (schedule more s) = Returned) <->
  ~ ((de s = HasMutex \/ de s = Joining) /\ wd s = WantsMutex).
Proof.
  intros l s. pose proof (ending_reach l) as I. fold s in I. clearbody s. split.
  - intros (more & R) [J W].
    assert (G : forall more s, ending_inv s -> (de s = HasMutex \/ de s = Joining) -> wd s = WantsMutex ->
      de (schedule more s) = HasMutex \/ de (schedule more s) = Joining).
    { clear. unfold schedule. induction more as [|w more IH]; simpl; auto. intros s I J W.
      apply IH; [apply ending_step; auto| |];
        destruct s as [p q t k]; destruct I as [A B C D E]; simpl in *;
        destruct p, q, t, k; destruct w; simpl; try discriminate; auto; exfalso; intuition discriminate. }
    destruct (G more s I J W); congruence.
  - intros N. destruct s as [p q t k]. destruct I as [A B C D E]. simpl in *.
    destruct q, p, t, k; simpl in *; try (exfalso; intuition discriminate).
    all: first
      [ exists []; reflexivity
      | exists [Destructor]; reflexivity
      | exists [Watchdog; Destructor]; reflexivity
      | exists [Watchdog; Watchdog; Destructor]; reflexivity
      | exists [Destructor; Watchdog; Destructor]; reflexivity
      | exists [Destructor; Watchdog; Watchdog; Destructor]; reflexivity
      | exists [Destructor; Destructor; Watchdog; Destructor]; reflexivity
      | exists [Destructor; Destructor; Watchdog; Watchdog; Destructor]; reflexivity
      | exists [Watchdog; Destructor; Destructor; Watchdog; Watchdog; Destructor]; reflexivity
      | exists [Watchdog; Watchdog; Destructor; Destructor; Watchdog; Watchdog; Destructor]; reflexivity ].
Qed.

Example C80_example :
  de (schedule [Destructor; Destructor] alive) = Joining /\
  wd (schedule [Destructor; Destructor] alive) <> WantsMutex.
Proof. split; [reflexivity|discriminate]. Qed.

Print Assumptions C78_good_iff.
Print Assumptions C78_intervals.
Print Assumptions C78_smallest_is_least.
Print Assumptions C78_largest_is_greatest.
Print Assumptions C78_exited_for_ever_refuted.
Print Assumptions C79_nested_overrides_restore.
Print Assumptions C79_inside_in_force.
Print Assumptions C79_overlap_refuted.
Print Assumptions C79_update_lost.
Print Assumptions C80_hangs_or_ends.
Print Assumptions C80_refuted.
Print Assumptions C80_can_still_end.
