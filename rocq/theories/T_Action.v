(** * When actions start, what they request and when they are over. *)
From Coq Require Import String List Bool Arith ZArith QArith Qabs Lia Permutation.
From Verif Require Import M_Action S_Action.
Import ListNotations.
Local Open Scope Q_scope.

Lemma frames_over : forall {W St R} (a : action W St R) ws, frames a Over ws = (Over, []).
Proof.
  intros W St R a. induction ws as [|w ws IH]; [reflexivity|].
  cbn [frames evaluate]. rewrite IH. reflexivity.
Qed.
Lemma frames_failed : forall {W St R} (a : action W St R) ws, frames a Failed ws = (Failed, []).
Proof.
  intros W St R a. induction ws as [|w ws IH]; [reflexivity|].
  cbn [frames evaluate]. rewrite IH. reflexivity.
Qed.

Section Tables.
Context {R : Type} (a : action sight (list (nat * bool)) R) (chk : sight -> nat -> option bool).
Hypothesis Run : forall w s, a_run a w s = (s, []).
Hypothesis Done : forall w s, a_done a w s = all_of (chk w) s.

Lemma all_of_table : forall c t t' r,
  all_of c t = Some (t', r) ->
  map fst t' = map fst t /\
  (forall x, In (x, true) t' -> In (x, true) t \/ c x = Some true) /\
  (forall x, In (x, true) t -> In (x, true) t') /\
  (r = true -> forall x d, In (x, d) t' -> d = true) /\
  (r = false -> exists x, In x (map fst t) /\ c x = Some false).
Proof.
  intros c t. induction t as [|[x d] t IH]; intros t' r E; cbn [all_of] in E.
  - injection E as <- <-. split; [reflexivity|]. split; [intros x []|]. split; [intros x []|].
    split; [intros _ x d []|discriminate].
  - destruct (if d then Some true else c x) as [[|]|] eqn:D; [| |discriminate].
    + destruct (all_of c t) as [[t1 r1]|] eqn:A; [|discriminate].
      injection E as <- <-. destruct (IH _ _ eq_refl) as (K & B & C & F & G).
      split; [cbn; rewrite K; reflexivity|]. split; [|split; [|split]].
      * intros y [H|H].
        -- injection H as <-. destruct d; [left; left; reflexivity|right; exact D].
        -- destruct (B _ H); [left; right; assumption|right; assumption].
      * intros y [H|H]; [injection H as <- _; left; reflexivity|right; apply C; exact H].
      * intros T y d' [H|H]; [injection H as _ <-; reflexivity|exact (F T _ _ H)].
      * intros T. destruct (G T) as (y & Y & Z). exists y. split; [right; exact Y|exact Z].
    + injection E as <- <-. destruct d; [discriminate|].
      split; [reflexivity|]. split; [|split; [|split]].
      * intros y [H|H]; [discriminate|left; right; exact H].
      * intros y [H|H]; [discriminate|right; exact H].
      * discriminate.
      * intros _. exists x. split; [left; reflexivity|exact D].
Qed.

Lemma all_of_total : forall c t,
  (forall x, In x (map fst t) -> c x <> None) -> exists t' r, all_of c t = Some (t', r).
Proof.
  intros c t. induction t as [|[x d] t IH]; intros N; [eexists _, _; reflexivity|].
  cbn [all_of]. destruct IH as (t' & r & E); [intros y Y; apply N; right; exact Y|].
  pose proof (N x (or_introl eq_refl)) as X.
  destruct d; [rewrite E; eexists _, _; reflexivity|].
  destruct (c x) as [[|]|]; [rewrite E| |contradiction X; reflexivity]; eexists _, _; reflexivity.
Qed.

Lemma table_sound : forall ws s r,
  frames a (Going s) ws = (Over, r) ->
  forall x, In x (map fst s) -> In (x, true) s \/ exists w, In w ws /\ chk w x = Some true.
Proof.
  induction ws as [|w ws IH]; intros s r E x X; [discriminate|].
  cbn [frames evaluate] in E. unfold run_once in E. rewrite Run, Done in E.
  destruct (all_of (chk w) s) as [[s' d]|] eqn:A.
  2: { rewrite frames_failed in E. discriminate. }
  destruct (all_of_table _ _ _ _ A) as (K & B & C & F & G).
  assert (In (x, true) s' -> In (x, true) s \/ exists w', In w' (w :: ws) /\ chk w' x = Some true)
    as Z.
  { intros H. destruct (B _ H); [left; assumption|right; exists w; split; [left; reflexivity|]].
    assumption. }
  destruct d.
  - rewrite <- K in X. apply in_map_iff in X. destruct X as ([y d] & Y & X). cbn in Y. subst y.
    rewrite (F eq_refl _ _ X) in X. exact (Z X).
  - destruct (frames a (Going s') ws) as [p r'] eqn:E'. injection E as -> <-.
    destruct (IH _ _ E' x) as [H|(w' & W & H)].
    + rewrite K. exact X.
    + exact (Z H).
    + right. exists w'. split; [right; exact W|exact H].
Qed.

Lemma table_complete : forall ws s w,
  In w ws ->
  (forall w' x, In w' ws -> In x (map fst s) -> chk w' x <> None) ->
  (forall x, In x (map fst s) -> In (x, true) s /\ NoDup (map fst s) \/ chk w x = Some true) ->
  fst (frames a (Going s) ws) = Over.
Proof.
  induction ws as [|w0 ws IH]; intros s w [].
  - subst w0. intros N H. cbn [frames evaluate]. unfold run_once. rewrite Run, Done.
    destruct (all_of_total (chk w) s) as (s' & d & A).
    { intros x X. apply N; [left; reflexivity|exact X]. }
    rewrite A. destruct (all_of_table _ _ _ _ A) as (K & B & C & F & G).
    destruct d; [rewrite frames_over; reflexivity|].
    exfalso. clear - A H. revert s' A. 
    assert (forall t s', all_of (chk w) t = Some (s', false) ->
            exists x, In (x, false) t /\ chk w x = Some false) as Z.
    { induction t as [|[x d] t IH]; intros s' A; cbn [all_of] in A; [discriminate|].
      destruct d.
      - destruct (all_of (chk w) t) as [[t1 [|]]|] eqn:E; try discriminate.
        destruct (IH _ eq_refl) as (y & Y & Y'). exists y. split; [right; exact Y|exact Y'].
      - destruct (chk w x) as [[|]|] eqn:X; [|exists x; split; [left; reflexivity|exact X]|].
        + destruct (all_of (chk w) t) as [[t1 [|]]|] eqn:E; try discriminate.
          destruct (IH _ eq_refl) as (y & Y & Y'). exists y. split; [right; exact Y|exact Y'].
        + discriminate. }
    intros s' A. destruct (Z _ _ A) as (x & X & X').
    destruct (H x (in_map fst _ _ X)) as [[T N]|T]; [|congruence].
    clear - X T N. induction s as [|[y d] s IH]; [destruct X|].
    cbn in N. apply NoDup_cons_iff in N. destruct N as [N N'].
    destruct X as [X|X], T as [T|T].
    + rewrite X in T. discriminate.
    + injection X as -> ->. exact (N (in_map fst _ _ T)).
    + injection T as -> ->. exact (N (in_map fst _ _ X)).
    + exact (IH X T N').
  - intros N H'. cbn [frames evaluate]. unfold run_once. rewrite Run, Done.
    destruct (all_of_total (chk w0) s) as (s' & d & A).
    { intros x X. apply N; [left; reflexivity|exact X]. }
    rewrite A. destruct (all_of_table _ _ _ _ A) as (K & B & C & F & G).
    destruct d; [rewrite frames_over; reflexivity|].
    destruct (frames a (Going s') ws) as [p r] eqn:E.
    specialize (IH s' w H). rewrite E in IH. cbn [fst] in IH |- *. apply IH.
    + intros w' x W X. rewrite K in X. apply N; [right; exact W|exact X].
    + intros x X. rewrite K in *. destruct (H' x X) as [[T M]|T]; [left|right; exact T].
      split; [apply C; exact T|exact M].
Qed.

Lemma table_asks : forall ws s, snd (frames a (Going s) ws) = [].
Proof.
  induction ws as [|w ws IH]; intros s; [reflexivity|].
  cbn [frames evaluate]. unfold run_once. rewrite Run.
  destruct (a_done a w s) as [[s' [|]]|].
  - rewrite frames_over. reflexivity.
  - specialize (IH s'). destruct (frames a (Going s') ws) as [p r]. exact IH.
  - rewrite frames_failed. reflexivity.
Qed.
End Tables.

Lemma frames_start : forall {W St R} (a : action W St R) w ws s r,
  a_start a w = Some (s, r) ->
  frames a Waiting (w :: ws) =
  (fst (frames a (Going s) (w :: ws)), (r ++ snd (frames a (Going s) (w :: ws)))%list).
Proof.
  intros W St R a w ws s r E. cbn [frames evaluate]. rewrite E.
  destruct (run_once a w s) as [p r1]. destruct (frames a p ws) as [p' r2]. cbn [fst snd].
  rewrite app_assoc. reflexivity.
Qed.

Lemma enter_once : forall l, once l (enter l).
Proof. intros l. split; [apply NoDup_nodup|intros a; apply nodup_In]. Qed.
Lemma table_keys : forall l, map fst (table l) = enter l.
Proof.
  intros l. unfold table. rewrite map_map. cbn. apply map_id.
Qed.
Lemma table_false : forall l x, ~ In (x, true) (table l).
Proof.
  intros l x H. unfold table in H. apply in_map_iff in H. destruct H as (y & Y & _). discriminate.
Qed.

Lemma all_known_spawned : forall objects w actors,
  all_known objects w actors = true <-> spawned objects actors w.
Proof.
  intros objects w actors. unfold all_known, spawned. rewrite forallb_forall. split.
  - intros H a o A O. specialize (H a A). rewrite forallb_forall in H. specialize (H o O).
    unfold known in H. destruct (w o); [discriminate|discriminate H].
  - intros H a A. apply forallb_forall. intros o O. specialize (H a o A O).
    unfold known. destruct (w o); [reflexivity|contradiction H; reflexivity].
Qed.

Lemma equal_spec : forall a b,
  equal (Some a) (Some b) = true <-> same a b.
Proof.
  intros a b. unfold equal, same. fold epsilon. rewrite negb_true_iff. split.
  - intros H. apply Qnot_le_lt. intros L. apply Qle_bool_iff in L. congruence.
  - intros H. destruct (Qle_bool epsilon (Qabs (a - b))) eqn:E; [|reflexivity].
    apply Qle_bool_iff in E. exfalso. apply (Qlt_not_le _ _ H). exact E.
Qed.

Lemma means_goal : forall w t v, means w t v <-> goal w t = Some v.
Proof.
  intros w t v. split.
  - intros M. destruct M as [v|e v c s E|e v c s E]; [reflexivity| |];
      cbn [goal]; unfold speed_of; rewrite E; reflexivity.
  - intros G. destruct t as [x|e x c|e x c]; cbn [goal] in G.
    + injection G as <-. constructor.
    + unfold speed_of in G. destruct (w e) as [s|] eqn:E; [|discriminate]. injection G as <-.
      constructor. exact E.
    + unfold speed_of in G. destruct (w e) as [s|] eqn:E; [|discriminate]. injection G as <-.
      constructor. exact E.
Qed.

Lemma at_goal_reached : forall objects w t a,
  at_goal objects w t a = true <-> reached w t (objects a).
Proof.
  intros objects w t a. unfold at_goal, reached. rewrite forallb_forall. split.
  - intros H o O. specialize (H o O). unfold speed_of in H.
    destruct (w o) as [s|]; [|discriminate]. destruct (goal w t) as [v|] eqn:G; [|discriminate].
    exists s, v. split; [reflexivity|]. split; [apply means_goal; exact G|].
    apply equal_spec. exact H.
  - intros H o O. destruct (H o O) as (s & v & E & M & N). unfold speed_of. rewrite E.
    apply means_goal in M. rewrite M. apply equal_spec. exact N.
Qed.

(** ** C191: when a speed action is over *)

Lemma speed_done : forall objects actors t w s,
  no_ending t = false ->
  a_done (speed_action objects actors false t) w s =
  all_of (fun a => Some (at_goal objects w t a)) s.
Proof. intros objects actors t w s E. cbn. rewrite E. reflexivity. Qed.

Lemma lasting_spec : forall t, lasting t <-> no_ending t = true.
Proof. intros [v|e v c|e v c]; cbn; split; intros; try discriminate; try contradiction; assumption. Qed.
Lemma not_lasting : forall t, ~ lasting t -> no_ending t = false.
Proof. intros t H. rewrite lasting_spec in H. destruct (no_ending t); [exfalso; apply H; reflexivity|reflexivity]. Qed.

(** Every actor has reached the target in a frame since the start. *)
Theorem C191_sound : forall objects actors t ws r,
  ~ lasting t ->
  frames (speed_action objects actors false t) Waiting ws = (Over, r) ->
  forall a, In a actors -> exists w, In w ws /\ reached w t (objects a).
Proof.
  intros objects actors t ws r N E a A. apply not_lasting in N. destruct ws as [|w ws]; [discriminate|].
  destruct (all_known objects w actors) eqn:K.
  2: { cbn [frames evaluate] in E. cbn [speed_action a_start] in E. rewrite K in E.
       rewrite frames_failed in E. discriminate. }
  erewrite frames_start in E by (cbn [speed_action a_start]; rewrite K; reflexivity).
  destruct (frames _ (Going (table actors)) (w :: ws)) as [p r'] eqn:F.
  injection E as E _. cbn [fst] in E. subst p.
  pose proof (fun x => table_sound (speed_action objects actors false t) (fun w a => Some (at_goal objects w t a))
    (fun w s => eq_refl) (fun w s => speed_done objects actors t w s N) _ _ _ F x) as G.
  rewrite table_keys in G. destruct (G a) as [H|(w' & W & H)].
  - apply (proj2 (enter_once actors)). exact A.
  - exfalso. exact (table_false _ _ H).
  - exists w'. split; [exact W|]. apply at_goal_reached. congruence.
Qed.

(** As soon as all actors have the target speed in the same frame, the action is over. *)
Theorem C191_complete : forall objects actors t w0 ws w,
  ~ lasting t ->
  spawned objects actors w0 ->
  In w (w0 :: ws) ->
  (forall a, In a actors -> reached w t (objects a)) ->
  fst (frames (speed_action objects actors false t) Waiting (w0 :: ws)) = Over.
Proof.
  intros objects actors t w0 ws w N K W H. apply not_lasting in N. apply all_known_spawned in K.
  erewrite frames_start by (cbn [speed_action a_start]; rewrite K; reflexivity). cbn [fst].
  apply (table_complete (speed_action objects actors false t) (fun w a => Some (at_goal objects w t a))) with (w := w).
  - reflexivity.
  - intros w' s. apply speed_done. exact N.
  - exact W.
  - discriminate.
  - intros x X. rewrite table_keys in X. right. f_equal. apply at_goal_reached. apply H.
    apply (proj2 (enter_once actors)). exact X.
Qed.

(** With one actor, the action is over exactly when it has reached the target. *)
Theorem C191_one : forall objects actor t w0 ws,
  ~ lasting t ->
  spawned objects [actor] w0 ->
  (fst (frames (speed_action objects [actor] false t) Waiting (w0 :: ws)) = Over <->
   exists w, In w (w0 :: ws) /\ reached w t (objects actor)).
Proof.
  intros objects actor t w0 ws N K. split.
  - destruct (frames _ _ _) as [p r] eqn:E. cbn [fst]. intros ->.
    exact (C191_sound _ _ _ _ _ N E actor (or_introl eq_refl)).
  - intros (w & W & H). apply (C191_complete _ _ _ _ _ w N K W).
    intros a [<-|[]]. exact H.
Qed.

(** One request for each object of each actor, when the action starts, and none later. *)
Theorem C191_requests : forall objects actors step t w0 ws,
  spawned objects actors w0 ->
  exists l, once actors l /\
  snd (frames (speed_action objects actors step t) Waiting (w0 :: ws)) = flat_map objects l.
Proof.
  intros objects actors step t w0 ws K. apply all_known_spawned in K.
  exists (enter actors). split; [apply enter_once|].
  erewrite frames_start by (cbn [speed_action a_start]; rewrite K; reflexivity). cbn [snd].
  rewrite table_asks; [apply app_nil_r|reflexivity].
Qed.

(** A step ends at once. *)
Theorem C191_step : forall objects actors t w0 ws,
  spawned objects actors w0 ->
  fst (frames (speed_action objects actors true t) Waiting (w0 :: ws)) = Over.
Proof.
  intros objects actors t w0 ws K. apply all_known_spawned in K.
  erewrite frames_start by (cbn [speed_action a_start]; rewrite K; reflexivity).
  cbn [fst frames evaluate]. unfold run_once. cbn [speed_action a_run a_done].
  rewrite frames_over. reflexivity.
Qed.

(** A target that is followed continuously never ends. *)
Theorem C191_continuous : forall objects actors t w0 ws,
  lasting t ->
  fst (frames (speed_action objects actors false t) Waiting (w0 :: ws)) <> Over.
Proof.
  intros objects actors t w0 ws N. apply lasting_spec in N.
  assert (forall ws s, fst (frames (speed_action objects actors false t) (Going s) ws) = Going s)
    as G.
  { clear w0 ws. induction ws as [|w ws IH]; intros s; [reflexivity|].
    cbn [frames evaluate]. unfold run_once. cbn [speed_action a_run a_done]. rewrite N.
    cbn [negb]. specialize (IH s). fold (speed_action objects actors false t) in *.
    destruct (frames _ (Going s) ws) as [p r]. exact IH. }
  destruct (all_known objects w0 actors) eqn:K.
  - erewrite frames_start by (cbn [speed_action a_start]; rewrite K; reflexivity).
    cbn [fst]. rewrite G. discriminate.
  - cbn [frames evaluate]. cbn [speed_action a_start]. rewrite K. rewrite frames_failed. discriminate.
Qed.

(** With two actors it is not enough that each has reached the target since the start: the second
    is not looked at while the first has not. *)
Definition seen_at (v : Q) : option seen := Some {| speed := v; state := "follow_lane" |}.
Theorem C191_forgotten_refuted : exists objects actors t w0 ws,
  ~ lasting t /\ spawned objects actors w0 /\
  (forall a, In a actors -> exists w, In w (w0 :: ws) /\ reached w t (objects a)) /\
  fst (frames (speed_action objects actors false t) Waiting (w0 :: ws)) <> Over.
Proof.
  exists (fun a => [a]), [1%nat; 2%nat], (Absolute 10),
    (fun o => match o with 2%nat => seen_at 10 | _ => seen_at 0 end),
    [fun o => match o with 1%nat => seen_at 10 | _ => seen_at 12 end].
  split; [intros []|]. split.
  { intros a o [<-|[<-|[]]] [<-|[]]; discriminate. }
  split.
  - intros a [<-|[<-|[]]].
    + eexists. split; [right; left; reflexivity|]. intros o [<-|[]].
      eexists _, _. split; [reflexivity|]. split; [constructor|reflexivity].
    + eexists. split; [left; reflexivity|]. intros o [<-|[]].
      eexists _, _. split; [reflexivity|]. split; [constructor|reflexivity].
  - vm_compute. discriminate.
Qed.

(** Two cars that are to keep pace with a third. *)
Example C191_example :
  let w v o := match o with 3%nat => seen_at 8 | _ => seen_at v end in
  let a := speed_action (fun a => [a]) [1%nat; 2%nat; 1%nat] false (Delta 3 2 false) in
  spawned (fun a => [a]) [1%nat; 2%nat; 1%nat] (w 0) /\
  fst (frames a Waiting [w 0; w 5]) <> Over /\
  frames a Waiting [w 0; w 5; w 10; w 3] = (Over, [2%nat; 1%nat]).
Proof.
  cbv zeta. split; [|split; [vm_compute; discriminate|vm_compute; reflexivity]].
  intros a o [<-|[<-|[<-|[]]]] [<-|[]]; discriminate.
Qed.

(** ** C192: the entries of a speed profile *)

Section Profile.
Context {L : Type} (objects : nat -> list nat) (l : L) (m : mode) (reference : option nat)
  (entries : list entry).

Lemma reached_entry : forall w e a,
  profile_reached objects w reference e a = true <-> at_entry w reference e (objects a).
Proof.
  intros w e a. unfold profile_reached, at_entry. rewrite forallb_forall. split.
  - intros H o O. specialize (H o O). unfold speed_of in H.
    destruct (w o) as [s|]; [|discriminate]. exists s. split; [reflexivity|].
    destruct reference as [r|]; [|apply equal_spec; exact H].
    destruct (w r) as [s'|]; [|discriminate]. exists s'. split; [reflexivity|].
    apply equal_spec. exact H.
  - intros H o O. destruct (H o O) as (s & E & T). unfold speed_of. rewrite E.
    destruct reference as [r|]; [|apply equal_spec; exact T].
    destruct T as (s' & E' & T). rewrite E'. apply equal_spec. exact T.
Qed.

(** The place of one actor after some frames, and what was asked for it. *)
Fixpoint place (a i : nat) (ws : list sight) : nat :=
  match ws with
  | [] => i
  | w :: ws => place a (snd (fst (profile_step objects l m reference entries w (a, i)))) ws
  end.
Fixpoint asked (a i : nat) (ws : list sight) : list (request L) :=
  match ws with
  | [] => []
  | w :: ws =>
      (snd (profile_step objects l m reference entries w (a, i)) ++
       asked a (snd (fst (profile_step objects l m reference entries w (a, i)))) ws)%list
  end.

Lemma step_actor : forall w a i,
  fst (fst (profile_step objects l m reference entries w (a, i))) = a.
Proof.
  intros w a i. unfold profile_step. destruct (nth_error entries i); [|reflexivity].
  destruct (profile_reached _ _ _ _ _); reflexivity.
Qed.

Definition ok (a : nat) (w : sight) (e : entry) : Prop := at_entry w reference e (objects a).

Lemma place_bound : forall a ws i, (i <= List.length entries -> place a i ws <= List.length entries)%nat.
Proof.
  intros a. induction ws as [|w ws IH]; intros i I; [exact I|]. cbn [place]. apply IH.
  unfold profile_step. destruct (nth_error entries i) eqn:N; [|exact I].
  destruct (profile_reached _ _ _ _ _); [|exact I]. cbn.
  assert (i < List.length entries)%nat by (apply nth_error_Some; congruence). lia.
Qed.

Lemma skipn_nth : forall (i : nat) (e : entry) (es : list entry),
  nth_error es i = Some e -> skipn i es = e :: skipn (S i) es.
Proof.
  induction i as [|i IH]; intros e [|x es] H; try discriminate.
  - injection H as ->. reflexivity.
  - cbn [skipn]. rewrite (IH _ _ H). destruct es; reflexivity.
Qed.

Lemma met_weaken : forall P e es ws, met P (e :: es) ws -> met P es ws.
Proof.
  intros P e es ws H. remember (e :: es) as l0. revert e es Heql0.
  induction H as [ws|e0 es0 w ws O M IH|es0 w ws M IH]; intros e es E.
  - discriminate.
  - injection E as -> ->. apply Met_later. exact M.
  - apply Met_later. exact (IH _ _ E).
Qed.

Lemma met_step : forall P e es w ws,
  met P (e :: es) (w :: ws) -> P w e -> met P es ws.
Proof.
  intros P e es w ws H O. inversion H; subst; [assumption|].
  eapply met_weaken. eassumption.
Qed.

(** Exactly the entries up to the place have been met. *)
Lemma place_met : forall a ws i k,
  (i + k <= List.length entries)%nat ->
  (met (ok a) (firstn k (skipn i entries)) ws <-> (i + k <= place a i ws)%nat).
Proof.
  intros a. induction ws as [|w ws IH]; intros i k K; cbn [place].
  - destruct k as [|k].
    + split; [intros _; lia|intros _; constructor].
    + split; [|intros; lia]. intros H. exfalso.
      destruct (skipn i entries) as [|e es] eqn:E; [|inversion H].
      apply (f_equal (@List.length entry)) in E. rewrite skipn_length in E. cbn in E. lia.
  - unfold profile_step. destruct (nth_error entries i) as [e|] eqn:N.
    + assert (i < List.length entries)%nat as I by (apply nth_error_Some; congruence).
      destruct (profile_reached objects w reference e a) eqn:R; cbn [fst snd].
      * apply reached_entry in R. destruct k as [|k].
        { split; [intros _|intros _; constructor].
          assert (S i <= place a (S i) ws)%nat; [|lia].
          replace (S i) with (S i + 0)%nat at 1 by lia. apply IH; [lia|constructor]. }
        specialize (IH (S i) k). rewrite (skipn_nth _ _ _ N). cbn [firstn].
        split.
        -- intros H. pose proof (met_step _ _ _ _ _ H R) as H'. apply IH in H'; lia.
        -- intros H. apply Met_now; [exact R|]. apply IH; lia.
      * specialize (IH i k K). rewrite <- IH. split; [|apply Met_later].
        intros H. destruct k as [|k]; [constructor|].
        rewrite (skipn_nth _ _ _ N) in *. cbn [firstn] in *. inversion H; subst; [|assumption].
        exfalso. enough (profile_reached objects w reference e a = true) by congruence.
        apply reached_entry. assumption.
    + cbn [fst snd]. apply nth_error_None in N. assert (k = 0)%nat by lia. subst k.
      split; [intros _|intros _; constructor]. specialize (IH i 0%nat K). apply IH. constructor.
Qed.

(** What is asked for an actor: the entries up to and including the one at its place. *)
Lemma asked_entries : forall a ws i,
  asked a i ws =
  flat_map (profile_apply objects l m reference a)
    (firstn (place a i ws - i) (skipn (S i) entries)).
Proof.
  intros a. induction ws as [|w ws IH]; intros i; cbn [asked place].
  - rewrite Nat.sub_diag. reflexivity.
  - rewrite IH. clear IH. unfold profile_step.
    destruct (nth_error entries i) as [e|] eqn:N; [|reflexivity].
    destruct (profile_reached objects w reference e a) eqn:R; [|reflexivity].
    cbn [fst snd].
    assert (i < List.length entries)%nat as I by (apply nth_error_Some; congruence).
    assert (S i <= place a (S i) ws)%nat as P.
    { replace (S i) with (S i + 0)%nat at 1 by lia. apply (place_met a ws (S i) 0); [lia|].
      constructor. }
    destruct (nth_error entries (S i)) as [e'|] eqn:N'.
    + rewrite (skipn_nth _ _ _ N').
      replace (place a (S i) ws - i)%nat with (S (place a (S i) ws - S i)) by lia.
      cbn [firstn flat_map]. reflexivity.
    + apply nth_error_None in N'.
      rewrite (skipn_all2 entries (n := S i)) by lia.
      rewrite (skipn_all2 entries (n := S (S i))) by lia. rewrite !firstn_nil. reflexivity.
Qed.

Lemma run_places : forall w s,
  fst (profile_run objects l m reference entries w s) =
  map (fun p => fst (profile_step objects l m reference entries w p)) s.
Proof.
  intros w. induction s as [|p s IH]; [reflexivity|]. cbn [profile_run map].
  destruct (profile_step objects l m reference entries w p) as [p' r].
  destruct (profile_run objects l m reference entries w s) as [s' r'].
  cbn [fst] in *. rewrite IH. reflexivity.
Qed.

Lemma place_stays : forall a ws i, (List.length entries <= i)%nat -> place a i ws = i.
Proof.
  intros a. induction ws as [|w ws IH]; intros i I; [reflexivity|]. cbn [place].
  unfold profile_step. apply nth_error_None in I. rewrite I. cbn [fst snd]. apply IH.
  apply nth_error_None. exact I.
Qed.

Lemma profile_frames : forall actors ws s,
  (forall p, In p s -> snd p <= List.length entries)%nat ->
  ws <> [] ->
  (fst (frames (profile_action objects l m reference entries actors) (Going s) ws) = Over <->
   forall p, In p s -> place (fst p) (snd p) ws = List.length entries).
Proof.
  intros actors. induction ws as [|w ws IH]; intros s B N; [contradiction N; reflexivity|].
  cbn [frames evaluate]. unfold run_once. cbn [profile_action a_run a_done].
  pose proof (run_places w s) as P.
  destruct (profile_run objects l m reference entries w s) as [s' r]. cbn [fst] in P.
  assert (forall p, In p s' -> snd p <= List.length entries)%nat as B'.
  { intros q Q. rewrite P in Q. apply in_map_iff in Q. destruct Q as ([a i] & <- & Q).
    specialize (B _ Q). cbn [snd] in B. exact (place_bound a [w] i B). }
  assert ((forall p, In p s -> place (fst p) (snd p) (w :: ws) = List.length entries) <->
          (forall p, In p s' -> place (fst p) (snd p) ws = List.length entries)) as Z.
  { rewrite P. split.
    - intros H q Q. apply in_map_iff in Q. destruct Q as ([a i] & <- & Q).
      rewrite step_actor. exact (H _ Q).
    - intros H [a i] Q. cbn [fst snd place].
      pose proof (H _ (in_map (fun p => fst (profile_step objects l m reference entries w p)) _ _ Q))
        as H'.
      cbv beta in H'. rewrite step_actor in H'. exact H'. }
  destruct (forallb (fun p => Nat.eqb (snd p) (List.length entries)) s') eqn:D.
  - rewrite frames_over. cbn [fst]. split; [intros _|reflexivity]. apply Z. intros q Q.
    rewrite forallb_forall in D. specialize (D q Q). apply Nat.eqb_eq in D.
    rewrite place_stays; lia.
  - destruct ws as [|w' ws].
    + cbn [frames fst]. split; [discriminate|]. intros H. exfalso.
      enough (forallb (fun p => Nat.eqb (snd p) (List.length entries)) s' = true) by congruence.
      apply forallb_forall. intros q Q. apply Nat.eqb_eq. exact (proj1 Z H q Q).
    + rewrite Z. rewrite <- (IH s' B' ltac:(discriminate)).
      fold (profile_action objects l m reference entries actors).
      destruct (frames (profile_action objects l m reference entries actors) (Going s') (w' :: ws)).
      reflexivity.
Qed.

Lemma profile_single : forall actors a ws i,
  snd (frames (profile_action objects l m reference entries actors) (Going [(a, i)]) ws) =
  asked a i ws.
Proof.
  intros actors a. induction ws as [|w ws IH]; intros i; [reflexivity|].
  cbn [frames evaluate]. unfold run_once. cbn [profile_action a_run a_done profile_run asked].
  pose proof (step_actor w a i) as S.
  destruct (profile_step objects l m reference entries w (a, i)) as [[a' i'] r] eqn:E.
  cbn [fst snd] in *. subst a'. rewrite !app_nil_r. cbn [forallb snd].
  fold (profile_action objects l m reference entries actors).
  destruct (Nat.eqb i' (List.length entries)) eqn:D; cbn [andb].
  - apply Nat.eqb_eq in D. rewrite frames_over. cbn [snd].
    rewrite asked_entries, place_stays, Nat.sub_diag by lia. reflexivity.
  - specialize (IH i').
    destruct (frames (profile_action objects l m reference entries actors) (Going [(a, i')]) ws).
    cbn [snd] in *. rewrite IH. reflexivity.
Qed.
End Profile.

(** The action is over exactly when every actor has had the speeds of all entries, one after the other,
    each in a later frame than the one before. *)
Theorem C192_ends : forall {L} objects (l : L) m reference entries actors w0 ws,
  spawned objects actors w0 ->
  (fst (frames (profile_action objects l m reference entries actors) Waiting (w0 :: ws)) = Over <->
   forall a, In a actors ->
   met (fun w e => at_entry w reference e (objects a)) entries (w0 :: ws)).
Proof.
  intros L objects l m reference entries actors w0 ws K. apply all_known_spawned in K.
  erewrite frames_start by (cbn [profile_action a_start]; rewrite K; reflexivity). cbn [fst].
  rewrite profile_frames; [|intros p P|discriminate].
  2: { apply in_map_iff in P. destruct P as (a & <- & _). cbn. lia. }
  assert (forall a, met (fun w e => at_entry w reference e (objects a)) entries (w0 :: ws) <->
          place objects l m reference entries a 0 (w0 :: ws) = List.length entries) as Z.
  { intros a. pose proof (place_met objects l m reference entries a (w0 :: ws) 0
      (List.length entries) (Nat.le_refl _)) as P.
    cbn [skipn] in P. rewrite firstn_all in P. unfold ok in P. rewrite P.
    pose proof (place_bound objects l m reference entries a (w0 :: ws) 0 (Nat.le_0_l _)). lia. }
  split.
  - intros H a A. apply Z. apply (H (a, 0%nat)). apply in_map_iff. exists a. split; [reflexivity|].
    apply (proj2 (enter_once actors)). exact A.
  - intros H p P. apply in_map_iff in P. destruct P as (a & <- & A). apply Z. apply H.
    apply (proj2 (enter_once actors)). exact A.
Qed.

(** For one car: the entries are asked for in their order, the first at once and each of the others
    only when the ones before it have been met; with the limits of the action, with the given time or,
    without one, until the speed is reached. *)
Theorem C192_order : forall {L} objects (l : L) m reference entries a o w0 ws,
  spawned objects [a] w0 -> objects a = [o] ->
  exists k, (k <= List.length entries)%nat /\
  met (fun w e => at_entry w reference e [o]) (firstn k entries) (w0 :: ws) /\
  (k < List.length entries ->
   ~ met (fun w e => at_entry w reference e [o]) (firstn (S k) entries) (w0 :: ws))%nat /\
  snd (frames (profile_action objects l m reference entries [a]) Waiting (w0 :: ws)) =
  flat_map (fun e =>
    [Limits o l;
     Speed o reference (e_speed e)
       (match m with Position => Linear | Follow => Auto end)
       (match e_time e, m with
        | Some t, _ => Within t
        | None, Position => Rate 10
        | None, Follow => Free
        end)
       (match e_time e with Some _ => false | None => true end)]) (firstn (S k) entries).
Proof.
  intros L objects l m reference entries a o w0 ws K O. apply all_known_spawned in K.
  exists (place objects l m reference entries a 0 (w0 :: ws)).
  pose proof (place_bound objects l m reference entries a (w0 :: ws) 0 (Nat.le_0_l _)) as B.
  split; [exact B|].
  pose proof (fun k => place_met objects l m reference entries a (w0 :: ws) 0 k) as P.
  cbn [skipn] in P. unfold ok in P. rewrite O in P.
  split; [|split].
  - apply P; lia.
  - intros H M. apply P in M; lia.
  - erewrite frames_start by (cbn [profile_action a_start]; rewrite K; reflexivity).
    assert (enter [a] = [a]) as -> by reflexivity. cbn [map snd].
    rewrite profile_single, asked_entries, Nat.sub_0_r.
    assert (forall e, profile_apply objects l m reference a e =
      [Limits o l;
       Speed o reference (e_speed e) (match m with Position => Linear | Follow => Auto end)
         (match e_time e, m with
          | Some t, _ => Within t | None, Position => Rate 10 | None, Follow => Free end)
         (match e_time e with Some _ => false | None => true end)]) as A.
    { intros e. unfold profile_apply, profile_transition, profile_constraint, untimed. rewrite O.
      destruct (e_time e), m; reflexivity. }
    destruct entries as [|e es]; [cbn [skipn]; rewrite !firstn_nil; reflexivity|].
    cbn [flat_map firstn skipn]. rewrite app_nil_r, A. f_equal.
    apply flat_map_ext. exact A.
Qed.

(** The acceleration that a profile without times asks for in the mode "position" is not the one of the
    action's constraints: here the maximum is 1 and 10 is asked for. *)
Theorem C192_rate_refuted : exists objects entries w0,
  spawned objects [1%nat] w0 /\
  In (Speed 1 None 20 Linear (Rate 10) true)
    (snd (frames (profile_action objects (1 : Q) Position None entries [1%nat]) Waiting [w0])).
Proof.
  exists (fun a => [a]), [{| e_speed := 20; e_time := None |}], (fun _ => seen_at 0).
  split; [intros a o _ _; discriminate|]. vm_compute. tauto.
Qed.

(** A second entry that holds already in the frame in which the first is met waits for the next frame. *)
Example C192_example :
  let a := profile_action (fun a => [a]) tt Follow None
             [{| e_speed := 5; e_time := Some 2 |}; {| e_speed := 5; e_time := None |}] [1%nat] in
  let w v (_ : nat) := seen_at v in
  spawned (fun a => [a]) [1%nat] (w 0) /\
  frames a Waiting [w 0; w 5] =
    (Going [(1%nat, 1%nat)],
     [Limits 1 tt; Speed 1 None 5 Auto (Within 2) false; Limits 1 tt; Speed 1 None 5 Auto Free true])
  /\ fst (frames a Waiting [w 0; w 5; w 5]) = Over.
Proof.
  cbv zeta. split; [intros a o _ _; discriminate|]. split; vm_compute; reflexivity.
Qed.

(** ** C193: when a lane change action is over *)

Lemma lane_changing_spec : forall w o b,
  lane_changing w o = Some b -> (b = true <-> changing w o).
Proof.
  intros w o b H. unfold lane_changing in H. destruct (w o) as [s|] eqn:E; [|discriminate].
  injection H as <-. rewrite String.eqb_eq. unfold changing. rewrite E. split.
  - intros T. exists s. split; [reflexivity|exact T].
  - intros (s' & S' & T). congruence.
Qed.

Lemma minimum_total : forall w l,
  (forall o, In o l -> w o <> None) ->
  exists b, minimum (map (lane_changing w) l) = Some b /\
  (b = true <-> forall o, In o l -> changing w o).
Proof.
  intros w. induction l as [|o l IH]; intros N.
  - exists true. split; [reflexivity|]. split; [intros _ o []|reflexivity].
  - destruct IH as (b & E & B); [intros x X; apply N; right; exact X|].
    assert (exists c, lane_changing w o = Some c) as (c & C).
    { unfold lane_changing. pose proof (N o (or_introl eq_refl)).
      destruct (w o); [eexists; reflexivity|contradiction]. }
    pose proof (lane_changing_spec _ _ _ C) as Z.
    cbn [map minimum]. rewrite C, E. exists (c && b). split; [reflexivity|].
    rewrite andb_true_iff, B, Z. split.
    + intros [X Y] x [<-|H]; auto.
    + intros H. split; [apply H; left; reflexivity|intros x X; apply H; right; exact X].
Qed.

Lemma lane_check : forall objects w a,
  (forall o, In o (objects a) -> w o <> None) ->
  exists b, option_map negb (is_lane_changing objects w a) = Some b /\
  (b = true <-> ~ forall o, In o (objects a) -> changing w o).
Proof.
  intros objects w a N. destruct (minimum_total w (objects a) N) as (b & E & B).
  unfold is_lane_changing. rewrite E. exists (negb b). split; [reflexivity|].
  rewrite <- B. destruct b; cbn; split; congruence.
Qed.

(** The action is over in the frame in which it starts, before the simulator has acted on the
    requests, unless all objects of some actor are changing lanes already. *)
Theorem C193_at_once : forall objects actors w ws,
  spawned objects actors w ->
  (forall a, In a actors -> exists o, In o (objects a) /\ ~ changing w o) ->
  fst (frames (lane_change_action objects actors) Waiting (w :: ws)) = Over /\
  fst (evaluate (lane_change_action objects actors) w Waiting) = Over.
Proof.
  intros objects actors w ws K H. pose proof K as K'. apply all_known_spawned in K'.
  assert (forall ws, fst (frames (lane_change_action objects actors) Waiting (w :: ws)) = Over)
    as Z.
  { intros ws'. erewrite frames_start by (cbn [lane_change_action a_start]; rewrite K'; reflexivity).
    cbn [fst frames evaluate]. unfold run_once. cbn [lane_change_action a_run a_done].
    assert (forall l, (forall a, In a l -> In a actors) -> exists t,
      all_of (fun a => option_map negb (is_lane_changing objects w a))
        (map (fun a => (a, false)) l) = Some (t, true)) as G.
    { induction l as [|a l IH]; intros I; [eexists; reflexivity|]. cbn [map all_of].
      destruct IH as (t & T); [intros x X; apply I; right; exact X|].
      destruct (lane_check objects w a) as (b & E & B).
      { intros o O. apply (K a); [apply I; left; reflexivity|exact O]. }
      assert (b = true) as ->.
      { apply B. intros A. destruct (H a (I a (or_introl eq_refl))) as (o & O & N).
        exact (N (A o O)). }
      rewrite E, T. eexists. reflexivity. }
    unfold table. destruct (G (enter actors)) as (t & T).
    { intros a A. apply (proj2 (enter_once actors)). exact A. }
    rewrite T. rewrite frames_over. reflexivity. }
  split; [apply Z|]. specialize (Z []). cbn [frames] in Z.
  destruct (evaluate (lane_change_action objects actors) w Waiting). exact Z.
Qed.

Definition seen_in (s : string) : option seen := Some {| speed := 10; state := s |}.
(** So the action does not last as long as the lane change: it is over while the car still drives along its
    lane, and over in every later frame, in which the car is changing lanes. *)
Theorem C193_duration_refuted : exists objects w ws,
  spawned objects [1%nat] w /\
  (forall w', In w' ws -> changing w' 1) /\ ws <> [] /\
  fst (frames (lane_change_action objects [1%nat]) Waiting (w :: ws)) = Over.
Proof.
  exists (fun a => [a]), (fun _ => seen_in "follow_lane"), [fun _ => seen_in "lane_change"].
  split; [intros a o _ _; discriminate|]. split; [|split; [discriminate|]].
  - intros w' [<-|[]]. eexists. split; reflexivity.
  - vm_compute. reflexivity.
Qed.

(** If an object of the actor disappears while all of them are changing lanes, the scenario fails. *)
Theorem C193_gone : forall objects a o w0 w ws,
  spawned objects [a] w0 -> (forall o, In o (objects a) -> changing w0 o) ->
  In o (objects a) -> w o = None ->
  fst (frames (lane_change_action objects [a]) Waiting (w0 :: w :: ws)) = Failed.
Proof.
  intros objects a o w0 w ws K H I N. pose proof K as K'. apply all_known_spawned in K'.
  erewrite frames_start by (cbn [lane_change_action a_start]; rewrite K'; reflexivity). cbn [fst].
  assert (enter [a] = [a]) as E by reflexivity. unfold table. rewrite E. cbn [map].
  destruct (lane_check objects w0 a) as (b & C & B).
  { intros x X. apply (K a); [left; reflexivity|exact X]. }
  assert (b = false) as -> by (destruct b; [exfalso; apply (proj1 B eq_refl); exact H|reflexivity]).
  assert (minimum (map (lane_changing w) (objects a)) = None) as M.
  { revert I. generalize (objects a). induction l as [|x l IH]; intros []; cbn [map minimum].
    - subst x. unfold lane_changing at 1. rewrite N. reflexivity.
    - rewrite (IH H0). destruct (lane_changing w x); reflexivity. }
  cbn [frames evaluate]. unfold run_once. cbn [lane_change_action a_run a_done all_of].
  rewrite C. cbn [frames evaluate]. unfold run_once. cbn [lane_change_action a_run a_done all_of].
  unfold is_lane_changing. rewrite M. cbn [option_map]. rewrite frames_failed. reflexivity.
Qed.

(** One actor whose objects are all changing lanes when the action starts: the action is over as
    soon as one of them is not. *)
Theorem C193_lasts : forall objects a w0 ws,
  (forall w, In w (w0 :: ws) -> spawned objects [a] w) ->
  (fst (frames (lane_change_action objects [a]) Waiting (w0 :: ws)) = Over <->
   exists w, In w (w0 :: ws) /\ ~ forall o, In o (objects a) -> changing w o).
Proof.
  intros objects a w0 ws K. pose proof (K w0 (or_introl eq_refl)) as K'.
  apply all_known_spawned in K'.
  set (chk := fun w a => option_map negb (is_lane_changing objects w a)).
  erewrite frames_start by (cbn [lane_change_action a_start]; rewrite K'; reflexivity). cbn [fst].
  assert (enter [a] = [a]) as E by reflexivity. unfold table. rewrite E. cbn [map]. split.
  - destruct (frames _ _ _) as [p r] eqn:F. cbn [fst]. intros ->.
    destruct (table_sound (lane_change_action objects [a]) chk (fun w s => eq_refl) (fun w s => eq_refl) _ _ _ F a) as
      [[H|[]]|(w & W & H)]; [left; reflexivity|discriminate|].
    exists w. split; [exact W|].
    destruct (lane_check objects w a) as (b & B & Z).
    { intros o O. apply (K w W a); [left; reflexivity|exact O]. }
    apply Z. unfold chk in H. congruence.
  - intros (w & W & H). apply (table_complete (lane_change_action objects [a]) chk) with (w := w); try reflexivity.
    + exact W.
    + intros w' x W' X. cbn in X. destruct X as [<-|[]].
      destruct (lane_check objects w' a) as (b & B & _).
      { intros o O. apply (K w' W' a); [left; reflexivity|exact O]. }
      unfold chk. rewrite B. discriminate.
    + intros x X. cbn in X. destruct X as [<-|[]]. right.
      destruct (lane_check objects w a) as (b & B & Z).
      { intros o O. apply (K w W a); [left; reflexivity|exact O]. }
      unfold chk. rewrite B. f_equal. apply Z. exact H.
Qed.

(** Not all members of a selection have to be finished. *)
Theorem C193_group_refuted : exists objects w0 w,
  spawned objects [1%nat] w0 /\ spawned objects [1%nat] w /\
  (forall o, In o (objects 1%nat) -> changing w0 o) /\
  (exists o, In o (objects 1%nat) /\ changing w o) /\
  fst (frames (lane_change_action objects [1%nat]) Waiting [w0; w]) = Over.
Proof.
  exists (fun _ => [10%nat; 11%nat]), (fun _ => seen_in "lane_change"),
    (fun o => if Nat.eqb o 10 then seen_in "follow_lane" else seen_in "lane_change").
  split; [intros a o _ _; discriminate|]. split.
  { intros a o _ [<-|[<-|[]]]; discriminate. }
  split; [intros o _; eexists; split; reflexivity|]. split.
  - exists 11%nat. split; [right; left; reflexivity|eexists; split; reflexivity].
  - vm_compute. reflexivity.
Qed.

(** An actor without objects, such as an empty selection: the action never ends. *)
Theorem C193_empty : forall objects actors a ws,
  In a actors -> objects a = [] ->
  fst (frames (lane_change_action objects actors) Waiting ws) <> Over.
Proof.
  intros objects actors a ws A O. destruct ws as [|w ws]; [discriminate|].
  destruct (all_known objects w actors) eqn:K.
  2: { cbn [frames evaluate]. cbn [lane_change_action a_start]. rewrite K. rewrite frames_failed.
       discriminate. }
  erewrite frames_start by (cbn [lane_change_action a_start]; rewrite K; reflexivity). cbn [fst].
  destruct (frames _ _ _) as [p r] eqn:F. cbn [fst]. intros ->.
  pose proof (fun x => table_sound (lane_change_action objects actors) (fun w a => option_map negb (is_lane_changing objects w a))
    (fun w s => eq_refl) (fun w s => eq_refl) _ _ _ F x) as G.
  rewrite table_keys in G. destruct (G a) as [H|(w' & _ & H)].
  - apply (proj2 (enter_once actors)). exact A.
  - exact (table_false _ _ H).
  - unfold is_lane_changing in H. rewrite O in H. discriminate.
Qed.

(** One request for each object of each actor, when the action starts, and none later. *)
Theorem C193_requests : forall objects actors w0 ws,
  spawned objects actors w0 ->
  exists l, once actors l /\
  snd (frames (lane_change_action objects actors) Waiting (w0 :: ws)) = flat_map objects l.
Proof.
  intros objects actors w0 ws K. apply all_known_spawned in K.
  exists (enter actors). split; [apply enter_once|].
  erewrite frames_start by (cbn [lane_change_action a_start]; rewrite K; reflexivity). cbn [snd].
  rewrite table_asks; [apply app_nil_r|reflexivity].
Qed.

Example C193_example :
  let follow (_ : nat) := seen_in "follow_lane" in
  let change (_ : nat) := seen_in "lane_change" in
  let a := lane_change_action (fun a => [a]) [1%nat; 2%nat] in
  frames a Waiting [follow; change] = (Over, [1%nat; 2%nat]) /\
  fst (frames a Waiting [change; change]) <> Over /\
  fst (frames a Waiting [change; change; follow]) = Over.
Proof.
  cbv zeta. split; [vm_compute; reflexivity|]. split; [vm_compute; discriminate|].
  vm_compute. reflexivity.
Qed.

(** ** C194: the actions of Init *)

Lemma starts_app : forall l l', starts (l ++ l') = (starts l ++ starts l')%list.
Proof. intros. unfold starts. apply flat_map_app. Qed.
Lemma starts_start : forall l, starts (map (fun i => Start (i_id i)) l) = map i_id l.
Proof.
  induction l as [|i l IH]; [reflexivity|]. unfold starts in *. cbn [map flat_map app].
  rewrite IH. reflexivity.
Qed.
Lemma starts_run : forall l, starts (map (fun i => Run (i_id i)) l) = [].
Proof. induction l as [|i l IH]; [reflexivity|]. exact IH. Qed.

Lemma init_later : forall x ws p,
  p <> Waiting -> starts (snd (frames (init_action x) p ws)) = [].
Proof.
  intros x. induction ws as [|w ws IH]; intros p P; [reflexivity|].
  cbn [frames]. destruct p as [|s| |]; [contradiction P; reflexivity| | |].
  - cbn [evaluate]. unfold run_once. cbn [init_action a_run a_done].
    fold (init_action x).
    destruct (init_done w x).
    + specialize (IH Over ltac:(discriminate)). destruct (frames (init_action x) Over ws) as [p r].
      cbn [snd] in *. rewrite starts_app, starts_run. exact IH.
    + specialize (IH (Going tt) ltac:(discriminate)).
      destruct (frames (init_action x) (Going tt) ws) as [p r].
      cbn [snd] in *. rewrite starts_app, starts_run. exact IH.
  - cbn [evaluate]. specialize (IH Over P). destruct (frames (init_action x) Over ws). exact IH.
  - cbn [evaluate]. specialize (IH Failed P). destruct (frames (init_action x) Failed ws). exact IH.
Qed.

Lemma init_starts : forall x w ws,
  starts (snd (frames (init_action x) Waiting (w :: ws))) = map i_id (lasting_items x).
Proof.
  intros x w ws. rewrite (frames_start (init_action x) w ws tt _ eq_refl). cbn [snd].
  rewrite starts_app, starts_start, init_later by discriminate. apply app_nil_r.
Qed.

Lemma filter_split : forall (f : item -> bool) l,
  Permutation (filter f l ++ filter (fun i => negb (f i)) l) l.
Proof.
  intros f. induction l as [|i l IH]; [constructor|]. cbn [filter].
  destruct (f i); cbn [negb app].
  - constructor. exact IH.
  - apply Permutation_sym, Permutation_cons_app, Permutation_sym. exact IH.
Qed.
Lemma filter_concat : forall (f : item -> bool) ls,
  flat_map (fun p => filter f p) ls = filter f (concat ls).
Proof.
  intros f. induction ls as [|l ls IH]; [reflexivity|]. cbn [flat_map concat].
  rewrite filter_app, IH. reflexivity.
Qed.

(** Before the simulation time starts, the global actions and those that end immediately are started, in the
    order global, user defined, private, and then run; nothing else is. *)
Theorem C194_before : forall x,
  starts (prepare x) =
  map i_id (globals x ++ filter i_immediate (users x) ++ filter i_immediate (concat (privates x))) /\
  exists l, prepare x = (map Start l ++ map Run l)%list.
Proof.
  intros x. unfold prepare. rewrite starts_app, starts_start, starts_run, app_nil_r.
  unfold immediate_items. rewrite filter_concat. split; [reflexivity|].
  exists (map i_id (globals x ++ filter i_immediate (users x) ++
                    filter i_immediate (concat (privates x)))).
  rewrite !map_map. reflexivity.
Qed.

(** Every action of Init is started exactly once, before the simulation time starts or in the first
    frame. *)
Theorem C194_once : forall x w ws,
  Permutation
    (starts (prepare x) ++ starts (snd (frames (init_action x) Waiting (w :: ws))))
    (map i_id (items x)).
Proof.
  intros x w ws. rewrite (proj1 (C194_before x)), init_starts, <- map_app.
  apply Permutation_map. unfold lasting_items, items. rewrite filter_concat.
  rewrite <- app_assoc. apply Permutation_app_head.
  set (u := users x). set (p := concat (privates x)).
  set (n := fun i => negb (i_immediate i)).
  transitivity ((filter i_immediate u ++ filter n u) ++ (filter i_immediate p ++ filter n p))%list.
  - rewrite <- !app_assoc. apply Permutation_app_head.
    rewrite !app_assoc. apply Permutation_app_tail. apply Permutation_app_comm.
  - apply Permutation_app; apply filter_split.
Qed.

(** Not in the order of the document: an action that lasts comes after those that end immediately, here a
    speed change that is listed before the teleport. *)
Theorem C194_order_refuted : exists x w,
  (starts (prepare x) ++ starts (snd (frames (init_action x) Waiting [w])))%list <>
  map i_id (items x).
Proof.
  exists {| globals := []; users := [];
            privates := [[{| i_id := 1; i_immediate := false |}; {| i_id := 2; i_immediate := true |}]] |},
    (fun _ => true).
  vm_compute. discriminate.
Qed.

(** Init is over in the first frame in which all its actions are accomplished. *)
Theorem C194_ends : forall x w0 ws,
  fst (frames (init_action x) Waiting (w0 :: ws)) = Over <->
  exists w, In w (w0 :: ws) /\ forall i, In i (items x) -> w (i_id i) = true.
Proof.
  intros x w0 ws.
  assert (forall w, init_done w x = true <-> forall i, In i (items x) -> w (i_id i) = true) as D.
  { intros w. unfold init_done, items. rewrite !andb_true_iff, !forallb_forall. split.
    - intros ((G & U) & P) i I. apply in_app_or in I. destruct I as [I|I]; [exact (G i I)|].
      apply in_app_or in I. destruct I as [I|I]; [exact (U i I)|].
      apply in_concat in I. destruct I as (l & L & I). specialize (P l L).
      rewrite forallb_forall in P. exact (P i I).
    - intros H. split; [split|].
      + intros i I. apply H. apply in_or_app. left. exact I.
      + intros i I. apply H. apply in_or_app. right. apply in_or_app. left. exact I.
      + intros l L. apply forallb_forall. intros i I. apply H.
        apply in_or_app. right. apply in_or_app. right. apply in_concat. exists l. split; assumption. }
  assert (forall ws, fst (frames (init_action x) (Going tt) ws) = Over <->
          exists w, In w ws /\ init_done w x = true) as G.
  { induction ws0 as [|w ws' IH].
    - split; [discriminate|intros (w & [] & _)].
    - cbn [frames evaluate]. unfold run_once. cbn [init_action a_run a_done]. fold (init_action x).
      destruct (init_done w x) eqn:E.
      + rewrite frames_over. cbn [fst]. split; [intros _|reflexivity].
        exists w. split; [left; reflexivity|exact E].
      + destruct (frames (init_action x) (Going tt) ws') as [p r]. cbn [fst] in *. rewrite IH.
        split; intros (w' & W & H).
        * exists w'. split; [right; exact W|exact H].
        * destruct W as [<-|W]; [congruence|]. exists w'. split; assumption. }
  rewrite (frames_start (init_action x) w0 ws tt _ eq_refl). cbn [fst]. rewrite G.
  split; intros (w & W & H); exists w; (split; [exact W|]); apply D; exact H.
Qed.

(** An EnvironmentAction is never accomplished (S/environment_action.cpp:35): with one in it, Init
    does not end. *)
Theorem C194_environment : forall x i w0 ws,
  In i (items x) -> (forall w, In w (w0 :: ws) -> w (i_id i) = false) ->
  fst (frames (init_action x) Waiting (w0 :: ws)) <> Over.
Proof.
  intros x i w0 ws I H E. apply C194_ends in E. destruct E as (w & W & E).
  specialize (E i I). rewrite (H w W) in E. discriminate.
Qed.

Example C194_example :
  let x := {| globals := [{| i_id := 1; i_immediate := true |}];
              users := [{| i_id := 2; i_immediate := false |}; {| i_id := 3; i_immediate := true |}];
              privates := [[{| i_id := 4; i_immediate := false |}; {| i_id := 5; i_immediate := true |}]] |} in
  prepare x = [Start 1; Start 3; Start 5; Run 1; Run 3; Run 5] /\
  frames (init_action x) Waiting [fun i => negb (Nat.eqb i 4); fun _ => true] =
    (Over, [Start 2; Start 4; Run 2; Run 4; Run 2; Run 4]).
Proof. cbv zeta. split; vm_compute; reflexivity. Qed.

(** ** C195: a waiting action *)

(** The action that only waits is over in the first frame whose time lies after the end of the
    duration. *)
Theorem C195_ends : forall duration t0 ts,
  fst (frames (waiting_action duration) Waiting (t0 :: ts)) = Over <->
  exists t, In t (t0 :: ts) /\ t0 + duration < t.
Proof.
  intros duration t0 ts.
  rewrite (frames_start (waiting_action duration) t0 ts (t0 + duration) [] eq_refl). cbn [fst].
  generalize (t0 + duration). intros e. generalize (t0 :: ts). clear.
  induction l as [|t ts IH].
  - split; [discriminate|intros (t & [] & _)].
  - cbn [frames evaluate]. unfold run_once. cbn [waiting_action a_run a_done].
    fold (waiting_action duration).
    destruct (Qle_bool t e) eqn:E; cbn [negb].
    + destruct (frames (waiting_action duration) (Going e) ts) as [p r]. cbn [fst] in *.
      rewrite IH. apply Qle_bool_iff in E. split; intros (t' & T & H).
      * exists t'. split; [right; exact T|exact H].
      * destruct T as [<-|T]; [exfalso; exact (Qlt_not_le _ _ H E)|]. exists t'. split; assumption.
    + rewrite frames_over. cbn [fst]. split; [intros _|reflexivity].
      exists t. split; [left; reflexivity|]. apply Qnot_le_lt. intros H.
      apply Qle_bool_iff in H. congruence.
Qed.

Example C195_example :
  fst (frames (waiting_action 3) Waiting [1; 2; 3; 4]) <> Over /\
  fst (frames (waiting_action 3) Waiting [1; 2; 3; 4; 4 + (1 # 20)]) = Over.
Proof. split; vm_compute; [discriminate|reflexivity]. Qed.

Print Assumptions C191_sound.
Print Assumptions C191_complete.
Print Assumptions C191_one.
Print Assumptions C191_requests.
Print Assumptions C191_step.
Print Assumptions C191_continuous.
Print Assumptions C191_forgotten_refuted.
Print Assumptions C192_ends.
Print Assumptions C192_order.
Print Assumptions C192_rate_refuted.
Print Assumptions C193_at_once.
Print Assumptions C193_duration_refuted.
Print Assumptions C193_lasts.
Print Assumptions C193_group_refuted.
Print Assumptions C193_empty.
Print Assumptions C193_requests.
Print Assumptions C194_before.
Print Assumptions C194_once.
Print Assumptions C194_order_refuted.
Print Assumptions C194_ends.
Print Assumptions C194_environment.
Print Assumptions C195_ends.
