(** * C104-C106: Autoware's state, cooperation commands, the end of the Autoware process. *)
From Coq Require Import ZArith List Bool Arith Lia.
From Verif Require Import M_Concealer.
Import ListNotations.

(** ** C104: the state shown for what Autoware reports *)

(** All three topics have said something definite. *)
Definition known (m : messages) : Prop :=
  m_localization m <> LUnknown /\ m_route m <> RUnknown /\ m_mode m <> MUnknown.
Definition localized (m : messages) : Prop := known m /\ m_localization m = LInitialized.
Definition routed (m : messages) : Prop := m_route m = RSet \/ m_route m = RChanging.
(** A mode in which Autoware may hold the controls. *)
Definition moving_mode (m : messages) : Prop :=
  m_mode m = MAutonomous \/ m_mode m = MLocal \/ m_mode m = MRemote.
Definition held (m : messages) : Prop :=
  m_mode m = MStop \/ (moving_mode m /\ m_control m = false).
Definition two_seconds : Z := 2000000000.

Ltac shown :=
  match goal with
  | |- _ /\ _ => split; shown
  | |- _ \/ _ => first [left; solve [shown] | right; solve [shown]]
  | |- _ => first [reflexivity | discriminate | lia]
  end.
Ltac excluded :=
  repeat match goal with
         | H : ?a <> ?a |- _ => destruct (H eq_refl)
         | H : _ <> _ |- _ => clear H
         | H : _ = _ |- _ => first [discriminate H | clear H]
         | H : _ /\ _ |- _ => destruct H
         | H : _ \/ _ |- _ => destruct H
         end;
  first [reflexivity | lia].
Ltac legacy_cases m :=
  unfold localized, known, routed, held, moving_mode, legacy;
  change 2000000000%Z with two_seconds; generalize two_seconds; intros;
  destruct m as [lo ro st mo co av];
  cbn [m_localization m_route m_route_stamp m_mode m_control m_available];
  destruct lo; cbn iota; destruct ro; cbn iota; destruct mo; cbn iota; destruct co, av; cbn iota;
  try (match goal with |- context [(?a <? ?b)%Z] => destruct (Z.ltb_spec a b) end);
  (split; [let H := fresh in intros H; first [discriminate H | shown] | intros; excluded]).

Theorem C104_driving m now : legacy m now = Driving <->
  localized m /\ routed m /\ moving_mode m /\ m_control m = true.
Proof. legacy_cases m. Qed.

Theorem C104_waiting_for_engage m now : legacy m now = WaitingForEngage <->
  localized m /\ routed m /\ held m /\ m_available m = true.
Proof. legacy_cases m. Qed.

Theorem C104_planning m now : legacy m now = Planning <->
  localized m /\ routed m /\ held m /\ m_available m = false.
Proof. legacy_cases m. Qed.

Theorem C104_arrived m now : legacy m now = ArrivedGoal <->
  localized m /\ m_route m = RArrived /\ (now < m_route_stamp m + two_seconds)%Z.
Proof. legacy_cases m. Qed.

Theorem C104_waiting_for_route m now : legacy m now = WaitingForRoute <->
  localized m /\
  (m_route m = RUnset \/ (m_route m = RArrived /\ (m_route_stamp m + two_seconds <= now)%Z)).
Proof. legacy_cases m. Qed.

Theorem C104_initializing m now : legacy m now = Initializing <->
  ~ known m \/ m_localization m = LUninitialized \/ m_localization m = LInitializing.
Proof.
  unfold known, legacy. destruct m as [lo ro st mo co av];
    cbn [m_localization m_route m_route_stamp m_mode m_control m_available].
  destruct lo; cbn iota; destruct ro; cbn iota; destruct mo; cbn iota;
    try (destruct co, av); cbn iota; try (destruct (_ <? _)%Z); split; intros H;
    try discriminate H; try reflexivity;
    try (left; intros (A & B & C); congruence); try (right; now left); try (right; now right);
    exfalso; destruct H as [H|[H|H]]; try discriminate H; apply H; repeat split; discriminate.
Qed.

Theorem C104_never_finalizing m now : legacy m now <> Finalizing.
Proof.
  unfold legacy. destruct m as [lo ro st mo co av]; cbn [m_localization m_route m_route_stamp m_mode m_control m_available];
  destruct lo; cbn iota; destruct ro; cbn iota; destruct mo; cbn iota; destruct co, av; try discriminate;
    destruct (_ <? _)%Z; discriminate.
Qed.

Example C104_example :
  legacy {| m_localization := LInitialized; m_route := RArrived; m_route_stamp := 5000000000;
            m_mode := MStop; m_control := true; m_available := true |} 6999999999 = ArrivedGoal /\
  legacy {| m_localization := LInitialized; m_route := RArrived; m_route_stamp := 5000000000;
            m_mode := MStop; m_control := true; m_available := true |} 7000000000 = WaitingForRoute.
Proof. split; reflexivity. Qed.

(** ** C105: cooperation commands *)

(** The same module, the same request of it, with the same command. *)
Definition same (a b : status) : Prop :=
  c_module a = c_module b /\ c_instance a = c_instance b /\ c_uuid a = c_uuid b /\
  c_command a = c_command b.

(** [x] is a request of the module for which the command is news. *)
Definition eligible (command module : nat) (x : status) : Prop :=
  c_module x = module /\ c_command x <> command /\ (-20000 <= c_distance x)%Z.

(** What was sent before the [i]-th call. *)
Definition sent_before (results : list (option (status * nat))) (i : nat) (x : status) : Prop :=
  exists j c, j < i /\ nth_error results j = Some (Some (x, c)).

Lemma same_spec a b : same_status a b = true <-> same a b.
Proof.
  unfold same_status, same. rewrite !andb_true_iff, !Nat.eqb_eq. tauto.
Qed.
Lemma valid_spec x c m : valid_status x c m = true <-> eligible c m x.
Proof.
  unfold valid_status, eligible. rewrite !andb_true_iff, Nat.eqb_eq, negb_true_iff, Nat.eqb_neq, Z.leb_le.
  intuition congruence.
Qed.

Lemma used_spec used x :
  negb (existsb (fun u => same_status u x) used) = true <-> forall u, In u used -> ~ same u x.
Proof.
  rewrite negb_true_iff. split.
  - intros H u I S. apply same_spec in S.
    assert (K : existsb (fun u => same_status u x) used = true) by (apply existsb_exists; eauto). congruence.
  - intros H. destruct (existsb _ _) eqn:E; [|reflexivity]. apply existsb_exists in E.
    destruct E as (u & I & S). apply same_spec in S. destruct (H u I S).
Qed.

Lemma cooperation_nth h : forall used i array command module,
  nth_error h i = Some (array, (command, module)) ->
  exists used' r, nth_error (cooperation used h) i = Some r /\
    (forall u, In u used' <-> In u used \/ sent_before (cooperation used h) i u) /\
    r = match send_cooperate used' array command module with Some (x, c, _) => Some (x, c) | None => None end.
Proof.
  induction h as [|[a [c m]] h IH]; intros used i array command module H; [destruct i; discriminate|].
  destruct i as [|i].
  - injection H as -> -> ->. cbn [cooperation].
    exists used. destruct (send_cooperate used array command module) as [[[x k] u']|] eqn:E;
      (eexists; split; [reflexivity|]; split; [|reflexivity]);
      intros u; (split; [auto|intros [K|(j & ? & K & _)]; [auto|lia]]).
  - cbn [nth_error] in H. cbn [cooperation].
    destruct (send_cooperate used a c m) as [[[x k] u']|] eqn:E.
    + assert (U : u' = used ++ [x]).
      { unfold send_cooperate in E. destruct c, m; try discriminate.
        destruct (find _ _); [|discriminate]. now injection E as -> _ <-. }
      destruct (IH u' i array command module H) as (used' & r & N & S & R).
      exists used', r. split; [exact N|]. split; [|exact R].
      intros u. rewrite S, U, in_app_iff. cbn [In]. split.
      * intros [[K|[->|[]]]|(j & k' & L & K)]; auto.
        -- right. exists 0, k. split; [lia|reflexivity].
        -- right. exists (Datatypes.S j), k'. split; [lia|exact K].
      * intros [K|(j & k' & L & K)]; auto. destruct j as [|j]; cbn in K.
        -- injection K as <- _. auto.
        -- right. exists j, k'. split; [lia|exact K].
    + destruct (IH used i array command module H) as (used' & r & N & S & R).
      exists used', r. split; [exact N|]. split; [|exact R].
      intros u. rewrite S. split.
      * intros [K|(j & k' & L & K)]; auto. right. exists (Datatypes.S j), k'. split; [lia|exact K].
      * intros [K|(j & k' & L & K)]; auto. destruct j as [|j]; cbn in K; [discriminate|].
        right. exists j, k'. split; [lia|exact K].
Qed.

(** A call succeeds if a status of the last message is eligible and no command was sent for it, the
    first such; the command is the one asked for. Otherwise it throws. *)
Theorem C105_sent h i array command module x k :
  nth_error h i = Some (array, (command, module)) ->
  nth_error (cooperation [] h) i = Some (Some (x, k)) ->
  exists m before after, command = Some k /\ module = Some m /\ array = before ++ x :: after /\
    eligible k m x /\ (forall u, sent_before (cooperation [] h) i u -> ~ same u x) /\
    (forall y, In y before -> eligible k m y ->
       exists u, sent_before (cooperation [] h) i u /\ same u y).
Proof.
  intros H N. destruct (cooperation_nth h [] i array command module H) as (used & r & N' & S & R).
  rewrite N in N'. injection N' as <-. unfold send_cooperate in R.
  destruct command as [c|]; [|discriminate]. destruct module as [m|]; [|discriminate].
  destruct (find _ array) as [y|] eqn:F; [|discriminate]. injection R as -> ->.
  assert (P : forall used array y,
    find (fun x => valid_status x c m && negb (existsb (fun u => same_status u x) used)) array = Some y ->
    exists before after, array = before ++ y :: after /\
      (eligible c m y /\ forall u, In u used -> ~ same u y) /\
      forall z, In z before -> eligible c m z -> exists u, In u used /\ same u z).
  { clear. intros used array y. induction array as [|z array IH]; [discriminate|]. cbn [find].
    destruct (_ && _) eqn:E.
    - intros [= ->]. exists [], array. split; [reflexivity|]. apply andb_true_iff in E.
      rewrite valid_spec, used_spec in E. split; [exact E|]. intros z [].
    - intros F. destruct (IH F) as (b & a & -> & K & L). exists (z :: b), a. split; [reflexivity|].
      split; [exact K|]. intros w [<-|I] W; [|exact (L w I W)].
      apply valid_spec in W. rewrite W in E. cbn [andb] in E.
      apply negb_false_iff, existsb_exists in E. destruct E as (u & I & Su). exists u.
      split; [exact I|now apply same_spec]. }
  destruct (P used array y F) as (b & a & E & [K1 K2] & L).
  exists m, b, a. repeat split; auto; try apply K1.
  - intros u Hu. apply K2. apply S. auto.
  - intros z I Z. destruct (L z I Z) as (u & Iu & Su). exists u. split; [|exact Su].
    apply S in Iu. destruct Iu as [[]|Iu]. exact Iu.
Qed.

Theorem C105_thrown h i array command module :
  nth_error h i = Some (array, (command, module)) ->
  (nth_error (cooperation [] h) i = Some None <->
   forall k m x, command = Some k -> module = Some m -> In x array -> eligible k m x ->
     exists u, sent_before (cooperation [] h) i u /\ same u x).
Proof.
  intros H. destruct (cooperation_nth h [] i array command module H) as (used & r & N & S & R).
  rewrite N. unfold send_cooperate in R.
  destruct command as [c|]; [|subst r; split; [intros _ k m x [=]|reflexivity]].
  destruct module as [m|]; [|subst r; split; [intros _ k m x _ [=]|reflexivity]].
  destruct (find _ array) as [y|] eqn:F; subst r.
  - split; [discriminate|]. intros K. exfalso. apply find_some in F. destruct F as [I F].
    apply andb_true_iff in F. rewrite valid_spec, used_spec in F. destruct F as [V U].
    destruct (K c m y eq_refl eq_refl I V) as (u & Hu & Su). apply (U u); [|exact Su]. apply S. auto.
  - split; [|reflexivity]. intros _ k' m' x [= <-] [= <-] I V.
    pose proof (find_none _ _ F x I) as Nx. cbn beta in Nx. apply valid_spec in V. rewrite V in Nx.
    apply negb_false_iff, existsb_exists in Nx. destruct Nx as (u & Iu & Su). exists u.
    split; [|now apply same_spec]. apply S in Iu. destruct Iu as [[]|Iu]. exact Iu.
Qed.

(** No two commands answer the same status. *)
Theorem C105_once h i j x k y l : i <> j ->
  nth_error (cooperation [] h) i = Some (Some (x, k)) ->
  nth_error (cooperation [] h) j = Some (Some (y, l)) -> ~ same x y.
Proof.
  assert (G : forall i j x k y l, i < j -> nth_error (cooperation [] h) i = Some (Some (x, k)) ->
     nth_error (cooperation [] h) j = Some (Some (y, l)) -> ~ same x y).
  { clear. intros i j x k y l L Hi Hj.
    assert (Len : forall used, length (cooperation used h) = length h).
    { clear. induction h as [|[a [c m]] h IH]; intros used; [reflexivity|]. cbn.
      destruct (send_cooperate used a c m) as [[[x k] u]|]; cbn; now rewrite IH. }
    destruct (nth_error h j) as [[a [c m]]|] eqn:E.
    - destruct (C105_sent h j a c m y l E Hj) as (? & ? & ? & _ & _ & _ & _ & K & _).
      apply K. exists i, k. auto.
    - apply nth_error_None in E. rewrite <- (Len []) in E. apply nth_error_None in E. congruence. }
  intros N Hi Hj S. destruct (Nat.lt_gt_cases i j) as [C _]. destruct (C N) as [L|L].
  - exact (G i j x k y l L Hi Hj S).
  - apply (G j i y l x k L Hj Hi). destruct S as (A & B & C' & D). repeat split; auto.
Qed.

(** Activating, deactivating and activating the same request again is refused. *)
Definition off (n : Z) := {| c_module := 1; c_instance := 0; c_uuid := 9; c_command := 0; c_distance := n |}.
Definition on := {| c_module := 1; c_instance := 0; c_uuid := 9; c_command := 1; c_distance := 5000 |}.
Theorem C105_again_refuted :
  cooperation [] [([off 9000], (Some 1, Some 1)); ([on], (Some 0, Some 1)); ([off 3000], (Some 1, Some 1))]
  = [Some (off 9000, 1); Some (on, 0); None] /\ eligible 1 1 (off 3000).
Proof. split; [reflexivity|]. unfold eligible. cbn. repeat split; try lia. Qed.

(** ** C106: the end of the Autoware process *)

(** With no other child and no other signal, the process is gone after the timeout at the latest, and
    it is killed only if it had not ended by itself until then. *)
Theorem C106_gone timeout exits : (0 <= timeout)%Z -> (forall e, exits = Some e -> (0 <= e)%Z) ->
  exists t, snd (terminate timeout exits None None) = Some t /\ (t <= timeout)%Z /\
  (fst (terminate timeout exits None None) = true <-> forall e, exits = Some e -> (timeout < e)%Z) /\
  (forall e, exits = Some e -> (e <= timeout)%Z -> t = e).
Proof.
  intros T E. unfold terminate, sigtimedwait. replace (timeout <? 0)%Z with false by (symmetry; now apply Z.ltb_ge).
  destruct exits as [e|]; cbn.
  - specialize (E e eq_refl). destruct (e <=? timeout)%Z eqn:L; cbn.
    + apply Z.leb_le in L. exists e. rewrite Z.max_id. repeat split; auto; try discriminate; try lia.
      * intros K. specialize (K e eq_refl). lia.
      * intros ? [= <-] _. reflexivity.
    + apply Z.leb_gt in L. exists timeout. repeat split; auto; try lia.
      * intros _ e' [= <-]. exact L.
      * intros e' [= <-] K. lia.
  - exists timeout. repeat split; auto; try lia; try discriminate.
Qed.

(** Whatever happens, the process that ends by itself within the timeout is not killed. *)
Theorem C106_not_killed timeout e other interrupt : (0 <= e <= timeout)%Z ->
  fst (terminate timeout (Some e) other interrupt) = false.
Proof.
  intros [A B]. unfold terminate, sigtimedwait. destruct (timeout <? 0)%Z; [reflexivity|].
  destruct other as [o|], interrupt as [i|]; cbn;
    repeat match goal with |- context [(?a <=? ?b)%Z] => destruct (a <=? b)%Z eqn:?; cbn end; auto;
    rewrite ?Z.leb_gt in *; try lia.
Qed.

(** The end of another child, or another signal, makes the destructor wait for ever for a process
    that ignores SIGINT. *)
Theorem C106_other_child_refuted timeout o : (0 <= o <= timeout)%Z ->
  terminate timeout None (Some o) None = (false, None).
Proof.
  intros H. unfold terminate, sigtimedwait.
  replace (timeout <? 0)%Z with false by (symmetry; apply Z.ltb_ge; lia). cbn.
  replace (o <=? timeout)%Z with true by (symmetry; apply Z.leb_le; lia). reflexivity.
Qed.
Theorem C106_interrupted_refuted timeout i : (0 <= i <= timeout)%Z ->
  terminate timeout None None (Some i) = (false, None).
Proof.
  intros H. unfold terminate, sigtimedwait.
  replace (timeout <? 0)%Z with false by (symmetry; apply Z.ltb_ge; lia). cbn.
  replace (i <=? timeout)%Z with true by (symmetry; apply Z.leb_le; lia). reflexivity.
Qed.

Example C106_example :
  terminate 5 (Some 3%Z) None None = (false, Some 3%Z) /\
  terminate 5 (Some 8%Z) None None = (true, Some 5%Z) /\
  terminate 5 None None None = (true, Some 5%Z).
Proof. repeat split. Qed.

Print Assumptions C104_driving.
Print Assumptions C104_waiting_for_engage.
Print Assumptions C104_planning.
Print Assumptions C104_arrived.
Print Assumptions C104_waiting_for_route.
Print Assumptions C104_initializing.
Print Assumptions C104_never_finalizing.
Print Assumptions C105_sent.
Print Assumptions C105_thrown.
Print Assumptions C105_once.
Print Assumptions C105_again_refuted.
Print Assumptions C106_gone.
Print Assumptions C106_not_killed.
Print Assumptions C106_other_child_refuted.
Print Assumptions C106_interrupted_refuted.
