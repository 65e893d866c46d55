(** * The caller after a failure, the end of the dispatcher, the order of tasks. *)
From Coq Require Import ZArith List Bool Arith Lia.
From Verif Require Import M_Concealer S_Concealer P_Concealer P_Concealer2.
Import ListNotations.

Lemma timed_run d es : forall s n, timed d s n -> timed d (run s es) (n + elapsed es).
Proof.
  induction es as [|e es IH]; intros s n H; [cbn; now rewrite Z.add_0_r|].
  change (run s (e :: es)) with (run (step s e) es). pose proof (IH _ _ (timed_step d s n e H)) as K.
  replace (n + elapsed (e :: es))%Z with (n + elapsed [e] + elapsed es)%Z; [exact K|].
  destruct e; unfold elapsed; cbn [fold_right]; lia.
Qed.
Lemma timed_start d : timed d (start d) 0.
Proof.
  constructor; cbn; auto; try lia; try discriminate.
  - intros [H|[]]. discriminate.
  - intros r [H|[]]. discriminate.
Qed.
Lemma timed_reach d es : timed d (run (start d) es) (elapsed es).
Proof. apply (timed_run d es (start d) 0), timed_start. Qed.

(** ** After a failure *)

Definition outside (m : caller) : Prop :=
  match m with Adding _ | Asking _ | Reading _ => False | _ => True end.

Record dead (s : state) : Prop := {
  d_thrown : thrown s = true; d_thread : thread s = Died; d_main : outside (main s) }.

Lemma dead_step s e : dead s ->
  dead (step s e) /\ exists n, log (step s e) = log s ++ repeat Threw n.
Proof.
  intros [A B C].
  assert (Z : forall s', thrown s' = thrown s -> thread s' = thread s -> outside (main s') ->
            log s' = log s -> dead s' /\ exists n, log s' = log s ++ repeat Threw n).
  { intros s' H1 H2 H3 H4. split; [constructor; congruence|]. exists 0. rewrite H4. cbn.
    now rewrite app_nil_r. }
  destruct e; cbn [step].
  - destruct (idle s); apply Z; auto; cbn; auto. apply app_nil_r.
  - unfold proceed. destruct (main s) eqn:Em; try (now destruct C).
    + destruct (todo s) as [|c cs]; [apply Z; auto; now rewrite Em|].
      assert (R : dead (set_main s Free [] [Threw]) /\
        exists n, log (set_main s Free [] [Threw]) = log s ++ repeat Threw n)
        by (split; [constructor; cbn; auto|exists 1; reflexivity]).
      destruct c; cbn [enter]; try (rewrite A; exact R).
      destruct (initialized s); [apply Z; auto; cbn; auto; apply app_nil_r|].
      cbn [thrown set_initialized]. rewrite A.
      split; [constructor; cbn; auto|exists 1; reflexivity].
    + apply Z; auto; exact I.
    + apply Z; auto; exact I.
    + rewrite B. apply Z; auto; cbn; auto. apply app_nil_r.
    + apply Z; auto. now rewrite Em.
  - unfold dispatch. rewrite B. apply Z; auto.
  - destruct (idle s); apply Z; auto; cbn; auto. apply app_nil_r.
  - apply Z; auto.
  - apply Z; auto.
  - apply Z; auto.
Qed.

Lemma dead_run es : forall s, dead s ->
  dead (run s es) /\ exists n, log (run s es) = log s ++ repeat Threw n.
Proof.
  induction es as [|e es IH]; intros s H.
  - split; [exact H|]. exists 0. cbn. now rewrite app_nil_r.
  - change (run s (e :: es)) with (run (step s e) es). destruct (dead_step s e H) as [K [n E]].
    destruct (IH _ K) as [L [m F]]. split; [exact L|]. exists (n + m).
    rewrite F, E, <- app_assoc, repeat_app. reflexivity.
Qed.

Lemma failed_dead d es : (exists t, In (Failed t) (log (run (start d) es))) ->
  thrown (run (start d) es) = true /\ thread (run (start d) es) = Died.
Proof.
  intros [t H]. pose proof (i_spot _ (reach_inv d es)) as S. unfold spot in S.
  destruct (thread (run (start d) es)); try (now destruct S);
    try (destruct S as [[U _] _]; destruct (U t H)).
  all: try (destruct S as (_ & u & q & _ & [U _] & _); destruct (U t H)).
Qed.

(** ** The end of the dispatcher *)

Fixpoint cost (q : prog) : nat :=
  match q with
  | Done | Fail => 1
  | Send _ k => 33 + cost k
  | Wait _ _ k | Lift k => 1 + cost k
  | Look f =>
      1 + Nat.max (Nat.max (Nat.max (cost (f Undefined)) (cost (f Initializing)))
                     (Nat.max (cost (f WaitingForRoute)) (cost (f Planning))))
            (Nat.max (Nat.max (cost (f WaitingForEngage)) (cost (f Driving)))
               (Nat.max (cost (f ArrivedGoal)) (cost (f Finalizing))))
  end.

(** Working steps until the dispatcher has ended, once both flags are set. *)
Definition pcost (p : pc) : nat :=
  match p with
  | Head => 1
  | Test => 45
  | Front => 44
  | Run q => 2 + cost q
  | Ready _ k _ => 34 + cost k
  | Try _ n k => 3 + n + cost k
  | Pop => 2
  | Ended | Died => 0
  end.

Lemma cost_look f s : cost (f s) < cost (Look f).
Proof. destruct s; cbn [cost]; lia. Qed.

Lemma cost_body t : cost (body t) <= 41.
Proof. destruct t; try (cbn; lia). destruct module; cbn; lia. Qed.

Lemma pcost_step s o : q_final s = true -> a_final s = true ->
  pcost (thread (dispatch s o)) <= pcost (thread s) /\
  (o <> NotReady -> (thread s = Front -> queue s <> []) -> (thread s = Pop -> queue s <> []) ->
   pcost (thread (dispatch s o)) < pcost (thread s) \/ pcost (thread s) = 0).
Proof.
  intros Q A. unfold dispatch. destruct (thread s) as [| | |p|r k d|r n k| | |] eqn:Et.
  - rewrite Q, andb_false_r. cbn. lia.
  - destruct (queue s); cbn; lia.
  - destruct (queue s) as [|t q] eqn:Eq.
    + rewrite Et. split; [lia|]. intros _ H. destruct (H eq_refl eq_refl).
    + cbn [thread set_thread pcost]. pose proof (cost_body t). lia.
  - destruct p; cbn [thread set_thread set_limit die pcost cost]; try lia.
    + rewrite A. cbn. lia.
    + pose proof (cost_look k (seen s)). cbn [cost] in *. lia.
  - destruct o; cbn [thread set_thread pcost]; unfold attempts; try lia.
    split; [|easy]. destruct (alive s); [destruct (_ <? _)%Z|]; cbn; rewrite ?Et; cbn; lia.
  - destruct n; cbn; [lia|]. destruct o; cbn; lia.
  - destruct (queue s) eqn:Eq; [|cbn; lia].
    rewrite Et. split; [lia|]. intros _ _ H. destruct (H eq_refl eq_refl).
  - cbn. rewrite Et. cbn. lia.
  - cbn. rewrite Et. cbn. lia.
Qed.

(** The flags stay, and nothing but the dispatcher moves it. *)
Definition ending (s : state) : Prop :=
  q_final s = true /\ a_final s = true /\ (main s = Joining \/ main s = Gone).

Lemma ending_step s e : ending s -> ending (step s e).
Proof.
  intros (Q & A & M).
  assert (I : idle s = false) by (unfold idle; destruct M as [-> | ->]; reflexivity).
  destruct e; cbn [step]; rewrite ?I; try (repeat split; auto; fail).
  - unfold proceed. destruct M as [M|M]; rewrite M; [|repeat split; auto].
    destruct (thread s); (repeat split; cbn; auto).
  - unfold dispatch. destruct (thread s) as [| | |p|r k d|r n k| | |]; try (repeat split; auto; fail).
    + destruct (_ && _); repeat split; auto.
    + destruct (queue s); repeat split; auto.
    + destruct (queue s); repeat split; auto.
    + destruct p; try (repeat split; auto; fail). rewrite A. repeat split; auto.
    + destruct o; try (repeat split; auto; fail). destruct (alive s); [|repeat split; auto].
      destruct (_ <? _)%Z; repeat split; auto.
    + destruct n; [repeat split; auto|]. destruct o; repeat split; auto.
    + destruct (queue s); repeat split; auto.
Qed.

Lemma ending_other s e : ending s -> (forall o, e <> Disp o) -> thread (step s e) = thread s.
Proof.
  intros (Q & A & M) N.
  assert (I : idle s = false) by (unfold idle; destruct M as [-> | ->]; reflexivity).
  destruct e; cbn [step]; rewrite ?I; try reflexivity.
  - unfold proceed. destruct M as [M|M]; rewrite M; [|reflexivity].
    destruct (thread s) eqn:E; cbn; auto.
  - destruct (N o); reflexivity.
Qed.

Lemma inv_queue s : inv s -> (thread s = Front -> queue s <> []) /\ (thread s = Pop -> queue s <> []).
Proof.
  intros [_ _ S _ _]. unfold spot in S. split; intros E; rewrite E in S.
  - apply S.
  - destruct S as (_ & t & q & -> & _). discriminate.
Qed.

Lemma ending_run es : forall s, inv s -> ending s ->
  pcost (thread (run s es)) + working es <= pcost (thread s) \/ pcost (thread (run s es)) = 0.
Proof.
  induction es as [|e es IH]; intros s HI HE; [left; cbn; lia|].
  change (run s (e :: es)) with (run (step s e) es). pose proof (step_inv s e HI) as HI'. pose proof (ending_step s e HE) as HE'.
  specialize (IH _ HI' HE').
  destruct HE as (Q & A & M).
  assert (W : (exists o, e = Disp o /\ o <> NotReady) \/
              (working (e :: es) = working es /\ forall o, e = Disp o -> o = NotReady)).
  { destruct e; try (right; split; [reflexivity|discriminate]).
    destruct o; [left; eexists; split; [reflexivity|discriminate]
                |left; eexists; split; [reflexivity|discriminate]
                |right; split; [reflexivity|congruence]]. }
  destruct W as [(o & -> & No)|[W N]].
  - destruct (pcost_step s o Q A) as [P1 P2]. destruct (inv_queue s HI) as [V1 V2].
    specialize (P2 No V1 V2). cbn [step] in *.
    replace (working (Disp o :: es)) with (S (working es)) by (destruct o; easy).
    destruct IH as [IH|IH]; [|right; exact IH].
    destruct P2 as [P2|P2]; [left; lia|]. right. lia.
  - rewrite W. destruct IH as [IH|IH]; [|right; exact IH].
    assert (P : pcost (thread (step s e)) <= pcost (thread s)).
    { destruct e; try (rewrite ending_other; [auto|repeat split; auto|discriminate]).
      apply (pcost_step s o Q A). }
    left. lia.
Qed.

Lemma pcost_zero p : pcost p = 0 -> p = Ended \/ p = Died.
Proof. destruct p; cbn; auto; lia. Qed.

Lemma pcost_trace f t p a b : trace f t p a b -> pcost p <= 2 + cost (body t).
Proof.
  induction 1; cbn [pcost cost] in *; unfold attempts in *; try lia.
  pose proof (cost_look f0 s). cbn [cost] in *. lia.
Qed.

Lemma pcost_bound s : inv s -> pcost (thread s) <= 45.
Proof.
  intros [_ _ S _ _]. unfold spot in S. unfold here in S.
  destruct (thread s); try (cbn; lia);
    destruct S as (_ & t & q & _ & _ & T); apply pcost_trace in T;
    pose proof (cost_body t); lia.
Qed.

(** No task begins during the end, but the one about to. *)
Lemma ending_begun es : forall s, inv s -> ending s ->
  length (begun (log (run s es)))
  <= length (begun (log s)) + match thread s with Test | Front => 1 | _ => 0 end.
Proof.
  induction es as [|e es IH]; intros s HI HE; [cbn; lia|].
  change (run s (e :: es)) with (run (step s e) es).
  specialize (IH _ (step_inv s e HI) (ending_step s e HE)).
  eapply Nat.le_trans; [exact IH|]. clear IH.
  pose proof HE as (Q & A & M).
  assert (I : idle s = false) by (unfold idle; destruct M as [-> | ->]; reflexivity).
  destruct e; cbn [step]; rewrite ?I; try apply le_n.
  - unfold proceed. destruct M as [M|M]; rewrite M; [|lia].
    destruct (thread s) eqn:E; cbn [log set_main thread]; rewrite ?E, ?app_nil_r; lia.
  - unfold dispatch. destruct (thread s) as [| | |p|r k d|r n k| | |] eqn:Et;
      try (rewrite Et; lia).
    + rewrite Q, andb_false_r. cbn [log set_thread thread]. rewrite app_nil_r. lia.
    + destruct (queue s); cbn [log set_thread thread]; rewrite app_nil_r; lia.
    + destruct (queue s); [rewrite Et; lia|]. cbn [log set_thread thread].
      rewrite begun_app, app_length. cbn. lia.
    + destruct p; cbn [log set_thread set_limit die thread]; rewrite ?begun_app, ?app_length; cbn;
        try lia.
      * destruct (queue s); cbn; lia.
      * rewrite A. cbn [log set_thread thread]. rewrite begun_app, app_length. cbn. lia.
    + destruct o; cbn [log set_thread thread]; rewrite ?begun_app, ?app_length; cbn; try lia.
      destruct (alive s); cbn [log set_thread thread]; [|rewrite begun_app, app_length; cbn; lia].
      destruct (_ <? _)%Z; cbn [log die thread]; [|rewrite Et; lia].
      rewrite begun_app, app_length. destruct (queue s); cbn; lia.
    + destruct n; cbn [log set_thread die thread].
      * rewrite begun_app, app_length. destruct (queue s); cbn; lia.
      * destruct o; cbn [log set_thread thread]; rewrite begun_app, app_length; cbn; lia.
    + destruct (queue s); [rewrite Et; lia|]. cbn [log set_thread set_queue thread].
      rewrite begun_app, app_length. cbn. lia.
Qed.

(** ** Initialization comes first *)

Definition is_init (t : task) : bool := match t with TInit _ => true | _ => false end.
Definition inits (l : list task) : nat := length (filter is_init l).
Definition has_init (l : list task) : Prop := exists p, In (TInit p) l.

Definition adding (s : state) : list task := match main s with Adding t => [t] | _ => [] end.

(** Every plan is after an initialization. *)
Definition ordered (l : list task) : Prop :=
  forall l1 r l2, l = l1 ++ TPlan r :: l2 -> has_init l1.

Definition todo_ok (i : bool) (cs : list call) : Prop :=
  forall c1 r c2, cs = c1 ++ CDelay (TPlan r) :: c2 -> i = true \/ exists p, In (CInit p) c1.

Record prepared (strict : Prop) (s : state) : Prop := {
  p_none : initialized s = false -> inits (accepted (log s) ++ adding s) = 0;
  p_once : inits (accepted (log s) ++ adding s) <= 1;
  p_there : initialized s = true -> has_init (accepted (log s) ++ adding s) \/ thrown s = true;
  p_todo : strict -> todo_ok (initialized s) (todo s);
  p_no_init : forall p, ~ In (CDelay (TInit p)) (todo s);
  p_order : strict -> ordered (accepted (log s));
  p_adding : strict -> forall r, main s = Adding (TPlan r) -> has_init (accepted (log s))
}.

Lemma inits_app a b : inits (a ++ b) = inits a + inits b.
Proof. unfold inits. now rewrite filter_app, app_length. Qed.
Lemma has_init_app a b : has_init a -> has_init (a ++ b).
Proof. intros [p H]. exists p. apply in_or_app. auto. Qed.
Lemma ordered_snoc l t : ordered l -> (forall r, t = TPlan r -> has_init l) -> ordered (l ++ [t]).
Proof.
  intros H K l1 r l2 E. destruct (exists_last (l := TPlan r :: l2)) as [m [y F]]; [discriminate|].
  rewrite F in E. rewrite app_assoc in E. apply app_inj_tail in E. destruct E as [E <-].
  destruct l2 as [|z l2].
  - destruct m as [|w m]; [|destruct m; discriminate]. injection F as F.
    rewrite app_nil_r in E. subst l. apply (K r). auto.
  - destruct m as [|w m]; [discriminate|]. injection F as <- F. apply (H l1 r m). exact E.
Qed.
Lemma todo_tail i c cs : todo_ok i (c :: cs) -> (forall p, c <> CInit p) -> todo_ok i cs.
Proof.
  intros H N c1 r c2 ->. destruct (H (c :: c1) r c2 eq_refl) as [->|[p [E|I]]]; auto.
  - destruct (N p E).
  - eauto.
Qed.
Lemma todo_true cs : todo_ok true cs.
Proof. intros c1 r c2 _. auto. Qed.
Lemma todo_nil i : todo_ok i [].
Proof. intros [|] r c2 H; discriminate. Qed.

Lemma prepared_start z d : prepared z (start d).
Proof.
  constructor; cbn; auto; try discriminate.
  - intros _; apply todo_nil.
  - intros _ [|a [|b l1]] r l2 H; discriminate.
Qed.

Lemma prepared_same z s s' : prepared z s -> accepted (log s') = accepted (log s) ->
  adding s' = adding s -> initialized s' = initialized s -> todo s' = todo s ->
  (thrown s = true -> thrown s' = true) -> main s' = main s -> prepared z s'.
Proof.
  intros [A B C D E F G] H1 H2 H3 H4 H5 H6.
  constructor; rewrite ?H1, ?H2, ?H3, ?H4, ?H6; auto.
  intros K. destruct (C K); auto.
Qed.

(** The demands that do not replan. *)
Definition no_replan (e : event) : Prop := forall r, e <> Demand (DReplan r).

Lemma dispatch_log s o : accepted (log (dispatch s o)) = accepted (log s) /\
  main (dispatch s o) = main s /\ todo (dispatch s o) = todo s /\
  initialized (dispatch s o) = initialized s /\ (thrown s = true -> thrown (dispatch s o) = true).
Proof.
  assert (S : forall p es, accepted es = [] ->
     accepted (log (set_thread s p es)) = accepted (log s) /\ main (set_thread s p es) = main s /\
     todo (set_thread s p es) = todo s /\ initialized (set_thread s p es) = initialized s /\
     (thrown s = true -> thrown (set_thread s p es) = true)).
  { intros p es H. cbn [log set_thread]. rewrite accepted_app, H, app_nil_r. auto. }
  assert (D : forall es, accepted es = [] ->
     accepted (log (die s es)) = accepted (log s) /\ main (die s es) = main s /\
     todo (die s es) = todo s /\ initialized (die s es) = initialized s /\
     (thrown s = true -> thrown (die s es) = true)).
  { intros es H. cbn [log die]. rewrite !accepted_app, H.
    replace (accepted match queue s with [] => [] | t :: _ => [Failed t] end) with (@nil task)
      by (destruct (queue s); reflexivity).
    rewrite !app_nil_r. auto. }
  assert (Q : accepted (log s) = accepted (log s) /\ main s = main s /\ todo s = todo s /\
    initialized s = initialized s /\ (thrown s = true -> thrown s = true)) by auto.
  unfold dispatch. destruct (thread s) as [| | |p|r k d|r n k| | |]; try exact Q.
  - destruct (_ && _); now apply S.
  - destruct (queue s); now apply S.
  - destruct (queue s); [exact Q|now apply S].
  - destruct p; try (now apply S); try (now apply D).
    destruct (a_final s); [now apply S|]. destruct (not_to_be _ _ _); [|now apply S].
    destruct (time_is_up s); [now apply D|now apply S].
  - destruct o; try (now apply S). destruct (alive s); [|now apply S].
    destruct (_ <? _)%Z; [now apply D|exact Q].
  - destruct n; [now apply D|]. destruct o; now apply S.
  - destruct (queue s) as [|t q]; [exact Q|]. apply (S Head [Finished t] eq_refl).
Qed.

Ltac finish := try discriminate; try (intros _; first [apply todo_nil | apply todo_true]).

Lemma prepared_step (z : Prop) s e : (z -> no_replan e) -> prepared z s -> prepared z (step s e).
Proof.
  intros N HP. pose proof HP as [A B C D E F G]. destruct e; cbn [step].
  - destruct (idle s) eqn:Ei; [|exact HP]. unfold idle in Ei.
    destruct (main s) eqn:Em; try discriminate.
    assert (L : log s ++ [] = log s) by apply app_nil_r.
    assert (Ad : adding s = []) by (unfold adding; now rewrite Em).
    rewrite Ad in *.
    constructor; cbn [log set_main todo initialized adding main thrown]; rewrite ?L; auto.
    + intros HZ. destruct (initialized s); [apply todo_true|].
      destruct d; cbn; intros c1 r c2 H;
        try (repeat (destruct c1 as [|? c1]; cbn in H; try discriminate H); fail).
      * destruct c1 as [|a [|b c1]]; cbn in H; try discriminate H.
        injection H as <- <- H. right. exists pose. cbn. auto.
      * destruct (N HZ route). reflexivity.
    + intros p H. destruct d; cbn in H; try destruct (initialized s); cbn in H;
        intuition discriminate.
  - unfold proceed. destruct (main s) eqn:Em; unfold adding in *; rewrite Em in *.
    + destruct (todo s) as [|c cs] eqn:Et; [exact HP|].
      assert (R : forall i, i = initialized s -> prepared z (set_main s Free [] [Threw])).
      { intros i _. constructor; cbn [log set_main todo initialized main thrown]; unfold adding;
          cbn [main set_main]; rewrite ?accepted_app, ?app_nil_r in *; cbn; rewrite ?app_nil_r; auto.
        all: finish. }
      specialize (R _ eq_refl).
      assert (K : forall m, adding (set_main s m cs []) = [] -> (forall p, c <> CInit p) ->
        prepared z (set_main s m cs [])).
      { intros m Hm Hc. constructor; rewrite ?Hm; cbn [log set_main todo initialized main thrown];
          rewrite ?accepted_app, ?app_nil_r in *; cbn; rewrite ?app_nil_r; auto.
        - intros HZ. eapply todo_tail; eauto.
        - intros p H. apply (E p). now right.
        - intros _ r ->. discriminate Hm. }
      destruct c; cbn [enter].
      * destruct (thrown s) eqn:Eth; [exact R|].
        assert (Ht : is_init t = false).
        { destruct t; try reflexivity. destruct (E pose). now left. }
        constructor; unfold adding; cbn [log set_main todo initialized main thrown];
          rewrite ?app_nil_r in *; auto.
        -- intros H. rewrite inits_app, (A H). unfold inits. cbn. now rewrite Ht.
        -- rewrite inits_app. unfold inits at 2. cbn. rewrite Ht. cbn. lia.
        -- intros H. destruct (C H) as [K'|K']; [left; now apply has_init_app|congruence].
        -- intros HZ. eapply todo_tail; eauto. discriminate.
        -- intros p H. apply (E p). now right.
        -- intros HZ r [= ->]. destruct (D HZ [] r cs eq_refl) as [H|[p []]].
           destruct (C H) as [K'|K']; [exact K'|congruence].
      * destruct (initialized s) eqn:Ein.
        -- constructor; unfold adding; cbn [log set_main todo initialized main thrown];
             rewrite ?app_nil_r in *; rewrite ?Ein; auto; try discriminate.
           all: finish. intros p H. apply (E p). now right.
        -- cbn [thrown set_initialized]. destruct (thrown s) eqn:Eth.
           ++ constructor; unfold adding; cbn [log set_main set_initialized todo initialized main thrown];
                rewrite ?accepted_app, ?app_nil_r in *; cbn; rewrite ?app_nil_r; auto; finish.
           ++ constructor; unfold adding; cbn [log set_main set_initialized todo initialized main thrown];
                rewrite ?app_nil_r in *; auto; try discriminate.
              ** rewrite inits_app, (A eq_refl). cbn. lia.
              ** intros _. left. exists pose. apply in_or_app. right. now left.
              ** finish.
              ** intros p H. apply (E p). now right.
      * destruct (thrown s); [exact R|]. apply K; [reflexivity|discriminate].
      * destruct (thrown s); [exact R|]. apply K; [reflexivity|discriminate].
      * destruct (thrown s); [exact R|]. apply K; [reflexivity|discriminate].
    + assert (Ha : accepted (log s ++ [Accepted t]) = accepted (log s) ++ [t]) by now rewrite accepted_app.
      constructor; unfold adding; cbn [log set_main set_queue todo initialized main thrown];
        rewrite ?Ha, ?app_nil_r; auto.
      * intros HZ. apply ordered_snoc; [exact (F HZ)|]. intros r ->. eapply (G HZ). reflexivity.
      * discriminate.
    + destruct (queue s); (constructor; unfold adding; cbn [log set_main todo initialized main thrown];
        rewrite ?accepted_app, ?app_nil_r in *; cbn; rewrite ?app_nil_r; auto; finish).
    + constructor; unfold adding; cbn [log set_main todo initialized main thrown];
        rewrite ?accepted_app, ?app_nil_r in *; cbn; rewrite ?app_nil_r; auto; finish.
    + constructor; unfold adding; cbn; rewrite ?app_nil_r in *; auto; finish.
    + constructor; unfold adding; cbn; rewrite ?app_nil_r in *; auto; finish.
    + assert (K : prepared z (set_main s Gone [] [])).
      { constructor; unfold adding; cbn [log set_main todo initialized main thrown];
        rewrite ?app_nil_r in *; auto; finish. }
      destruct (thread s); (exact HP || exact K).
    + exact HP.
  - destruct (dispatch_log s o) as (H1 & H2 & H3 & H4 & H5).
    apply (prepared_same z s); auto. unfold adding. now rewrite H2.
  - destruct (idle s) eqn:Ei; [|exact HP]. unfold idle in Ei.
    destruct (main s) eqn:Em; try discriminate.
    constructor; unfold adding in *; rewrite Em in *; cbn [log set_main todo initialized main thrown];
      rewrite ?app_nil_r in *; auto; finish.
  - apply (prepared_same z s); auto.
  - apply (prepared_same z s); auto.
  - apply (prepared_same z s); auto.
Qed.

Lemma prepared_run (z : Prop) es : forall s, (z -> Forall no_replan es) -> prepared z s ->
  prepared z (run s es).
Proof.
  induction es; intros s N H; [exact H|]. apply IHes.
  - intros K. specialize (N K). now inversion N.
  - apply prepared_step; [|exact H]. intros K. specialize (N K). now inversion N.
Qed.

(** ** The record only grows, and the flags of the destructor *)

Lemma log_step s e : exists x, log (step s e) = log s ++ x.
Proof.
  assert (Q : exists x, log s = log s ++ x) by (exists []; now rewrite app_nil_r).
  destruct e; cbn [step]; try exact Q.
  - destruct (idle s); [eexists; reflexivity|exact Q].
  - unfold proceed. destruct (main s); try exact Q; try (eexists; reflexivity).
    + destruct (todo s) as [|c cs]; [exact Q|].
      destruct c; cbn [enter]; try destruct (initialized s); cbn [thrown set_initialized];
        try destruct (thrown s); eexists; reflexivity.
    + destruct (queue s); eexists; reflexivity.
    + destruct (thread s); first [exact Q | eexists; reflexivity].
  - unfold dispatch. destruct (thread s) as [| | |p|r k d|r n k| | |]; try exact Q.
    + destruct (_ && _); eexists; reflexivity.
    + destruct (queue s); eexists; reflexivity.
    + destruct (queue s); first [exact Q | eexists; reflexivity].
    + destruct p; try (eexists; reflexivity). destruct (a_final s); [eexists; reflexivity|].
      destruct (not_to_be _ _ _); [|eexists; reflexivity].
      destruct (time_is_up s); eexists; reflexivity.
    + destruct o; try (eexists; reflexivity). destruct (alive s); [|eexists; reflexivity].
      destruct (_ <? _)%Z; [eexists; reflexivity|exact Q].
    + destruct n; [eexists; reflexivity|]. destruct o; eexists; reflexivity.
    + destruct (queue s); first [exact Q | eexists; reflexivity].
  - destruct (idle s); [eexists; reflexivity|exact Q].
Qed.
Lemma log_run es : forall s, exists x, log (run s es) = log s ++ x.
Proof.
  induction es as [|e es IH]; intros s; [exists []; now rewrite app_nil_r|].
  change (run s (e :: es)) with (run (step s e) es).
  destruct (log_step s e) as [x X]. destruct (IH (step s e)) as [y Y].
  exists (x ++ y). now rewrite Y, X, app_assoc.
Qed.

Definition flagged (s : state) : Prop :=
  match main s with
  | Finalizing2 => a_final s = true
  | Joining | Gone => a_final s = true /\ q_final s = true
  | _ => True
  end.

Lemma dispatch_flags s o : main (dispatch s o) = main s /\ a_final (dispatch s o) = a_final s /\
  q_final (dispatch s o) = q_final s.
Proof.
  unfold dispatch. destruct (thread s) as [| | |p|r k d|r n k| | |]; auto.
  - destruct (_ && _); auto.
  - destruct (queue s); auto.
  - destruct (queue s); auto.
  - destruct p; auto. destruct (a_final s) eqn:A; auto.
    destruct (not_to_be _ _ _); [destruct (time_is_up s)|]; cbn; auto.
  - destruct o; auto. destruct (alive s); auto. destruct (_ <? _)%Z; auto.
  - destruct n; auto. destruct o; auto.
  - destruct (queue s); auto.
Qed.

Lemma flagged_step s e : flagged s -> flagged (step s e).
Proof.
  intros H. destruct e; cbn [step].
  - unfold flagged in *. destruct (idle s); [exact I|exact H].
  - unfold proceed. destruct (main s) eqn:Em; try exact I; try exact H; try reflexivity;
      unfold flagged in *; rewrite Em in H.
    + destruct (todo s) as [|c cs]; [now rewrite Em|].
      destruct c; cbn [enter]; try destruct (initialized s); cbn [thrown set_initialized];
        try destruct (thrown s); exact I.
    + destruct (queue s); exact I.
    + cbn. auto.
    + destruct (thread s); cbn; rewrite ?Em; exact H.
  - unfold flagged in *. destruct (dispatch_flags s o) as (-> & -> & ->). exact H.
  - unfold flagged in *. destruct (idle s); [exact I|exact H].
  - exact H.
  - exact H.
  - exact H.
Qed.
Lemma flagged_run es : forall s, flagged s -> flagged (run s es).
Proof. induction es; intros s H; [exact H|]. apply IHes. now apply flagged_step. Qed.
Lemma joining_ending d es : main (run (start d) es) = Joining -> ending (run (start d) es).
Proof.
  intros M. assert (F : flagged (run (start d) es)) by (apply flagged_run; exact I).
  unfold flagged in F. rewrite M in F. destruct F. repeat split; auto.
Qed.
