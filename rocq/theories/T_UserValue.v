(** Conditions on user-defined values. *)
From Coq Require Import Ascii String List Bool Arith Lia.
From Verif Require Import M_Condition M_Scope M_Parameter M_UserValue S_UserValue.
Import ListNotations.
Local Open Scope list_scope.

(** ** Histories *)

Lemma snoc_split {A} (h : list A) e h1 x h2 : h ++ [e] = h1 ++ x :: h2 ->
  (h2 = [] /\ x = e /\ h1 = h) \/ (exists g, h2 = g ++ [e] /\ h = h1 ++ x :: g).
Proof.
  intros E. destruct h2 as [|y h2] using rev_ind.
  - apply app_inj_tail in E. destruct E as [-> ->]. left. auto.
  - clear IHh2. right. exists h2. replace (h1 ++ x :: h2 ++ [y]) with ((h1 ++ x :: h2) ++ [y]) in E
      by (rewrite <- app_assoc; reflexivity).
    apply app_inj_tail in E. destruct E as [-> ->]. auto.
Qed.

Lemma exists_snoc h e id :
  exists_after (h ++ [e]) id <-> e = Made id \/ (exists_after h id /\ ~ mentions id e).
Proof.
  split.
  - intros (h1 & h2 & E & F). apply snoc_split in E. destruct E as [(-> & <- & ->)|(g & -> & ->)]; [auto|].
    apply Forall_app in F. destruct F as [F G]. inversion G; subst. right. split; [|assumption].
    exists h1, g. auto.
  - intros [->|[(h1 & h2 & -> & F) N]].
    + exists h, []. auto.
    + exists h1, (h2 ++ [e]). rewrite <- app_assoc. split; [reflexivity|]. apply Forall_app. auto.
Qed.

Lemma broken_snoc h e :
  broken (h ++ [e]) <->
  (exists id, exists_after (h ++ [e]) id) /\ (broken h \/ (e = Failed /\ exists id, exists_after h id)).
Proof.
  split.
  - intros (h1 & h2 & E & A & B). split.
    { specialize (B h2 []). rewrite E. apply B. symmetry. apply app_nil_r. }
    apply snoc_split in E. destruct E as [(-> & <- & ->)|(g & -> & ->)]; [auto|]. left.
    exists h1, g. split; [reflexivity|]. split; [exact A|]. intros g1 g2 ->. apply (B g1 (g2 ++ [e])).
    symmetry. apply app_assoc.
  - intros [L [(h1 & h2 & -> & A & B)|[-> A]]].
    + exists h1, (h2 ++ [e]). rewrite <- app_assoc. split; [reflexivity|]. split; [exact A|].
      intros g1 g2 E. destruct g2 as [|y g2] using rev_ind.
      * rewrite app_nil_r in E. subst g1. rewrite <- app_assoc in L. exact L.
      * rewrite app_assoc in E. apply app_inj_tail in E. destruct E as [-> _]. apply (B g1 g2). reflexivity.
    + exists h, []. split; [reflexivity|]. split; [exact A|]. intros g1 g2 E.
      destruct g1; [|discriminate]. exact L.
Qed.

Definition knows (h : list event) (id : nat) (m : message) : Prop :=
  last_received h id m \/ (nothing_received h id /\ m = no_message).
Lemma knows_snoc h e id m : knows h id m -> ~ mentions id e -> (forall m', e <> Received id m') ->
  knows (h ++ [e]) id m.
Proof.
  intros [(h1 & h2 & -> & F)|[(h1 & h2 & -> & F) ->]] N M; [left|right; split; [|reflexivity]];
    exists h1, (h2 ++ [e]); (split; [rewrite <- app_assoc; reflexivity|]); apply Forall_app; auto.
Qed.

Record sound (h : list event) (w : world) : Prop := {
  so_exists : forall id, exists_after h id <-> In id (map fst (w_messages w));
  so_once : NoDup (map fst (w_messages w));
  so_count : w_count w = length (w_messages w);
  so_none : w_node w = None <-> w_count w = 0;
  so_broken : w_node w = Some true <-> broken h;
  so_knows : forall id m, In (id, m) (w_messages w) -> knows h id m }.

Lemma run_snoc h e : run (h ++ [e]) = step (run h) e.
Proof. unfold run. rewrite fold_left_app. reflexivity. Qed.

Lemma no_mention id e : e <> Made id -> e <> Gone id -> ~ mentions id e.
Proof. intros A B [C|C]; contradiction. Qed.

Lemma filter_length_once id (l : list (nat * message)) : NoDup (map fst l) -> In id (map fst l) ->
  length l = S (length (filter (fun p => negb (has id p)) l)).
Proof.
  induction l as [|[i m] l IH]; cbn; [tauto|]. intros N I. inversion N; subst. unfold has at 1. cbn.
  destruct (Nat.eqb_spec i id) as [->|D]; cbn.
  - f_equal. clear IH I N. induction l as [|[j n] l IH]; [reflexivity|]. cbn in *. unfold has at 1. cbn.
    destruct (Nat.eqb_spec j id) as [->|D]; [exfalso; auto|]. cbn. f_equal. apply IH.
    + intros H. apply H1. auto.
    + inversion H2; assumption.
  - f_equal. apply IH; [assumption|]. destruct I; [contradiction|assumption].
Qed.

Lemma possible_sound h : possible h -> sound h (run h).
Proof.
  induction 1 as [|h id P IH N|h id P IH N|h id m P IH N|h P IH].
  - split; cbn.
    + intros id. split; [|tauto]. intros (h1 & h2 & E & _). destruct h1; discriminate.
    + constructor.
    + reflexivity.
    + tauto.
    + split; [discriminate|]. intros (h1 & h2 & E & _). destruct h1; discriminate.
    + tauto.
  - rewrite run_snoc. destruct IH as [E O C Z B K]. set (w := run h) in *. clearbody w. split; cbn [step w_count w_node w_messages map fst].
    + intros i. rewrite exists_snoc, E. cbn. split.
      * intros [X|[X _]]; [injection X as ->; auto|auto].
      * intros [->|X]; [auto|]. destruct (Nat.eq_dec i id) as [->|D]; [auto|]. right. split; [exact X|].
        apply no_mention; congruence.
    + constructor; [|exact O]. rewrite <- E. exact N.
    + cbn. congruence.
    + split; [|discriminate]. destruct (Nat.eqb_spec (w_count w) 0) as [X|X]; [discriminate|]. rewrite Z. tauto.
    + rewrite broken_snoc. destruct (Nat.eqb_spec (w_count w) 0) as [X|X].
      * split; [discriminate|]. intros [_ [Y|[Y _]]]; [|discriminate]. apply B in Y. apply Z in X. congruence.
      * rewrite B. split; [|intros [_ [Y|[Y _]]]; [exact Y|discriminate]]. intros Y. split; [|auto].
        exists id. apply exists_snoc. auto.
    + intros i n [X|X].
      * injection X as <- <-. right. split; [|reflexivity]. exists h, []. auto.
      * apply knows_snoc; [auto|apply no_mention|]; [|congruence|congruence].
        intros Y. injection Y as ->. apply N, E. apply in_map_iff. exists (i, n). auto.
  - rewrite run_snoc. destruct IH as [E O C Z B K]. set (w := run h) in *. clearbody w.
    assert (L := filter_length_once id (w_messages w) O (proj1 (E id) N)).
    assert (F : forall i, In i (map fst (filter (fun p => negb (has id p)) (w_messages w))) <->
                          In i (map fst (w_messages w)) /\ i <> id).
    { intros i. rewrite !in_map_iff. split.
      - intros ([j n] & <- & I). apply filter_In in I. destruct I as [I J]. cbn in *. unfold has in J. cbn in J.
        split; [exists (j, n); auto|]. intros ->. rewrite Nat.eqb_refl in J. discriminate.
      - intros [([j n] & <- & I) D]. exists (j, n). split; [reflexivity|]. apply filter_In. split; [exact I|].
        unfold has. cbn in *. destruct (Nat.eqb_spec j id); [contradiction|reflexivity]. }
    assert (EX : forall i, exists_after (h ++ [Gone id]) i <->
                   In i (map fst (filter (fun p => negb (has id p)) (w_messages w)))).
    { intros i. rewrite exists_snoc, F, E. split.
      - intros [X|[X Y]]; [discriminate|]. split; [exact X|]. intros ->. apply Y. right. reflexivity.
      - intros [X Y]. right. split; [exact X|]. apply no_mention; congruence. }
    assert (CL : pred (w_count w) = length (filter (fun p => negb (has id p)) (w_messages w))) by lia.
    split; cbn [step w_count w_node w_messages].
    + exact EX.
    + clear - O. induction (w_messages w) as [|[i m] l IH]; [constructor|]. cbn in *. inversion O; subst.
      unfold has at 1. cbn. destruct (Nat.eqb i id); cbn; [auto|]. constructor; [|auto].
      intros X. apply H1. apply in_map_iff in X. destruct X as (p & <- & X). apply filter_In in X.
      apply in_map. apply X.
    + exact CL.
    + destruct (Nat.eqb_spec (pred (w_count w)) 0) as [X|X]; [tauto|]. rewrite Z. split; [lia|tauto].
    + rewrite broken_snoc. destruct (Nat.eqb_spec (pred (w_count w)) 0) as [X|X].
      * split; [discriminate|]. intros [[i Y] _]. apply EX in Y. rewrite X in CL. symmetry in CL.
        apply length_zero_iff_nil in CL. rewrite CL in Y. destruct Y.
      * rewrite B. split; [|intros [_ [Y|[Y _]]]; [exact Y|discriminate]]. intros Y. split; [|auto].
        destruct (filter (fun p => negb (has id p)) (w_messages w)) as [|p l]; [cbn in CL; lia|].
        exists (fst p). apply EX. left. reflexivity.
    + intros i n X. apply filter_In in X. destruct X as [X Y].
      apply knows_snoc; [auto|apply no_mention|]; [congruence| |congruence].
      intros W. injection W as ->. unfold has in Y. cbn in Y. rewrite Nat.eqb_refl in Y. discriminate.
  - rewrite run_snoc. destruct IH as [E O C Z B K]. set (w := run h) in *. clearbody w.
    assert (F : map fst (map (fun p => if has id p then (id, m) else p) (w_messages w)) = map fst (w_messages w)).
    { rewrite map_map. apply map_ext. intros [i n]. unfold has. cbn. destruct (Nat.eqb_spec i id); cbn; congruence. }
    assert (EX : forall i, exists_after (h ++ [Received id m]) i <-> exists_after h i).
    { intros i. rewrite exists_snoc. split; [intros [X|[X _]]; [discriminate|exact X]|].
      intros X. right. split; [exact X|]. apply no_mention; congruence. }
    split; cbn [step w_count w_node w_messages].
    + intros i. rewrite F, EX. apply E.
    + rewrite F. exact O.
    + rewrite map_length. exact C.
    + exact Z.
    + rewrite broken_snoc, B. split; [|intros [_ [Y|[Y _]]]; [exact Y|discriminate]]. intros Y. split; [|auto].
      exists id. apply EX. exact N.
    + intros i n X. apply in_map_iff in X. destruct X as ([j k] & X & Y). unfold has in X. cbn in X.
      destruct (Nat.eqb_spec j id) as [->|D].
      * injection X as <- <-. left. exists h, []. auto.
      * injection X as <- <-. apply knows_snoc; [auto|apply no_mention|]; congruence.
  - rewrite run_snoc. destruct IH as [E O C Z B K]. set (w := run h) in *. clearbody w.
    assert (EX : forall i, exists_after (h ++ [Failed]) i <-> exists_after h i).
    { intros i. rewrite exists_snoc. split; [intros [X|[X _]]; [discriminate|exact X]|].
      intros X. right. split; [exact X|]. apply no_mention; congruence. }
    split; cbn [step w_count w_node w_messages].
    + intros i. rewrite EX. apply E.
    + exact O.
    + exact C.
    + rewrite <- Z. destruct (w_node w); cbn; split; congruence.
    + rewrite broken_snoc. destruct (w_node w) as [b|] eqn:W; cbn.
      * split; [|reflexivity]. intros _.
        assert (X : exists id, exists_after h id).
        { destruct (w_messages w) as [|p l] eqn:M.
          - cbn in C. apply Z in C. discriminate.
          - exists (fst p). apply E. left. reflexivity. }
        split; [destruct X as [i X]; exists i; apply EX; exact X|auto].
      * split; [discriminate|]. intros [[i X] _]. apply EX, E in X. rewrite (proj1 Z eq_refl) in C.
        symmetry in C. apply length_zero_iff_nil in C. rewrite C in X. destruct X.
    + intros i n X. apply knows_snoc; [auto|apply no_mention|]; congruence.
Qed.

(** ** C234: conditions on topics *)

Section Values.
Variable lex : lexical.

Lemma get_knows h id : possible h -> exists_after h id -> ~ broken h ->
  exists m, get (run h) id = Returns m /\ knows h id m.
Proof.
  intros P X N. destruct (possible_sound h P) as [E O C Z B K]. unfold get.
  destruct (w_node (run h)) as [[|]|] eqn:W.
  - exfalso. apply N, B. reflexivity.
  - destruct (find (has id) (w_messages (run h))) as [[i m]|] eqn:F.
    + apply find_some in F. destruct F as [F G]. unfold has in G. cbn in G. apply Nat.eqb_eq in G. subst i.
      exists m. auto.
    + exfalso. apply E, in_map_iff in X. destruct X as (p & <- & X).
      apply (find_none _ _ F) in X. unfold has in X. rewrite Nat.eqb_refl in X. discriminate.
  - exfalso. rewrite (proj1 Z eq_refl) in C. symmetry in C. apply length_zero_iff_nil in C.
    apply E in X. rewrite C in X. destruct X.
Qed.

Lemma last_unique h id m m' : last_received h id m -> last_received h id m' -> m = m'.
Proof.
  intros (h1 & h2 & E & F) (g1 & g2 & E' & G). subst h. revert g1 E'. induction h1 as [|e h1 IH]; intros g1 E'.
  - destruct g1 as [|e' g1]; [injection E' as E1 _; exact E1|]. injection E' as _ E'. exfalso. subst h2.
    apply Forall_app in F. destruct F as [_ F]. inversion F; subst. destruct H1 as [_ H1]. apply (H1 m'). reflexivity.
  - destruct g1 as [|e' g1]; injection E' as _ E'.
    + exfalso. subst g2. apply Forall_app in G. destruct G as [_ G]. inversion G; subst.
      destruct H1 as [_ H1]. apply (H1 m). reflexivity.
    + apply (IH g1). exact E'.
Qed.
Lemma last_or_nothing h id m : last_received h id m -> nothing_received h id -> False.
Proof.
  intros (h1 & h2 & E & F) (g1 & g2 & E' & G). subst h. revert g1 E'. induction h1 as [|e h1 IH]; intros g1 E'.
  - destruct g1 as [|e' g1]; [discriminate|]. injection E' as _ E'. subst h2.
    apply Forall_app in F. destruct F as [_ F]. inversion F; subst. destruct H1 as [H1 _]. apply H1. left. reflexivity.
  - destruct g1 as [|e' g1]; injection E' as _ E'.
    + subst g2. apply Forall_app in G. destruct G as [_ G]. inversion G; subst.
      destruct H1 as [_ H1]. apply (H1 m). reflexivity.
    + apply (IH g1). exact E'.
Qed.

(** A condition compares the last value it has received with its own, as values of the type that came
    with it; whatever other conditions exist and receive. *)
Theorem C234_value : forall h id t s r v, possible h -> exists_after h id -> ~ broken h -> s <> [] ->
  last_received h id {| m_type := Some t; m_value := s |} ->
  evaluate_topic lex (run h) id r v = bind (construct lex t s) (fun x => compare lex x r v).
Proof.
  intros h id t s r v P X N S L. destruct (get_knows h id P X N) as (m & G & K). unfold evaluate_topic. rewrite G. cbn.
  destruct K as [K|[K ->]]; [|destruct (last_or_nothing _ _ _ L K)].
  rewrite <- (last_unique _ _ _ _ L K). cbn. destruct s; [contradiction|reflexivity].
Qed.
(** As long as it has received nothing, it is false, and so it is after an empty value or one of an
    unknown type. *)
Theorem C234_nothing : forall h id r v, possible h -> exists_after h id -> ~ broken h ->
  nothing_received h id \/ (exists m, last_received h id m /\ (m_value m = [] \/ m_type m = None)) ->
  evaluate_topic lex (run h) id r v = Returns false.
Proof.
  intros h id r v P X N L. destruct (get_knows h id P X N) as (m & G & K). unfold evaluate_topic. rewrite G. cbn.
  destruct L as [L|(m' & L & D)].
  - destruct K as [K|[_ ->]]; [destruct (last_or_nothing _ _ _ K L)|reflexivity].
  - destruct K as [K|[K _]]; [|destruct (last_or_nothing _ _ _ L K)].
    rewrite <- (last_unique _ _ _ _ L K). destruct D as [-> | ->]; [reflexivity|]. destruct (m_value m'); reflexivity.
Qed.
(** One of these is the case. *)
Theorem C234_either : forall h id, possible h -> exists_after h id ->
  nothing_received h id \/ exists m, last_received h id m.
Proof.
  intros h id P X. destruct (possible_sound h P) as [E _ _ _ _ K]. apply E, in_map_iff in X.
  destruct X as ([i m] & <- & X). destruct (K _ _ X) as [L|[L _]]; eauto.
Qed.

(** ** C235: failures *)

(** After receiving has failed, every condition on any topic throws, until there is none left. *)
Theorem C235_broken : forall h id r v, possible h -> broken h ->
  evaluate_topic lex (run h) id r v = Throws.
Proof.
  intros h id r v P B. apply (so_broken _ _ (possible_sound h P)) in B. unfold evaluate_topic, get. rewrite B. reflexivity.
Qed.
(** Nothing that is made, received or goes wrong after that mends it as long as a condition is left. *)
Theorem C235_stays : forall h h' id r v, possible (h ++ h') -> broken h -> exists_after h id ->
  Forall (fun e => e <> Gone id) h' -> forall id', evaluate_topic lex (run (h ++ h')) id' r v = Throws.
Proof.
  intros h h' id r v P B X F id'. apply C235_broken; [exact P|]. clear P.
  assert (G : broken (h ++ h') /\ exists_after (h ++ h') id); [|apply G].
  induction h' as [|e h' IH] using rev_ind; [rewrite app_nil_r; auto|].
  apply Forall_app in F. destruct F as [F G]. inversion G; subst. destruct (IH F) as [B' X'].
  rewrite app_assoc.
  assert (Y : exists_after ((h ++ h') ++ [e]) id).
  { apply exists_snoc. destruct e as [i|i|i m|].
    - destruct (Nat.eq_dec i id) as [->|D]; [auto|]. right. split; [exact X'|]. apply no_mention; congruence.
    - right. split; [exact X'|]. apply no_mention; congruence.
    - right. split; [exact X'|]. apply no_mention; congruence.
    - right. split; [exact X'|]. apply no_mention; congruence. }
  split; [|exact Y]. apply broken_snoc. split; [exists id; exact Y|auto].
Qed.
(** Once all are gone, new ones work again. *)
Theorem C235_again : forall h id, possible h -> (forall i, ~ exists_after h i) -> ~ broken (h ++ [Made id]).
Proof.
  intros h id P N B. apply broken_snoc in B. destruct B as [_ [B|[B _]]]; [|discriminate].
  destruct B as (h1 & h2 & -> & _ & B). destruct (B h2 []) as [i X]; [symmetry; apply app_nil_r|]. apply (N i X).
Qed.
(** Nothing is undefined for a condition that exists. *)
Theorem C235_defined : forall h id, possible h -> exists_after h id -> get (run h) id <> Undefined.
Proof.
  intros h id P X. destruct (possible_sound h P) as [E O C Z B K]. unfold get.
  destruct (w_node (run h)) as [[|]|] eqn:W; [discriminate| |].
  - destruct (find (has id) (w_messages (run h))) as [p|] eqn:F; [discriminate|].
    exfalso. apply E, in_map_iff in X. destruct X as (p & <- & X).
    apply (find_none _ _ F) in X. unfold has in X. rewrite Nat.eqb_refl in X. discriminate.
  - exfalso. rewrite (proj1 Z eq_refl) in C. symmetry in C. apply length_zero_iff_nil in C.
    apply E in X. rewrite C in X. destruct X.
Qed.
End Values.

Definition hello : message := {| m_type := Some PString; m_value := chars "hello" |}.
Definition two_topics : list event := [Made 1; Made 2; Received 1 hello; Received 2 no_message].
Lemma two_topics_1 : exists_after two_topics 1 /\ exists_after two_topics 2.
Proof.
  split; [exists [], [Made 2; Received 1 hello; Received 2 no_message]|exists [Made 1], [Received 1 hello; Received 2 no_message]];
    (split; [reflexivity|]); repeat constructor; intros [X|X]; discriminate.
Qed.
Lemma alive_no h id : ~ In (Made id) h -> ~ exists_after h id.
Proof. intros N (h1 & h2 & -> & _). apply N, in_or_app. right. left. reflexivity. Qed.
Lemma two_topics_possible : possible two_topics.
Proof.
  assert (A : possible ([] ++ [Made 1])) by (apply possible_made; [constructor|apply alive_no; intros []]).
  assert (B : possible (([] ++ [Made 1]) ++ [Made 2])).
  { apply possible_made; [exact A|apply alive_no; intros [X|[]]; discriminate]. }
  assert (C : possible ((([] ++ [Made 1]) ++ [Made 2]) ++ [Received 1 hello])).
  { apply possible_received; [exact B|]. apply exists_snoc. right. split; [apply exists_snoc; auto|].
    apply no_mention; discriminate. }
  apply (possible_received _ 2 no_message C). apply exists_snoc. right.
  split; [apply exists_snoc; auto|apply no_mention; discriminate].
Qed.
Lemma two_topics_whole : ~ broken two_topics.
Proof.
  intros (h1 & h2 & E & _). assert (In Failed two_topics) by (rewrite E; apply in_or_app; right; left; reflexivity).
  cbn in H. decompose [or] H; try discriminate; assumption.
Qed.
(** A topic that has said hello, and one that has said nothing *)
Example two_topics_hello : forall lex,
  evaluate_topic lex (run two_topics) 1 EqualTo (chars "hello") = Returns true /\
  evaluate_topic lex (run two_topics) 2 EqualTo (chars "hello") = Returns false.
Proof.
  intros lex. split.
  - rewrite (C234_value lex two_topics 1 PString (chars "hello") EqualTo (chars "hello") two_topics_possible
               (proj1 two_topics_1) two_topics_whole ltac:(discriminate)); [reflexivity|].
    exists [Made 1; Made 2], [Received 2 no_message]. split; [reflexivity|]. repeat constructor; [|discriminate].
    intros [X|X]; discriminate.
  - apply (C234_nothing lex two_topics 2 EqualTo (chars "hello") two_topics_possible (proj2 two_topics_1) two_topics_whole).
    right. exists no_message. split; [|auto]. exists [Made 1; Made 2; Received 1 hello], []. auto.
Qed.
(** Refuted: the failure of one subscription leaves conditions on other topics as they were. *)
Theorem C235_others_refuted : exists h, possible h /\ forall lex,
  evaluate_topic lex (run h) 1 EqualTo (chars "hello") = Returns true /\
  evaluate_topic lex (run (h ++ [Failed])) 1 EqualTo (chars "hello") = Throws /\
  evaluate_topic lex (run (h ++ [Failed; Gone 2; Received 1 hello])) 1 EqualTo (chars "hello") = Throws.
Proof.
  exists two_topics. split; [exact two_topics_possible|]. intros lex. split; [apply two_topics_hello|].
  assert (B : broken (two_topics ++ [Failed])).
  { exists two_topics, []. split; [reflexivity|]. split; [exists 1; apply two_topics_1|]. intros g1 g2 E.
    destruct g1; [|discriminate]. exists 1. apply (exists_snoc two_topics). right. split; [apply two_topics_1|].
    apply no_mention; discriminate. }
  assert (P : possible (two_topics ++ [Failed])) by (apply possible_failed, two_topics_possible).
  split; [apply C235_broken; assumption|].
  change (two_topics ++ [Failed; Gone 2; Received 1 hello]) with ((two_topics ++ [Failed]) ++ [Gone 2; Received 1 hello]).
  assert (X : forall i, exists_after two_topics i -> exists_after (two_topics ++ [Failed]) i).
  { intros i Y. apply exists_snoc. right. split; [exact Y|]. apply no_mention; discriminate. }
  apply C235_stays with 1; [|exact B|apply X, two_topics_1|repeat constructor; discriminate].
  change ((two_topics ++ [Failed]) ++ [Gone 2; Received 1 hello]) with
    (((two_topics ++ [Failed]) ++ [Gone 2]) ++ [Received 1 hello]).
  apply possible_received; [apply possible_gone; [exact P|apply X, two_topics_1]|].
  apply exists_snoc. right. split; [apply X, two_topics_1|]. apply no_mention; discriminate.
Qed.

(** ** C236: names *)

Lemma cut_app e f : ~ In dot e -> cut (e ++ dot :: f) = Some (e, f).
Proof.
  induction e as [|c e IH]; intros N; cbn [app cut].
  - destruct (Ascii.eqb_spec dot dot); [reflexivity|contradiction].
  - destruct (Ascii.eqb_spec c dot) as [->|D]; [exfalso; apply N; left; reflexivity|].
    rewrite IH; [reflexivity|]. intros I. apply N. right. exact I.
Qed.
Lemma cut_some s e f : cut s = Some (e, f) -> s = e ++ dot :: f /\ ~ In dot e.
Proof.
  revert e. induction s as [|c s IH]; intros e; cbn [cut]; [discriminate|].
  destruct (Ascii.eqb_spec c dot) as [->|D].
  - intros X. injection X as <- <-. split; [reflexivity|intros []].
  - destruct (cut s) as [[a b]|]; [|discriminate]. cbn. intros X. injection X as <- <-.
    destruct (IH a eq_refl) as [-> N]. split; [reflexivity|]. intros [Y|Y]; [contradiction|auto].
Qed.
Lemma cut_none s : ~ In dot s -> cut s = None.
Proof.
  induction s as [|c s IH]; intros N; [reflexivity|]. cbn [cut].
  destruct (Ascii.eqb_spec c dot) as [->|D]; [exfalso; apply N; left; reflexivity|].
  rewrite IH; [reflexivity|]. intros I. apply N. right. exact I.
Qed.
Lemma str_eqb_spec a b : str_eqb a b = true <-> a = b.
Proof. unfold str_eqb. destruct (list_eq_dec ascii_dec a b); split; congruence. Qed.
Lemma named_state_of x : named_state (state_name x) = Some x.
Proof. destruct x; reflexivity. Qed.
Lemma named_state_some f x : named_state f = Some x -> f = state_name x.
Proof. intros H. apply find_some in H. destruct H as [_ H]. apply str_eqb_spec in H. congruence. Qed.
Lemma no_line_end_existsb s : no_line_end s -> existsb line_end s = false.
Proof. induction 1 as [|c s H _ IH]; [reflexivity|]. cbn. rewrite H. exact IH. Qed.
Lemma dotted_app e f : e <> [] -> ~ In dot e -> f <> [] -> no_line_end f -> dotted (e ++ dot :: f) = Some (e, f).
Proof.
  intros E N F L. unfold dotted. rewrite cut_app; [|exact N]. destruct e as [|a e]; [contradiction|].
  destruct f as [|b f]; [contradiction|]. rewrite no_line_end_existsb; [reflexivity|exact L].
Qed.

Section Names.
Variable parameters : str -> option (list str).

(** An entity, a dot and the name of a state stand for this state of the entity. *)
Theorem C236_state : forall e x, e <> [] -> ~ In dot e ->
  source_of parameters (e ++ dot :: state_name x) = Returns (State e x).
Proof.
  intros e x E N. unfold source_of. rewrite dotted_app; [rewrite named_state_of; reflexivity|exact E|exact N| |].
  - destruct x; discriminate.
  - destruct x; repeat constructor.
Qed.
(** Nothing else does. *)
Theorem C236_only_state : forall name e x, source_of parameters name = Returns (State e x) ->
  name = e ++ dot :: state_name x /\ e <> [] /\ ~ In dot e.
Proof.
  intros name e x. unfold source_of, dotted. destruct (cut name) as [[[|a e'] [|b f]]|] eqn:C;
    try (destruct (call parameters name) as [[g xs]|]; [destruct (str_eqb g _)|destruct (topic name)]; discriminate).
  destruct (existsb line_end (b :: f)).
  - destruct (call parameters name) as [[g xs]|]; [destruct (str_eqb g _)|destruct (topic name)]; discriminate.
  - destruct (named_state (b :: f)) as [y|] eqn:Y; [|discriminate]. intros X. injection X as <- <-.
    apply named_state_some in Y. apply cut_some in C. rewrite Y in C. destruct C as [C D].
    split; [exact C|]. split; [discriminate|exact D].
Qed.
(** Any other name with a dot in it is refused, whatever it would be without. *)
Theorem C236_dot : forall e f, e <> [] -> ~ In dot e -> f <> [] -> no_line_end f ->
  (forall x, f <> state_name x) -> source_of parameters (e ++ dot :: f) = Throws.
Proof.
  intros e f E N F L X. unfold source_of. rewrite dotted_app by assumption.
  destruct (named_state f) as [x|] eqn:Y; [|reflexivity]. exfalso. apply named_state_some in Y. exact (X x Y).
Qed.

Lemma word_not c d : word c = true -> word d = false -> c <> d.
Proof. intros A B ->. congruence. Qed.
Lemma topic_words s : forall f, Forall (fun c => word c = true) s -> (f = true -> s <> []) -> topic_rest f true s = true.
Proof.
  induction s as [|c s IH]; intros f F N.
  - destruct f; [exfalso; apply N; reflexivity|reflexivity].
  - inversion F; subst. cbn [topic_rest]. destruct (Ascii.eqb_spec c slash) as [->|D]; [discriminate|].
    rewrite H1. apply IH; [assumption|discriminate].
Qed.
Lemma topic_part s t : forall f p, Forall (fun c => word c = true \/ c = hyphen) s -> (f = true -> s <> []) ->
  topic_rest true true t = true -> topic_rest f p (s ++ slash :: t) = true.
Proof.
  induction s as [|c s IH]; intros f p F N T.
  - destruct f; [exfalso; apply N; reflexivity|]. cbn [app topic_rest]. rewrite Ascii.eqb_refl. exact T.
  - inversion F; subst. cbn [app topic_rest]. destruct H1 as [W| ->].
    + destruct (Ascii.eqb_spec c slash) as [->|D]; [discriminate|]. rewrite W. apply IH; [assumption|discriminate|exact T].
    + replace (Ascii.eqb hyphen slash) with false by reflexivity. replace (word hyphen) with false by reflexivity.
      rewrite Ascii.eqb_refl. cbn [andb]. apply IH; [assumption|discriminate|exact T].
Qed.
Lemma topic_parts parts : forall final, Forall part parts -> final <> [] -> Forall (fun c => word c = true) final ->
  exists t, concat (map (cons slash) parts) ++ slash :: final = slash :: t /\ topic_rest true true t = true.
Proof.
  induction parts as [|q parts IH]; intros final P N F.
  - exists final. split; [reflexivity|]. apply topic_words; auto.
  - inversion P; subst. destruct (IH final H2 N F) as (t & E & T). exists (q ++ slash :: t).
    split; [cbn [map concat]; rewrite <- app_assoc; cbn [app]; rewrite E; reflexivity|].
    destruct H1 as [Q R]. apply topic_part; auto.
Qed.
Lemma topic_rest_parts s : forall f p, topic_rest f p s = true ->
  exists first, (f = true -> first <> []) /\
   ((s = first /\ p = true /\ Forall (fun c => word c = true) first) \/
    (exists parts final, s = first ++ concat (map (cons slash) parts) ++ slash :: final /\
       Forall (fun c => word c = true \/ c = hyphen) first /\ Forall part parts /\ final <> [] /\
       Forall (fun c => word c = true) final)).
Proof.
  induction s as [|c s IH]; intros f p; cbn [topic_rest].
  - intros H. apply andb_true_iff in H. destruct H as [H ->]. exists [].
    split; [destruct f; discriminate|]. left. auto.
  - destruct (Ascii.eqb_spec c slash) as [->|D].
    + intros H. apply andb_true_iff in H. destruct H as [H T]. exists [].
      split; [destruct f; discriminate|]. right.
      destruct (IH _ _ T) as (first & N & [(-> & _ & W)|(parts & final & -> & A & B & C & E)]).
      * exists [], first. cbn. repeat split; auto.
      * exists (first :: parts), final. split; [cbn [map concat app]; rewrite <- app_assoc; reflexivity|].
        repeat split; auto. constructor; [split; auto|exact B].
    + destruct (word c) eqn:W.
      * intros T. destruct (IH _ _ T) as (first & _ & [(-> & P & F)|(parts & final & -> & A & B & C & E)]);
          exists (c :: first); (split; [discriminate|]); [left|right].
        -- repeat split; auto.
        -- exists parts, final. repeat split; auto.
      * intros H. apply andb_true_iff in H. destruct H as [H T]. apply Ascii.eqb_eq in H. subst c.
        destruct (IH _ _ T) as (first & _ & [(-> & P & F)|(parts & final & -> & A & B & C & E)]); [discriminate|].
        exists (hyphen :: first). split; [discriminate|]. right. exists parts, final. repeat split; auto.
Qed.
Lemma topic_spec s : topic s = true <-> topic_name s.
Proof.
  split.
  - destruct s as [|c s]; [discriminate|]. unfold topic. intros H. apply andb_true_iff in H. destruct H as [H T].
    apply Ascii.eqb_eq in H. subst c.
    destruct (topic_rest_parts _ _ _ T) as (first & N & [(-> & _ & W)|(parts & final & -> & A & B & C & E)]).
    + exists [], first. repeat split; auto.
    + exists (first :: parts), final. split; [cbn [map concat app]; rewrite <- app_assoc; reflexivity|].
      repeat split; auto. constructor; [split; auto|exact B].
  - intros (parts & final & -> & P & N & F). destruct (topic_parts parts final P N F) as (t & -> & T).
    unfold topic. rewrite Ascii.eqb_refl. exact T.
Qed.
Lemma topic_no_dot s : topic_name s -> ~ In dot s.
Proof.
  intros (parts & final & -> & P & _ & F) I. apply in_app_or in I. destruct I as [I|[I|I]].
  - apply in_concat in I. destruct I as (l & L & I). apply in_map_iff in L. destruct L as (q & <- & L).
    destruct I as [I|I]; [discriminate|]. rewrite Forall_forall in P. destruct (P q L) as [_ Q].
    rewrite Forall_forall in Q. destruct (Q _ I) as [X|X]; discriminate.
  - discriminate.
  - rewrite Forall_forall in F. discriminate (F _ I).
Qed.
(** A name stands for a topic if and only if it is written as one, and then for this topic. *)
Theorem C236_topic : forall name s,
  source_of parameters name = Returns (Topic s) <-> topic_name name /\ s = name.
Proof.
  intros name s. split.
  - unfold source_of. destruct (dotted name) as [[e f]|]; [destruct (named_state f); discriminate|].
    destruct (call parameters name) as [[g xs]|]; [destruct (str_eqb g _); discriminate|].
    destruct (topic name) eqn:T; [|discriminate]. intros X. injection X as <-. apply topic_spec in T. auto.
  - intros [T ->]. unfold source_of, dotted. rewrite (cut_none name (topic_no_dot _ T)).
    apply topic_spec in T. rewrite T.
    destruct name as [|c name]; [discriminate|]. unfold topic in T. apply andb_true_iff in T. destruct T as [T _].
    apply Ascii.eqb_eq in T. subst c. reflexivity.
Qed.
Lemma leading_app a b : Forall (fun c => word c || Ascii.eqb c at_sign = true) a ->
  leading (a ++ opening :: b) = (a, opening :: b).
Proof.
  induction 1 as [|c a H _ IH]; [reflexivity|]. cbn [app leading]. rewrite H, IH. reflexivity.
Qed.
(** The relative heading is called by its name with parameters in brackets, if there is no dot. *)
Theorem C236_heading : forall r xs, ~ In dot r -> parameters (opening :: r) = Some xs ->
  source_of parameters (chars "RelativeHeadingCondition" ++ opening :: r) = Returns (Heading xs).
Proof.
  intros r xs N P. unfold source_of, dotted. rewrite cut_none.
  - unfold call. rewrite leading_app; [|repeat constructor]. cbn [chars list_ascii_of_string].
    rewrite Ascii.eqb_refl, P. reflexivity.
  - intros I. apply in_app_or in I. destruct I as [I|[I|I]]; [|discriminate|auto].
    cbn in I. decompose [or] I; try discriminate; assumption.
Qed.
(** Every other function is refused. *)
Theorem C236_unknown : forall f r, f <> [] -> Forall (fun c => word c || Ascii.eqb c at_sign = true) f ->
  f <> chars "RelativeHeadingCondition" -> ~ In dot (f ++ opening :: r) ->
  source_of parameters (f ++ opening :: r) = Throws.
Proof.
  intros f r E F N D. unfold source_of, dotted. rewrite cut_none by exact D. unfold call.
  rewrite leading_app by exact F. destruct f as [|c f]; [contradiction|]. rewrite Ascii.eqb_refl.
  destruct (parameters (opening :: r)); cbn [option_map].
  - destruct (str_eqb (c :: f) _) eqn:X; [apply str_eqb_spec in X; contradiction|reflexivity].
  - inversion F; subst. replace (topic ((c :: f) ++ opening :: r)) with false; [reflexivity|].
    cbn [app topic]. destruct (Ascii.eqb_spec c slash) as [->|]; [discriminate|reflexivity].
Qed.
(** Refuted: the relative heading to a position on a lane can be asked for whatever the position is; if
    it has a decimal point, the scenario is refused. *)
Theorem C236_decimal_refuted :
  source_of parameters (chars "RelativeHeadingCondition(ego, 34513, 2.5)") = Throws.
Proof.
  apply (C236_dot (chars "RelativeHeadingCondition(ego, 34513, 2") (chars "5)")); try discriminate.
  - intros I. cbn in I. decompose [or] I; try discriminate; assumption.
  - repeat constructor.
  - intros x. destruct x; discriminate.
Qed.
Example topic_example : topic_name (chars "/a/b-c/value_1").
Proof. apply topic_spec. reflexivity. Qed.
Example state_example : source_of parameters (chars "ego.currentMinimumRiskManeuverState.state") = Returns (State (chars "ego") RiskState).
Proof. apply (C236_state (chars "ego") RiskState); [discriminate|]. intros I. cbn in I. decompose [or] I; try discriminate; assumption. Qed.
End Names.

(** The state is compared as text; but to compare the current state with an emergency throws. *)
Theorem C236_compare : forall lex query e x r v, x <> Current \/ v <> chars "EMERGENCY" ->
  evaluate_state lex query e x r v = compare lex (VString (query e x)) r v.
Proof.
  intros lex query e x r v H. destruct x; try reflexivity. unfold evaluate_state.
  destruct (str_eqb v _) eqn:X; [|reflexivity]. apply str_eqb_spec in X. destruct H; contradiction.
Qed.
Theorem C236_emergency : forall lex query e r, evaluate_state lex query e Current r (chars "EMERGENCY") = Throws.
Proof. reflexivity. Qed.
