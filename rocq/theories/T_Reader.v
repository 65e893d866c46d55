(** The theorems about reading elements and parameter distributions. *)
From Coq Require Import String List Bool Arith Lia Permutation.
From Verif Require Import M_Reader S_Reader.
Import ListNotations.
Local Open Scope list_scope.

Lemma called_dec (c : Node) s : {name_of c = s} + {name_of c <> s}.
Proof. apply string_dec. Qed.

Lemma children_those s n : those (fun c => name_of c = s) (children_of n) (children_named s n).
Proof.
  unfold children_named. induction (children_of n) as [|c l IH]; [constructor|]. cbn [filter].
  destruct (String.eqb_spec (name_of c) s); constructor; assumption.
Qed.
Lemma those_unique {A} (P : A -> Prop) l p q : those P l p -> those P l q -> p = q.
Proof.
  intro H. revert q. induction H; intros q Q; inversion Q; subst; try contradiction; auto. f_equal. auto.
Qed.

Lemma first_named s n c : first_called s n c <-> child_named s n = Some c.
Proof.
  unfold first_called, child_named, children_named. induction (children_of n) as [|x l IH].
  - cbn. split; [|discriminate]. intros (b & a & E & _). destruct b; discriminate E.
  - cbn [filter]. destruct (String.eqb_spec (name_of x) s) as [Y|Y].
    + cbn [hd_error]. split.
      * intros (b & a & E & N & F). destruct b as [|y b]; cbn in E.
        -- injection E as -> _. reflexivity.
        -- injection E as -> _. exfalso. apply (F y); [left; reflexivity|exact Y].
      * intro E. injection E as <-. exists [], l. split; [reflexivity|]. split; [exact Y|]. intros ? [].
    + rewrite <- IH. split.
      * intros (b & a & E & N & F). destruct b as [|y b]; cbn in E.
        -- injection E as -> _. contradiction.
        -- injection E as -> E. exists b, a. repeat split; auto. intros z Z. apply F. right. exact Z.
      * intros (b & a & E & N & F). exists (x :: b), a. rewrite E. repeat split; auto.
        intros z [<-|Z]; auto.
Qed.
Lemma none_named s n : none_called s n <-> child_named s n = None.
Proof.
  unfold none_called, child_named, children_named. induction (children_of n) as [|x l IH].
  - cbn. split; auto.
  - cbn [filter]. destruct (String.eqb_spec (name_of x) s) as [Y|Y].
    + cbn. split; [|discriminate]. intro H. exfalso. apply (H x); [left; reflexivity|exact Y].
    + rewrite <- IH. split; [intros H y I; apply H; right; exact I|]. intros H y [<-|I]; auto.
Qed.

Lemma make_all_spec {A} (make : Node -> Result A) l r :
  make_all make l = Made r <-> Forall2 (fun c a => make c = Made a) l r.
Proof.
  revert r. induction l as [|c l IH]; intro r; cbn [make_all].
  - split; [intro E; injection E as <-; constructor|]. intro F. inversion F. reflexivity.
  - split.
    + destruct (make c) as [a|e] eqn:M; [|discriminate]. destruct (make_all make l) as [x|e] eqn:X; [|discriminate].
      intro E. injection E as <-. constructor; [exact M|]. apply IH. reflexivity.
    + intro F. inversion F as [|? a ? x M G]; subst. rewrite M. apply IH in G. rewrite G. reflexivity.
Qed.

Lemma make_all_fails {A} (make : Node -> Result A) l e :
  make_all make l = Failed e <->
  exists before c after, l = before ++ c :: after /\ make c = Failed e
    /\ forall x, In x before -> exists a, make x = Made a.
Proof.
  induction l as [|c l IH]; cbn [make_all].
  - split; [discriminate|]. intros (b & c & a & E & _). destruct b; discriminate E.
  - destruct (make c) as [a|e'] eqn:M.
    + transitivity (make_all make l = Failed e).
      { destruct (make_all make l); [split; discriminate|tauto]. }
      rewrite IH. split.
      * intros (b & x & t & -> & F & B). exists (c :: b), x, t. repeat split; auto.
        intros y [<-|Y]; [eauto|auto].
      * intros (b & x & t & E & F & B). destruct b as [|y b]; cbn in E; injection E as <- E; [congruence|].
        exists b, x, t. repeat split; auto. intros z Z. apply B. right. exact Z.
    + split.
      * intro E. injection E as <-. exists [], c, l. repeat split; auto. intros ? [].
      * intros (b & x & t & E & F & B). destruct b as [|y b]; cbn in E; injection E as <- E; [congruence|].
        destruct (B c) as (a & Ha); [left; reflexivity|congruence].
Qed.

(** *** C158: elements *)
(** Several elements are read exactly if there are as many of them as is asked for and all of them can
    be made; they come in the order of the document. *)
Theorem C158_elements {A} least most s (make : Node -> Result A) n l children :
  those (fun c => name_of c = s) (children_of n) children ->
  (read_elements least most s make n = Made l <->
   within least most (length children) /\ Forall2 (fun c a => make c = Made a) children l).
Proof.
  intro T. rewrite (those_unique _ _ _ _ T (children_those s n)). clear T children.
  unfold read_elements. rewrite <- make_all_spec. set (cs := children_named s n). clearbody cs. unfold within.
  destruct (Nat.eqb_spec (length cs) 0) as [Z|Z]; cbn [negb].
  - apply length_zero_iff_nil in Z. subst cs. cbn [length].
    destruct (Nat.eqb_spec least 0) as [L|L]; cbn [negb]; split.
    + intro E. injection E as <-. repeat split; [lia|destruct most; lia].
    + intros (_ & E). exact E.
    + discriminate.
    + intros ((X & _) & _). lia.
  - destruct (negb (least =? 0) && (length cs <? least)) eqn:F.
    + split; [discriminate|]. intros ((X & _) & _). apply andb_true_iff in F. destruct F as (_ & F).
      apply Nat.ltb_lt in F. lia.
    + assert (least <= length cs).
      { apply andb_false_iff in F. destruct F as [F|F]; [apply negb_false_iff, Nat.eqb_eq in F; lia|].
        apply Nat.ltb_ge in F. exact F. }
      destruct most as [m|].
      * destruct (Nat.ltb_spec m (length cs)); split; try discriminate; try (intros ((_ & X) & _); lia); auto.
        intros (_ & E). exact E.
      * split; [intro E; auto|]. intros (_ & E). exact E.
Qed.

(** If the number is right the error is that of the first that cannot be made. *)
Theorem C158_elements_error {A} least most s (make : Node -> Result A) n children e :
  those (fun c => name_of c = s) (children_of n) children -> within least most (length children) ->
  (read_elements least most s make n = Failed e <->
   exists before c after, children = before ++ c :: after /\ make c = Failed e
     /\ forall x, In x before -> exists a, make x = Made a).
Proof.
  intros T W. rewrite (those_unique _ _ _ _ T (children_those s n)) in *. clear T children.
  rewrite <- make_all_fails. unfold read_elements. set (cs := children_named s n) in *. clearbody cs.
  destruct W as (L & M).
  destruct (Nat.eqb_spec (length cs) 0) as [Z|Z]; cbn [negb].
  - apply length_zero_iff_nil in Z. subst cs. cbn in L. destruct (Nat.eqb_spec least 0); [|lia]. cbn. tauto.
  - replace (negb (least =? 0) && (length cs <? least)) with false.
    2:{ symmetry. apply andb_false_iff. right. apply Nat.ltb_ge. exact L. }
    destruct most as [m|]; [|tauto]. replace (m <? length cs) with false; [tauto|]. symmetry. apply Nat.ltb_ge. exact M.
Qed.

(** A single element is the first of its name; without one, the default if the class has one. *)
Theorem C158_element {A} (default : option A) s (make : Node -> Result A) n :
  (forall c, first_called s n c -> read_element default s make n = make c)
  /\ (none_called s n -> read_element default s make n = match default with Some a => Made a | None => Failed Missing end).
Proof.
  split.
  - intros c H. apply first_named in H. unfold read_element. rewrite H. reflexivity.
  - intro H. apply none_named in H. unfold read_element. rewrite H. reflexivity.
Qed.

(** More than one is accepted, even if the others cannot be made. *)
Theorem C158_repeated_refuted : exists (make : Node -> Result nat) s n c d a e,
  In c (children_of n) /\ In d (children_of n) /\ name_of c = s /\ name_of d = s /\ c <> d
  /\ make d = Failed e /\ read_element None s make n = Made a.
Proof.
  exists (fun c => match children_of c with [] => Made 1 | _ => Failed (Thrown 0) end), "Position"%string.
  exists (node "TeleportAction" [node "Position" []; node "Position" [node "WorldPosition" []]])%string.
  exists (node "Position" [])%string, (node "Position" [node "WorldPosition" []])%string, 1, (Thrown 0).
  cbn. repeat split; auto. discriminate.
Qed.

Lemma named_skip s name before x after : name_of x <> s ->
  children_named s (with_child name before x after) = children_named s (without_child name before after).
Proof.
  intro N. unfold children_named, with_child, without_child. cbn [children_of]. rewrite !filter_app. f_equal.
  cbn [filter]. destruct (String.eqb_spec (name_of x) s); [contradiction|reflexivity].
Qed.

(** Elements of other names change nothing, wherever they are. *)
Theorem C158_unknown {A} name before x after s (make : Node -> Result A) default least most
    (callees : list (string * (Node -> Result A))) :
  let n := with_child name before x after in
  let n' := without_child name before after in
  (name_of x <> s ->
     read_element default s make n = read_element default s make n'
     /\ read_elements least most s make n = read_elements least most s make n')
  /\ ((forall e, In e callees -> name_of x <> fst e) -> choice n callees = choice n' callees).
Proof.
  cbn zeta. split.
  - intro N. unfold read_element, read_elements, child_named. rewrite (named_skip s name before x after N). auto.
  - intro N. unfold choice.
    assert (E : flat_map (fun e : string * (Node -> Result A) =>
                  match child_named (fst e) (with_child name before x after) with Some c => [(snd e, c)] | None => [] end) callees
              = flat_map (fun e => match child_named (fst e) (without_child name before after) with Some c => [(snd e, c)] | None => [] end) callees).
    { induction callees as [|e l IH]; [reflexivity|]. cbn [flat_map]. unfold child_named at 1 3.
      rewrite (named_skip (fst e) name before x after) by (apply N; left; reflexivity). f_equal.
      apply IH. intros y Y. apply N. right. exact Y. }
    rewrite E. reflexivity.
Qed.

(** *** C159: choices and groups *)
Lemma specs_empty {A} n (callees : list (string * (Node -> Result A))) :
  flat_map (fun e => match child_named (fst e) n with Some c => [(snd e, c)] | None => [] end) callees = []
  <-> forall e, In e callees -> none_called (fst e) n.
Proof.
  induction callees as [|e l IH]; cbn [flat_map].
  - split; [intros _ ? []|reflexivity].
  - destruct (child_named (fst e) n) as [c|] eqn:C; cbn.
    + split; [discriminate|]. intro H. assert (K := H e (or_introl eq_refl)). apply none_named in K. congruence.
    + rewrite IH. apply none_named in C. split; [intros H y [<-|Y]; auto|]. intros H y Y. apply H. right. exact Y.
Qed.

(** A choice gives [a] exactly if elements of one and only one of the names are there, and the callee of
    that name makes [a] of the first of them. *)
Theorem C159_choice {A} n (callees : list (string * (Node -> Result A))) a : NoDup (map fst callees) ->
  (choice n callees = Made a <->
   exists s f c, In (s, f) callees /\ first_called s n c /\ f c = Made a
     /\ forall t g, In (t, g) callees -> t <> s -> none_called t n).
Proof.
  intro D. unfold choice. induction callees as [|[s f] l IH].
  - cbn. split; [discriminate|]. intros (? & ? & ? & [] & _).
  - cbn [map fst] in D. inversion D as [|? ? Ns D']; subst. cbn [flat_map fst snd].
    destruct (child_named s n) as [c|] eqn:C; cbn [app].
    + set (specs := flat_map _ l) in *. assert (E := specs_empty n l). fold specs in E.
      destruct specs as [|q specs].
      * split.
        -- intro M. exists s, f, c. split; [left; reflexivity|]. split; [apply first_named, C|]. split; [exact M|].
           intros t g [T|T] N; [injection T as <- _; contradiction|]. apply (proj1 E eq_refl (t, g) T).
        -- intros (t & g & d & [T|T] & F & M & _).
           ++ injection T as <- <-. apply first_named in F. congruence.
           ++ exfalso. assert (K := proj1 E eq_refl (t, g) T). cbn in K. apply none_named in K. apply first_named in F. congruence.
      * split; [destruct q; discriminate|]. intros (t & g & d & T & F & M & O). exfalso.
        assert (X : q :: specs = []).
        { apply E. intros (u & h) U. cbn. destruct T as [T|T].
          - injection T as <- <-. apply (O u h); [right; exact U|]. intros ->. apply Ns.
            change s with (fst (s, h)). apply in_map. exact U.
          - exfalso. assert (K : none_called s n).
            { apply (O s f); [left; reflexivity|]. intros ->. apply Ns. change t with (fst (t, g)). apply in_map. exact T. }
            apply none_named in K. congruence. }
        discriminate X.
    + rewrite IH by exact D'. apply none_named in C. split.
      * intros (t & g & d & T & F & M & O). exists t, g, d. split; [right; exact T|]. repeat split; auto.
        intros u h [U|U] N; [injection U as <- _; exact C|eauto].
      * intros (t & g & d & [T|T] & F & M & O).
        -- injection T as <- <-. apply none_named in C. apply first_named in F. congruence.
        -- exists t, g, d. repeat split; auto. intros u h U N. apply (O u h); auto. right. exact U.
Qed.

(** The order in which the map holds the callees does not matter. *)
Theorem C159_order {A} n (callees callees' : list (string * (Node -> Result A))) :
  Permutation callees callees' -> choice n callees = choice n callees'.
Proof.
  intro P. unfold choice.
  assert (Q : Permutation
    (flat_map (fun e => match child_named (fst e) n with Some c => [(snd e, c)] | None => [] end) callees)
    (flat_map (fun e => match child_named (fst e) n with Some c => [(snd e, c)] | None => [] end) callees')).
  { apply Permutation_flat_map. exact P. }
  destruct (flat_map _ callees) as [|x [|y l]].
  - apply Permutation_nil in Q. rewrite Q. reflexivity.
  - apply Permutation_length_1_inv in Q. rewrite Q. reflexivity.
  - pose proof (Permutation_length Q) as L. destruct (flat_map _ callees') as [|x' [|y' l']]; cbn in L; try lia.
    destruct x, x'. reflexivity.
Qed.

(** Several elements of the chosen name are accepted. *)
Theorem C159_repeated_refuted : exists (make : Node -> Result nat) n c d a e,
  In c (children_of n) /\ In d (children_of n) /\ c <> d /\ make d = Failed e
  /\ choice n [(name_of c, make)] = Made a /\ name_of c = name_of d.
Proof.
  exists (fun c => match children_of c with [] => Made 1 | _ => Failed (Thrown 0) end).
  exists (node "Position" [node "WorldPosition" []; node "WorldPosition" [node "X" []]])%string.
  exists (node "WorldPosition" [])%string, (node "WorldPosition" [node "X" []])%string, 1, (Thrown 0).
  cbn. repeat split; auto. discriminate.
Qed.

Lemma groups_made {A} (make : Node -> Result A) l :
  made make l (flat_map (fun c => match make c with Made a => [a] | Failed _ => [] end) l).
Proof.
  induction l as [|c l IH]; cbn [flat_map]; [constructor|]. destruct (make c) as [a|e] eqn:E; cbn [app].
  - constructor; assumption.
  - apply (made_no make c e); assumption.
Qed.
Lemma made_unique {A} (make : Node -> Result A) l p q : made make l p -> made make l q -> p = q.
Proof.
  intro H. revert q. induction H; intros q Q; inversion Q; subst; try congruence; auto.
  assert (a0 = a) as -> by congruence. f_equal. auto.
Qed.

(** Groups: what can be made of the children, in order; what cannot be made is passed over. *)
Theorem C159_groups {A} least most (make : Node -> Result A) n l :
  read_groups least most make n = Made l <-> made make (children_of n) l /\ within least most (length l).
Proof.
  unfold read_groups, within. pose proof (groups_made make (children_of n)) as G. set (gs := flat_map _ _) in *. clearbody gs.
  assert (X : made make (children_of n) l <-> gs = l).
  { split; [intro H; exact (made_unique _ _ _ _ G H)|intros <-; exact G]. }
  rewrite X. clear X G.
  destruct (negb (least =? 0) && (length gs <? least)) eqn:F.
  - split; [discriminate|]. intros (<- & L & _). apply andb_true_iff in F. destruct F as (_ & F). apply Nat.ltb_lt in F. lia.
  - assert (least <= length gs).
    { apply andb_false_iff in F. destruct F as [F|F]; [apply negb_false_iff, Nat.eqb_eq in F; lia|].
      apply Nat.ltb_ge in F. exact F. }
    destruct most as [m|].
    + destruct (Nat.ltb_spec m (length gs)); split; try discriminate.
      * intros (<- & _ & L). lia.
      * intro E. injection E as <-. repeat split; auto.
      * intros (<- & _). reflexivity.
    + split; [intro E; injection E as <-; auto|intros (<- & _); reflexivity].
Qed.

(** A group that cannot be made is passed over in silence. *)
Theorem C159_silent_refuted : exists (make : Node -> Result nat) n c e l,
  In c (children_of n) /\ make c = Failed e /\ read_groups 0 None make n = Made l.
Proof.
  exists (fun _ => Failed NoneOf), (node "Deterministic" [node "X" []])%string, (node "X" [])%string, NoneOf, [].
  cbn. auto.
Qed.

Example C159_example :
  choice (node "Position" [node "LanePosition" []])%string
    [("WorldPosition"%string, fun _ => Made 1); ("LanePosition"%string, fun _ => Made 2)] = Made 2
  /\ choice (node "Position" [node "LanePosition" []; node "WorldPosition" []])%string
    [("WorldPosition"%string, fun _ => Made 1); ("LanePosition"%string, fun _ => Made 2)] = Failed SeveralOf.
Proof. split; reflexivity. Qed.
Example C158_example :
  read_elements 1 (Some 2) "Event" (fun _ => Made 7) (node "Maneuver" [node "Event" []; node "Other" []; node "Event" []])%string
  = Made [7; 7]
  /\ read_elements 1 (Some 1) "Event" (fun _ => Made 7) (node "Maneuver" [node "Event" []; node "Event" []])%string = Failed TooMany.
Proof. split; reflexivity. Qed.

(** *** C160: parameter distributions *)
(** No distribution of a Deterministic that conforms to the schema is read; there is no error either. *)
Theorem C160_deterministic leaf n : conforms_deterministic n -> deterministic leaf n = Made [].
Proof.
  intros (l & H). unfold deterministic. apply C159_groups. cbn [children_of]. split; [|split; cbn; [lia|exact I]].
  induction l as [|x l IH]; [constructor|]. apply (made_no _ x NoneOf); [|apply IH; intros y Y; apply H; right; exact Y].
  destruct (H x (or_introl eq_refl)) as [[d D]|[d D]]; unfold named in D; cbn [In] in D;
    unfold deterministic_parameter_distribution, choice, child_named, children_named; cbn [children_of flat_map filter fst snd].
  - destruct D as [<-|[<-|[<-|[]]]]; reflexivity.
  - destruct D as [<-|[]]; reflexivity.
Qed.
Theorem C160_deterministic_refuted : exists leaf n d,
  conforms_deterministic n /\ In d (children_of n) /\ deterministic_single leaf d = Made 1 /\ deterministic leaf n = Made [].
Proof.
  set (d := node "DeterministicSingleParameterDistribution" [node "DistributionSet" []]%string).
  exists (fun _ => Made 1), (node "Deterministic" [d])%string, d.
  assert (C : conforms_deterministic (node "Deterministic" [d])%string).
  { constructor. intros x [<-|[]]. left. constructor. left. reflexivity. }
  split; [exact C|]. split; [left; reflexivity|]. split; [reflexivity|]. apply C160_deterministic, C.
Qed.

(** Of a Stochastic only the first distribution is read. *)
Theorem C160_stochastic leaf n : conforms_stochastic n ->
  exists d, hd_error (children_of n) = Some d
    /\ stochastic leaf n = map_result (fun w => [Single w]) (stochastic_distribution leaf d).
Proof.
  intros [l NE H]. destruct l as [|x l]; [contradiction|]. exists x. split; [reflexivity|].
  destruct (H x (or_introl eq_refl)) as (d & E & _). unfold stochastic. f_equal.
  apply (proj1 (C158_element None "StochasticDistribution"%string (stochastic_distribution leaf) (node "Stochastic" (x :: l)))).
  exists [], l. subst x. repeat split. intros ? [].
Qed.
Theorem C160_stochastic_refuted : exists leaf n d e l,
  conforms_stochastic n /\ children_of n = [d; e] /\ stochastic_distribution leaf d = Made 1
  /\ stochastic_distribution leaf e = Made 2 /\ stochastic leaf n = Made l /\ ~ In (Single 2) l.
Proof.
  set (leaf := fun c : Node => if String.eqb (name_of c) "NormalDistribution" then Made 1 else Made 2).
  set (d := node "StochasticDistribution" [node "NormalDistribution" []]%string).
  set (e := node "StochasticDistribution" [node "UniformDistribution" []]%string).
  exists leaf, (node "Stochastic" [d; e])%string, d, e, [Single 1].
  split.
  - constructor; [discriminate|]. intros x [<-|[<-|[]]]; eexists; (split; [reflexivity|]); cbn; tauto.
  - repeat split; try reflexivity. intros [X|[]]. discriminate X.
Qed.

(** A file of parameter distributions that conforms to the schema cannot be loaded. *)
Theorem C160_rejected scenario catalog leaf file n : conforms_distribution n ->
  open_scenario_category scenario catalog leaf file n = Failed Missing.
Proof.
  intros [h f d Hh Hf Hd]. unfold open_scenario_category, choice, child_named, children_named.
  cbn [flat_map fst snd children_of filter]. rewrite Hh. cbn [name_of String.eqb Ascii.eqb Bool.eqb hd_error app].
  unfold parameter_value_distribution_definition, read_element, child_named, children_named. cbn [children_of filter].
  rewrite Hf.
  assert (X : name_of d = "Deterministic"%string \/ name_of d = "Stochastic"%string).
  { destruct Hd as [[l _]|[l _ _]]; [left|right]; reflexivity. }
  destruct X as [-> | ->]; reflexivity.
Qed.
Example C160_example : conforms_distribution
  (node "OpenSCENARIO" [node "FileHeader" [];
     node "ParameterValueDistribution" [node "ScenarioFile" [];
       node "Deterministic" [node "DeterministicSingleParameterDistribution" [node "DistributionSet" [node "Element" []]];
                             node "DeterministicMultiParameterDistribution" [node "ValueSetDistribution" []]]]])%string.
Proof.
  constructor; try reflexivity. left. constructor. intros x [<-|[<-|[]]].
  - left. constructor. left. reflexivity.
  - right. constructor. left. reflexivity.
Qed.

Print Assumptions C158_elements.
Print Assumptions C158_elements_error.
Print Assumptions C158_element.
Print Assumptions C158_repeated_refuted.
Print Assumptions C158_unknown.
Print Assumptions C159_choice.
Print Assumptions C159_order.
Print Assumptions C159_repeated_refuted.
Print Assumptions C159_groups.
Print Assumptions C159_silent_refuted.
Print Assumptions C160_deterministic.
Print Assumptions C160_deterministic_refuted.
Print Assumptions C160_stochastic.
Print Assumptions C160_stochastic_refuted.
Print Assumptions C160_rejected.
