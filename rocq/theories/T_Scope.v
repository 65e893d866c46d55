(** Properties of qualified names and scopes. *)
From Coq Require Import Ascii String List Bool Arith Lia.
From Verif Require Import M_Scope S_Scope P_Scope P_ScopeBuild.
Import ListNotations.
Local Open Scope list_scope.
Local Open Scope nat_scope.
Notation length := List.length.

(** * C16: qualified names split and print back. *)

(** Splitting always succeeds; joining gives the text back; no piece contains a separator. *)
Theorem separate_join : forall s, exists l,
  separate s = Some l /\ l <> [] /\ join l = s /\ forall x, In x l -> ~ has_sep x.
Proof.
  intros s. destruct (separate_splits s) as (l & A & B). exists l. split; [exact A|].
  split; [now apply splits_nonempty in B|]. split; [now apply splits_join|now apply splits_no_sep with s].
Qed.

(** Components without ':' are exactly recovered. *)
Theorem join_separate : forall l,
  l <> [] -> (forall x, In x l -> colon_free x) -> separate (join l) = Some l.
Proof.
  intros l Hn H. destruct (separate_splits (join l)) as (l' & A & B). rewrite A. f_equal.
  apply (splits_det _ _ B). now apply splits_components.
Qed.

(** A relative reference of components without ':' (the first of them not empty, no NUL in the
    last) is parsed to these components, and printed back as it was written. *)
Theorem relative_reference_roundtrip : forall ps n,
  (forall x, In x (ps ++ [n]) -> colon_free x) -> ~ In nul n ->
  hd n ps <> [] ->
  parse (join (ps ++ [n])) = Parsed {| absolute := false; prefixes := ps; pname := n |} /\
  ((forall p, In p ps -> p <> []) ->
   print_prefixed {| absolute := false; prefixes := ps; pname := n |} = join (ps ++ [n])).
Proof.
  intros ps n H Hnul Hhd. split.
  - unfold parse. rewrite join_separate by (auto; now destruct ps). unfold prefixed_of.
    rewrite removelast_last, last_last.
    replace (valid_name n) with true.
    + destruct ps as [|p ps]; cbn [app hd] in *.
      * destruct n; [contradiction|reflexivity].
      * destruct p; [contradiction|reflexivity].
    + symmetry. unfold valid_name. apply forallb_forall. intros a Ha.
      assert (a <> colon). { intros ->. apply (H n); [apply in_or_app; right; now left|exact Ha]. }
      assert (a <> nul) by (intros ->; contradiction).
      apply andb_true_iff. rewrite !negb_true_iff, !Ascii.eqb_neq. now split.
  - intros Hne. unfold print_prefixed. cbn [absolute prefixes pname app]. clear Hhd H.
    induction ps as [|p ps IH]; [reflexivity|]. cbn [map concat].
    destruct p as [|a p]; [now destruct (Hne []); [now left|]|].
    rewrite <- !app_assoc. cbn [app] in *. rewrite IH by (intros q Hq; apply Hne; now right).
    cbn [join]. destruct (ps ++ [n]) eqn:E; [now destruct ps|]. reflexivity.
Qed.

(** A non-empty reference is absolute iff it starts with "::"; then the rest of the components are
    the qualifiers. *)
Theorem absolute_iff_leading_separator : forall s p,
  s <> [] -> parse s = Parsed p -> (absolute p = true <-> starts_with_sep s).
Proof.
  intros s p Hs H. unfold parse in H. destruct (separate_splits s) as (l & A & B). rewrite A in H.
  unfold prefixed_of in H.
  assert (Hl : (exists l', l = [] :: l') <-> starts_with_sep s).
  { split.
    - intros (l' & ->). apply splits_join in B. destruct l' as [|y l']; [cbn in B; congruence|].
      exists (join (y :: l')). now rewrite <- B.
    - intros (b & ->). inversion B as [t E|t off l' E E']; subst; [discriminate|].
      cbn in E. injection E as <-. now exists l'. }
  set (abs := match l with [] => false | g :: _ => match g with [] => true | _ :: _ => false end end) in *.
  assert (Ha : abs = true <-> starts_with_sep s).
  { rewrite <- Hl. unfold abs. destruct l as [|[|a g] l'].
    - split; [discriminate|]. intros (l' & E). discriminate.
    - split; [intros _; now exists l'|reflexivity].
    - split; [discriminate|]. intros (l'' & E). discriminate. }
  rewrite <- Ha. destruct (abs && _); [discriminate|]. destruct (valid_name (last l [])); [|discriminate].
  injection H as <-. reflexivity.
Qed.

Theorem absolute_reference_parsed : forall ps n,
  (forall x, In x (ps ++ [n]) -> colon_free x) -> ~ In nul n ->
  parse (sep ++ join (ps ++ [n])) = Parsed {| absolute := true; prefixes := ps; pname := n |}.
Proof.
  intros ps n H Hnul.
  replace (sep ++ join (ps ++ [n])) with (join (([] :: ps) ++ [n])).
  2:{ change (([] :: ps) ++ [n]) with ([] :: (ps ++ [n])). generalize (ps ++ [n]) as m, (app_cons_not_nil ps [] n).
      intros [|y m] Hm; [now destruct Hm|reflexivity]. }
  unfold parse. rewrite join_separate.
  - unfold prefixed_of. rewrite removelast_last, last_last. cbn [app length tl andb].
    rewrite app_length. cbn [length]. rewrite Nat.add_1_r. cbn [Nat.leb].
    replace (valid_name n) with true; [reflexivity|].
    symmetry. unfold valid_name. apply forallb_forall. intros a Ha.
    assert (a <> colon). { intros ->. apply (H n); [apply in_or_app; right; now left|exact Ha]. }
    assert (a <> nul) by (intros ->; contradiction).
    apply andb_true_iff. rewrite !negb_true_iff, !Ascii.eqb_neq. now split.
  - now destruct ps.
  - cbn [app]. intros x [<-|Hx]; [intros []|now apply H].
Qed.

(** Rejected or accepted, only the last component matters; and the empty reference is the only one
    whose construction is undefined behaviour. *)
Theorem parse_undefined_iff_empty : forall s, parse s = Undefined <-> s = [].
Proof.
  intros s. split.
  - unfold parse. destruct (separate_splits s) as (l & A & B). rewrite A. unfold prefixed_of.
    destruct l as [|[|a g] [|y l]]; cbn [length Nat.leb andb];
      try (destruct (valid_name _); discriminate).
    intros _. apply splits_join in B. now cbn in B.
  - intros ->. reflexivity.
Qed.

Example names_case :
  parse (text "Act::Man euver::go") =
    Parsed {| absolute := false; prefixes := [text "Act"; text "Man euver"]; pname := text "go" |} /\
  parse (text "::Story::Act") =
    Parsed {| absolute := true; prefixes := [text "Story"]; pname := text "Act" |} /\
  parse (text "a:::b") = Invalid /\ separate (text "::") = Some [[]; []].
Proof. vm_compute. auto. Qed.

(** * C17: unqualified references. *)

Lemma nearer_total j k j' k' : nearer j k j' k' \/ nearer j' k' j k \/ (j = j' /\ k = k').
Proof. unfold nearer. lia. Qed.

(** In every environment built by opening scopes and defining names, an unqualified lookup answers
    exactly what [find_ok] demands; and [find_ok] admits one answer only. *)
Theorem unqualified_reference_resolution : forall ops T f name r,
  scope_exists (build ops) f ->
  ref (build ops) T f {| absolute := false; prefixes := []; pname := name |} = r <->
  find_ok (build ops) T name f r.
Proof.
  intros ops T f name r Hf. pose proof (WF_build ops) as W. cbn [ref absolute prefixes pname].
  pose proof (find_name_spec (build ops) T W name (S (length (build ops))) f ltac:(unfold scope_exists in Hf; lia) Hf) as H.
  unfold ref. cbn [absolute prefixes pname].
  remember (find_name (build ops) T (S (length (build ops))) f name) as r0. clear Heqr0.
  split; [now intros <-|]. intros H'.
  assert (Eq : forall j k g i x, candidate (build ops) T name f j k g i x ->
     forall x', candidate (build ops) T name f j k g i x' -> x = x').
  { intros j k g i x (h & _ & _ & D & _) x' (h' & _ & _ & D' & _). congruence. }
  destruct r0 as [x| | |], r as [x'| | |]; cbn [find_ok] in *; try contradiction; try reflexivity.
  - destruct H as (j & k & g & i & A & B & C). destruct H' as (j' & k' & g' & i' & A' & B' & C').
    destruct (nearer_total j k j' k') as [N|[N|[-> ->]]].
    + now destruct (B' j k g i x N).
    + now destruct (B j' k' g' i' x' N).
    + destruct (C _ _ _ A') as [-> ->]. f_equal. now apply (Eq j' k' g i).
  - destruct H as (j & k & g & i & A & _). now destruct (H' j k g i x).
  - destruct H as (j & k & g & i & A & B & C).
    destruct H' as (j' & k' & g1 & i1 & x1 & g2 & i2 & x2 & A1 & A2 & Ne & B').
    destruct (nearer_total j k j' k') as [N|[N|[-> ->]]].
    + now destruct (B' j k g i x N).
    + now destruct (B j' k' g1 i1 x1 N).
    + destruct (C _ _ _ A1) as [-> ->], (C _ _ _ A2) as [-> ->]. now destruct Ne.
  - destruct H' as (j & k & g & i & A & _). now destruct (H j k g i x').
  - destruct H' as (j & k & g & i & x & _ & _ & _ & A & _). now destruct (H j k g i x).
  - destruct H' as (j & k & g & i & A & B & C).
    destruct H as (j' & k' & g1 & i1 & x1 & g2 & i2 & x2 & A1 & A2 & Ne & B').
    destruct (nearer_total j k j' k') as [N|[N|[-> ->]]].
    + now destruct (B' j k g i x' N).
    + now destruct (B j' k' g1 i1 x1 N).
    + destruct (C _ _ _ A1) as [-> ->], (C _ _ _ A2) as [-> ->]. now destruct Ne.
  - destruct H as (j & k & g & i & x & _ & _ & _ & A & _). now destruct (H' j k g i x).
Qed.

(** Innermost first: a scope that defines the name itself (once, with the type asked for) answers
    with its own definition, whatever any other scope defines. *)
Theorem own_definition_shadows : forall ops T f name i x,
  scope_exists (build ops) f -> defines (build ops) T name f i x ->
  (forall i' x', defines (build ops) T name f i' x' -> i' = i) ->
  ref (build ops) T f {| absolute := false; prefixes := []; pname := name |} = Found x.
Proof.
  intros ops T f name i x Hf Hd Hu. apply unqualified_reference_resolution; [exact Hf|].
  exists 0, 0, f, i. split; [|split].
  - exists f. split; [constructor|]. split; [constructor|exact Hd].
  - intros j' k' g i' x' [H|[_ H]]; lia.
  - intros g' i' x' (h & He & Hb & Hd'). inversion He; subst. inversion Hb; subst.
    split; [reflexivity|]. now apply (Hu i' x').
Qed.

(** If nothing visible from the scope has the name and type, the lookup reports an error; it never
    gives an object that is not a visible definition of that name and type. *)
Theorem found_is_visible_definition : forall ops T f name x,
  scope_exists (build ops) f ->
  ref (build ops) T f {| absolute := false; prefixes := []; pname := name |} = Found x ->
  exists j k g i, candidate (build ops) T name f j k g i x.
Proof.
  intros ops T f name x Hf H. apply unqualified_reference_resolution in H; [|exact Hf].
  destruct H as (j & k & g & i & A & _). now exists j, k, g, i.
Qed.

(** root { x = 1; unnamed { y = 2; y = 3 }; "A" { x = 4; unnamed { z = 5 } } } *)
Definition demo : list op :=
  [Define 0 (text "x") 1; NewScope 0 []; Define 1 (text "y") 2; Define 1 (text "y") 3;
   NewScope 0 (text "A"); Define 2 (text "x") 4; NewScope 2 []; Define 3 (text "z") 5].
Definition lookup (f : frame_id) (s : string) : option result :=
  match parse (text s) with
  | Parsed p => Some (ref (build demo) (fun _ => true) f p)
  | _ => None
  end.
Example scope_case :
  lookup 0 "x" = Some (Found 1) /\ lookup 2 "x" = Some (Found 4) /\ lookup 3 "x" = Some (Found 4) /\
  lookup 2 "z" = Some (Found 5) /\ lookup 0 "z" = Some NoSuch /\ lookup 3 "y" = Some Ambiguous /\
  lookup 1 "A::z" = Some (Found 5) /\ lookup 3 "::A::x" = Some (Found 4) /\ scope_exists (build demo) 3.
Proof. repeat split; vm_compute; reflexivity. Qed.

(** The scopes these theorems speak of are those of the program: scope [g] has just the definitions
    made in it, in order, lies in the scope it was opened in, and contains just the scopes opened in
    it, named and unnamed. *)
Theorem scopes_record_the_program : forall ops, legal 1 ops ->
  (forall g, scope_exists (build ops) g <-> g <= length (openings ops)) /\
  forall g,
    variables (get (build ops) g) = definitions g ops /\
    outer (get (build ops) g) = opened_in ops g /\
    inner (get (build ops) g) = children g true (openings ops) 0 /\
    unnamed (get (build ops) g) = map snd (children g false (openings ops) 0).
Proof.
  intros ops H. destruct (build_recorded ops H) as [L V O I U]. split.
  - intros g. unfold scope_exists. lia.
  - intros g. auto.
Qed.
Example demo_legal : legal 1 demo /\ definitions 1 demo = [(text "y", 2); (text "y", 3)] /\
  opened_in demo 3 = Some 2 /\ children 0 true (openings demo) 0 = [(text "A", 2)] /\
  children 0 false (openings demo) 0 = [([], 1)].
Proof. repeat split; try reflexivity; cbn; lia. Qed.

(** * C18: qualified references. *)

(** A relative reference q::ps::n resolves to what an unqualified lookup of n finds from the scope
    reached through the qualifiers - or, if no scope named q is visible, from the outermost scope
    with the first qualifier ignored. *)
Theorem qualified_reference_goes_through_qualifier : forall ops T f q ps n x,
  scope_exists (build ops) f ->
  ref (build ops) T f {| absolute := false; prefixes := q :: ps; pname := n |} = Found x ->
  (exists g h, qualifier_means (build ops) q f g /\ named_path (build ops) g ps h /\
     find_ok (build ops) T n h (Found x)) \/
  (no_scope_visible (build ops) q f /\
   exists h, named_path (build ops) 0 ps h /\ find_ok (build ops) T n h (Found x)).
Proof.
  intros ops T f q ps n x Hf H. pose proof (WF_build ops) as W. unfold ref in H.
  cbn [absolute prefixes pname] in H.
  pose proof (lookup_spec (build ops) W q (S (length (build ops))) f ltac:(unfold scope_exists in Hf; lia) Hf) as L.
  destruct (lookup_frame (build ops) (S (length (build ops))) f q) as [g| |]; try discriminate.
  destruct L as (Hg & L).
  destruct (find_prefixed_spec (build ops) T W n ps g Hg) as (_ & P & _).
  destruct (P x H) as (h & P1 & P2 & P3).
  destruct L as [(j & h' & L1 & L2 & L3)|[-> L]].
  - left. exists g, h. split; [now exists j, h'|]. now split.
  - right. split; [exact L|]. now exists h.
Qed.

(** When the scopes named by the qualifiers exist and are unambiguous, the reference means what an
    unqualified lookup from there means; in particular its own definition wins. *)
Theorem qualified_reference_resolves : forall ops T f q ps n j h g g',
  scope_exists (build ops) f ->
  encloses (build ops) (S j) f h -> named_below (build ops) q h g ->
  (forall g1, named_below (build ops) q h g1 -> g1 = g) ->
  (forall j' h' g1, j' < j -> encloses (build ops) (S j') f h' -> ~ named_below (build ops) q h' g1) ->
  unique_path (build ops) g ps g' ->
  ref (build ops) T f {| absolute := false; prefixes := q :: ps; pname := n |} =
  ref (build ops) T g' {| absolute := false; prefixes := []; pname := n |}.
Proof.
  intros ops T f q ps n j h g g' Hf He Hg Hu Hn Hp. pose proof (WF_build ops) as W. unfold ref.
  cbn [absolute prefixes pname].
  rewrite (lookup_unique (build ops) W q (S (length (build ops))) f j h g) by
    (try (unfold scope_exists in Hf; lia); assumption).
  apply find_prefixed_unique; [exact W| |exact Hp].
  apply (named_below_lt (build ops) W q h g); [|exact Hg].
  exact (encloses_lt (build ops) W (S j) f h Hf He).
Qed.

Example qualified_reference_case :
  encloses (build demo) 1 1 0 /\ named_below (build demo) (text "A") 0 2 /\
  (forall g1, named_below (build demo) (text "A") 0 g1 -> g1 = 2).
Proof.
  split; [apply encloses_S with 0; [reflexivity|constructor]|].
  split; [exists 0, 0; split; [constructor|vm_compute; auto]|].
  intros g1 (k & h & _ & Hin). destruct h as [|[|[|[|h]]]]; vm_compute in Hin;
    repeat match goal with H : _ \/ _ |- _ => destruct H | H : False |- _ => destruct H end;
    try discriminate; try (destruct h; destruct Hin).
  now injection H.
Qed.

(** Absolute references start at the outermost scope, never ignore a qualifier, and are reported as
    errors if the qualifiers name no scope. *)
Theorem absolute_reference : forall ops T f ps n,
  scope_exists (build ops) f ->
  let r := ref (build ops) T f {| absolute := true; prefixes := ps; pname := n |} in
  (forall x, r = Found x -> exists h, named_path (build ops) 0 ps h /\ find_ok (build ops) T n h (Found x)) /\
  ((forall h, ~ named_path (build ops) 0 ps h) -> r = NoSuch \/ r = Ambiguous) /\
  (forall h, unique_path (build ops) 0 ps h ->
     r = ref (build ops) T h {| absolute := false; prefixes := []; pname := n |}).
Proof.
  intros ops T f ps n Hf. cbn zeta. pose proof (WF_build ops) as W. unfold ref.
  cbn [absolute prefixes pname].
  rewrite (outermost_spec (build ops) W (S (length (build ops))) f) by
    (try (unfold scope_exists in Hf; lia); assumption).
  destruct (find_prefixed_spec (build ops) T W n ps 0 (wf_pos _ W)) as (_ & P & Q).
  split; [|split].
  - intros x E. destruct (P x E) as (h & A & _ & B). now exists h.
  - exact Q.
  - intros h Hh. apply find_prefixed_unique; [exact W|exact (wf_pos _ W)|exact Hh].
Qed.

(** No lookup runs forever, whatever the scopes. *)
Theorem reference_terminates : forall ops T f p,
  scope_exists (build ops) f -> ref (build ops) T f p <> OutOfFuel.
Proof.
  intros ops T f p Hf. pose proof (WF_build ops) as W. unfold ref. unfold scope_exists in Hf.
  destruct (absolute p).
  - rewrite (outermost_spec (build ops) W (S (length (build ops))) f) by (try lia; assumption).
    apply (find_prefixed_spec (build ops) T W (pname p) (prefixes p) 0 (wf_pos _ W)).
  - destruct (prefixes p) as [|q ps].
    + intros E. pose proof (find_name_spec (build ops) T W (pname p) (S (length (build ops))) f ltac:(lia) Hf) as H.
      now rewrite E in H.
    + pose proof (lookup_spec (build ops) W q (S (length (build ops))) f ltac:(lia) Hf) as L.
      destruct (lookup_frame (build ops) (S (length (build ops))) f q) as [g| |]; [|discriminate|destruct L].
      apply (find_prefixed_spec (build ops) T W (pname p) ps g). apply L.
Qed.

(** The property as stated is false in two ways: with no scope named A at all, A::x is x ... *)
Theorem unknown_qualifier_refuted : exists ops f x,
  scope_exists (build ops) f /\ (forall h g, ~ named_below (build ops) (text "A") h g) /\
  ref (build ops) (fun _ => true) f
    {| absolute := false; prefixes := [text "A"]; pname := text "x" |} = Found x.
Proof.
  exists [Define 0 (text "x") 7; NewScope 0 (text "B")], 1, 7.
  split; [vm_compute; lia|]. split; [|vm_compute; reflexivity].
  intros h g (k & h' & _ & Hin). destruct h' as [|[|[|h']]]; vm_compute in Hin;
    repeat match goal with H : _ \/ _ |- _ => destruct H | H : False |- _ => destruct H end;
    try discriminate.
Qed.

(** ... and if A exists but does not define x, A::x is an x defined outside A. *)
Theorem qualifier_escaped_refuted : exists ops f x g,
  scope_exists (build ops) f /\ qualifier_means (build ops) (text "A") f g /\
  (forall k h i y, below (build ops) k g h -> ~ defines (build ops) (fun _ => true) (text "x") h i y) /\
  ref (build ops) (fun _ => true) f
    {| absolute := false; prefixes := [text "A"]; pname := text "x" |} = Found x.
Proof.
  exists [Define 0 (text "x") 7; NewScope 0 (text "B"); NewScope 0 (text "A")], 1, 7, 2.
  split; [vm_compute; lia|]. split; [|split; [|vm_compute; reflexivity]].
  - exists 0, 0. split; [apply encloses_S with 0; [reflexivity|constructor]|].
    split; [exists 0, 0; split; [constructor|vm_compute; auto]|]. intros; lia.
  - intros k h i y Hb [Hd _].
    assert (h = 2).
    { assert (Hc : forall c, In c (unnamed (get (build [Define 0 (text "x") 7; NewScope 0 (text "B");
        NewScope 0 (text "A")]) 2)) -> False) by (vm_compute; auto).
      destruct k as [|k]; [now inversion Hb|]. exfalso.
      apply (below_first _ k 2 h) in Hb as (c & Hin & _). exact (Hc c Hin). }
    subst h. vm_compute in Hd. destruct i; discriminate.
Qed.

Print Assumptions separate_join.
Print Assumptions join_separate.
Print Assumptions relative_reference_roundtrip.
Print Assumptions absolute_iff_leading_separator.
Print Assumptions absolute_reference_parsed.
Print Assumptions parse_undefined_iff_empty.
Print Assumptions unqualified_reference_resolution.
Print Assumptions own_definition_shadows.
Print Assumptions found_is_visible_definition.
Print Assumptions qualified_reference_goes_through_qualifier.
Print Assumptions qualified_reference_resolves.
Print Assumptions absolute_reference.
Print Assumptions reference_terminates.
Print Assumptions unknown_qualifier_refuted.
Print Assumptions qualifier_escaped_refuted.
Print Assumptions scopes_record_the_program.
