(** * Substitutions (C72) and reading attribute values (C73). *)
From Coq Require Import Ascii String List Bool Arith ZArith Lia.
From Verif Require Import M_Scope M_Parameter M_Expression S_Expression P_Expression T_Expression
  M_Attribute S_Attribute.
Import ListNotations.
Local Open Scope list_scope.

(** ** Lemmas *)

Lemma newline_one_line s : one_line s -> forall c, In c s -> newline c = false.
Proof.
  intros [A B] c I. unfold newline.
  destruct (Ascii.eqb_spec c (ascii_of_nat 10)) as [->|]; [contradiction|].
  destruct (Ascii.eqb_spec c (ascii_of_nat 13)) as [->|]; [contradiction|]. reflexivity.
Qed.
Lemma one_line_exists s : one_line s -> existsb newline s = false.
Proof.
  intros H. destruct (existsb newline s) eqn:E; [|reflexivity].
  apply existsb_exists in E as (c & I & E). rewrite (newline_one_line s H c I) in E. discriminate.
Qed.
Lemma one_line_app a b : one_line (a ++ b) <-> one_line a /\ one_line b.
Proof. unfold one_line. rewrite !in_app_iff. tauto. Qed.
Lemma word_spec c : a_name_char c \/ c = "-"%char -> word c = true.
Proof.
  intros [H| ->]; [|reflexivity]. unfold word. now rewrite name_spec.
Qed.
Lemma wordy_one_line n : wordy n -> one_line n.
Proof.
  intros [_ A]. split; intros I; apply A in I as [I|I]; try discriminate I;
    apply in_existsb in I; discriminate I.
Qed.
Lemma wordy_close n : wordy n -> ~ In ")"%char n.
Proof.
  intros [_ A] I. apply A in I as [I|I]; try discriminate I. apply in_existsb in I. discriminate I.
Qed.

Lemma unopened_suffix a b : unopened (a ++ b) -> unopened b.
Proof. intros H x y E. apply (H (a ++ x) y). rewrite E. now rewrite <- app_assoc. Qed.

Lemma until_close_app x R : ~ In ")"%char x -> until_close (x ++ chars ")" ++ R) = Some (x, R).
Proof.
  induction x as [|c x IH]; intros N; [reflexivity|]. cbn [app until_close].
  destruct (Ascii.eqb_spec c ")"%char) as [->|]; [exfalso; apply N; now left|].
  rewrite IH; [reflexivity|]. intros I. apply N. now right.
Qed.

Lemma strip_prefix_some t s r : strip_prefix t s = Some r -> s = t ++ r.
Proof.
  revert s; induction t as [|a t IH]; intros [|b s] E; cbn in *; try congruence.
  destruct (Ascii.eqb_spec a b) as [->|]; [|discriminate]. now rewrite (IH _ E).
Qed.
Lemma match_here_opens s : unopened s -> match_here s = None.
Proof.
  intros H. unfold match_here. destruct (strip_prefix (chars "$(") s) as [r|] eqn:E; [|reflexivity].
  apply strip_prefix_some in E. exfalso. now apply (H [] r).
Qed.
Lemma last_match_none s : unopened s -> last_match s = None.
Proof.
  induction s as [|c s IH]; intros H; [reflexivity|]. cbn [last_match].
  rewrite (IH (unopened_suffix [c] s H)). destruct (newline c); now apply match_here_opens.
Qed.
Lemma last_match_here P s m : one_line P -> match_here s = Some m ->
  unopened (List.tl s) ->
  last_match (P ++ s) = Some {| before := P ++ before m; what := what m; args := args m; behind := behind m |}.
Proof.
  intros N M U. induction P as [|c P IH].
  - cbn [app]. destruct s as [|c s]; [discriminate|]. cbn [last_match List.tl] in *.
    rewrite (last_match_none s U), M. destruct (newline c); now destruct m.
  - assert (NP : one_line P) by (apply (one_line_app [c] P) in N; apply N).
    cbn [app last_match]. rewrite (newline_one_line _ N c) by now left. now rewrite (IH NP).
Qed.

Lemma match_here_sub n x R : wordy n -> ~ In ")"%char x -> one_line R ->
  match_here (chars "$(" ++ n ++ chars " " ++ x ++ chars ")" ++ R) =
  Some {| before := []; what := n; args := x; behind := R |}.
Proof.
  intros Wn Nx NR. unfold match_here. rewrite strip_prefix_app.
  replace (n ++ chars " " ++ x ++ chars ")" ++ R) with ((n ++ chars " " ++ x) ++ chars ")" ++ R)
    by (now rewrite <- !app_assoc).
  rewrite until_close_app.
  - rewrite span_app; [|intros c I; apply word_spec; now apply Wn|reflexivity].
    destruct n as [|c n]; [destruct Wn; congruence|]. rewrite one_line_exists by exact NR. reflexivity.
  - rewrite !in_app_iff. intros [I|[I|I]]; [now apply (wordy_close n)| |contradiction].
    destruct I as [I|[]]. discriminate I.
Qed.
Lemma match_here_sub0 n R : wordy n -> one_line R ->
  match_here (chars "$(" ++ n ++ chars ")" ++ R) =
  Some {| before := []; what := n; args := []; behind := R |}.
Proof.
  intros Wn NR. unfold match_here. rewrite strip_prefix_app.
  rewrite until_close_app by now apply wordy_close.
  rewrite <- (app_nil_r n) at 1. rewrite span_app; [|intros c I; apply word_spec; now apply Wn|exact I].
  destruct n as [|c n]; [destruct Wn; congruence|]. rewrite one_line_exists by exact NR. reflexivity.
Qed.

(** Where a "$(" can be in a text with a piece that has none. *)
Lemma unopened_cons c s : unopened s -> (c <> "$"%char \/ forall r, s <> "("%char :: r) -> unopened (c :: s).
Proof.
  intros U H a b E. destruct a as [|a0 a].
  - cbn in E. injection E as -> ->. destruct H as [H|H]; [congruence|]. now apply (H b).
  - cbn in E. injection E as -> ->. now apply (U a b).
Qed.
Lemma unopened_plain n s : (forall c, In c n -> c <> "$"%char) -> unopened s -> unopened (n ++ s).
Proof.
  induction n as [|c n IH]; intros A U; [exact U|]. cbn [app]. apply unopened_cons.
  - apply IH; [|exact U]. intros d I. apply A. now right.
  - left. apply A. now left.
Qed.
Lemma unopened_close x R : unopened x -> unopened R -> unopened (x ++ chars ")" ++ R).
Proof.
  intros Ux UR. induction x as [|c x IH].
  - apply (unopened_plain (chars ")") R); [|exact UR]. intros c [<-|[]]. discriminate.
  - cbn [app]. apply unopened_cons; [apply IH, (unopened_suffix [c] x Ux)|].
    destruct x as [|d x]; [right; intros r; discriminate|].
    destruct (Ascii.eqb_spec c "$"%char) as [->|]; [|now left]. right.
    intros r E. cbn in E. injection E as -> _. now apply (Ux [] x).
Qed.
Lemma wordy_dollar n : wordy n -> forall c, In c n -> c <> "$"%char.
Proof.
  intros [_ A] c I -> . apply A in I as [I|I]; try discriminate I. apply in_existsb in I. discriminate I.
Qed.
Lemma one_line_chars s : existsb newline (chars s) = false -> one_line (chars s).
Proof.
  intros E. split; intros I.
  - assert (existsb newline (chars s) = true) by (apply existsb_exists; eexists; split; [exact I|reflexivity]).
    congruence.
  - assert (existsb newline (chars s) = true) by (apply existsb_exists; eexists; split; [exact I|reflexivity]).
    congruence.
Qed.
Lemma written_one_line tab t v : expands tab t v -> one_line (written t) /\ one_line v.
Proof.
  induction 1 as [s H|n f v W T E N|n a x f v W A IH C U T E N|l r x y L IHl R IHr]; cbn [written].
  - now split.
  - split; [|exact N]. rewrite !one_line_app. repeat split; try apply (wordy_one_line n W);
      apply (one_line_chars "$("%string) || apply (one_line_chars ")"%string); reflexivity.
  - split; [|exact N]. rewrite !one_line_app.
    split; [now apply one_line_chars|]. split; [now apply wordy_one_line|].
    split; [now apply one_line_chars|]. split; [apply IH|now apply one_line_chars].
  - rewrite !one_line_app. tauto.
Qed.

Lemma substitute_step tab f P s m v g :
  last_match (P ++ s) = Some {| before := P; what := what m; args := args m; behind := behind m |} ->
  tab (what m) = Some g -> g (args m) = Returns v ->
  substitute tab (S f) (P ++ s) = substitute tab f (P ++ v ++ behind m).
Proof. intros L T E. cbn [substitute]. rewrite L. cbn [what args before behind]. now rewrite T, E. Qed.

Lemma expands_substitute tab t v : expands tab t v ->
  forall P R, one_line P -> one_line R -> unopened (v ++ R) ->
  exists k, forall f, substitute tab (k + f) (P ++ written t ++ R) = substitute tab f (P ++ v ++ R).
Proof.
  induction 1 as [s H|n f v W T E N|n a x f v W A IH C U T E N|l r x y L IHl R IHr];
    intros P R0 NP NR UR; cbn [written].
  - now exists 0%nat.
  - exists 1%nat. intros k. rewrite <- !app_assoc.
    apply (substitute_step tab k P (chars "$(" ++ n ++ chars ")" ++ R0)
             {| before := []; what := n; args := []; behind := R0 |} v f); [|exact T|exact E].
    rewrite (last_match_here P _ _ NP (match_here_sub0 n R0 W NR)); [cbn [before]; now rewrite app_nil_r|].
    cbn [List.tl chars list_ascii_of_string app].
    apply (unopened_plain (chars "(") (n ++ chars ")" ++ R0)); [intros c [<-|[]]; discriminate|].
    apply unopened_plain; [now apply wordy_dollar|].
    apply (unopened_plain (chars ")") R0); [intros c [<-|[]]; discriminate|].
    now apply (unopened_suffix v).
  - assert (UR0 : unopened R0) by now apply (unopened_suffix v).
    destruct (IH (P ++ chars "$(" ++ n ++ chars " ") (chars ")" ++ R0)) as (k & K).
    + rewrite !one_line_app. split; [exact NP|]. split; [now apply one_line_chars|].
      split; [now apply wordy_one_line|now apply one_line_chars].
    + rewrite one_line_app. split; [now apply one_line_chars|exact NR].
    + now apply unopened_close.
    + exists (k + 1)%nat. intros j. rewrite <- Nat.add_assoc. specialize (K (1 + j)%nat).
      rewrite <- !app_assoc in K |- *. rewrite K. change (1 + j)%nat with (S j). rewrite <- !app_assoc.
      apply (substitute_step tab j P (chars "$(" ++ n ++ chars " " ++ x ++ chars ")" ++ R0)
               {| before := []; what := n; args := x; behind := R0 |} v f); [|exact T|exact E].
      rewrite (last_match_here P _ _ NP (match_here_sub n x R0 W C NR)); [cbn [before]; now rewrite app_nil_r|].
      cbn [List.tl chars list_ascii_of_string app].
      apply (unopened_plain (chars "(") (n ++ chars " " ++ x ++ chars ")" ++ R0)); [intros c [<-|[]]; discriminate|].
      apply unopened_plain; [now apply wordy_dollar|].
      apply (unopened_plain (chars " ") (x ++ chars ")" ++ R0)); [intros c [<-|[]]; discriminate|].
      now apply unopened_close.
  - destruct (written_one_line tab l x L) as [Nl Nx]. destruct (written_one_line tab r y R) as [Nr Ny].
    rewrite <- app_assoc in UR.
    destruct (IHr (P ++ written l) R0) as (k2 & K2).
    + rewrite one_line_app. now split.
    + exact NR.
    + now apply (unopened_suffix x).
    + destruct (IHl P (y ++ R0) NP) as (k1 & K1).
      * rewrite one_line_app. now split.
      * exact UR.
      * exists (k2 + k1)%nat. intros f. rewrite <- Nat.add_assoc.
        specialize (K2 (k1 + f)%nat). rewrite <- !app_assoc in K2 |- *. rewrite K2. now rewrite K1.
Qed.

(** ** C72 *)

(** Every substitution in the text, nested ones included, is replaced by its value and the rest is
    kept, provided that the values do not bring in new substitutions. *)
Theorem C72_substituted tab t v :
  expands tab t v -> unopened v ->
  exists k, forall f, substitute tab (k + f) (written t) = Some (Returns v).
Proof.
  intros H U.
  destruct (expands_substitute tab t v H [] []) as (k & K).
  - split; intros [].
  - split; intros [].
  - now rewrite app_nil_r.
  - exists k. intros f. specialize (K f). rewrite !app_nil_r in K. cbn [app] in K. rewrite K.
    destruct f; cbn [substitute]; now rewrite (last_match_none v U).
Qed.

(** Text without "$(" is left alone. *)
Theorem C72_plain_text_kept tab s f : unopened s -> substitute tab f s = Some (Returns s).
Proof. intros U. destruct f; cbn [substitute]; now rewrite (last_match_none s U). Qed.

(** A substitution that does not exist is an error, whatever precedes it. *)
Theorem C72_unknown_is_an_error tab P n x R f :
  tab n = None -> wordy n -> one_line P -> one_line R -> ~ In ")"%char x -> unopened (x ++ chars ")" ++ R) ->
  substitute tab (S f) (P ++ chars "$(" ++ n ++ chars " " ++ x ++ chars ")" ++ R) = Some Throws.
Proof.
  intros T W NP NR C U. cbn [substitute].
  rewrite (last_match_here P _ _ NP (match_here_sub n x R W C NR)).
  - cbn [what]. now rewrite T.
  - cbn [List.tl chars list_ascii_of_string app].
    apply (unopened_plain (chars "(") (n ++ chars " " ++ x ++ chars ")" ++ R)); [intros c [<-|[]]; discriminate|].
    apply unopened_plain; [now apply wordy_dollar|].
    apply (unopened_plain (chars " ") (x ++ chars ")" ++ R)); [intros c [<-|[]]; discriminate|exact U].
Qed.

(** The answer does not depend on how long one is prepared to wait. *)
Lemma substitute_more tab f s o : substitute tab f s = Some o -> forall k, substitute tab (f + k) s = Some o.
Proof.
  revert s; induction f as [|f IH]; intros s E k.
  - cbn in E. destruct (last_match s) as [m|] eqn:L; [discriminate|].
    destruct k; cbn; now rewrite L.
  - cbn [substitute plus] in *. destruct (last_match s) as [m|]; [|exact E].
    destruct (tab (what m)) as [g|]; [|exact E]. destruct (g (args m)); try exact E. now apply IH.
Qed.
Theorem C72_one_answer tab s f g o o' :
  substitute tab f s = Some o -> substitute tab g s = Some o' -> o = o'.
Proof.
  intros E E'. apply (substitute_more tab f s o) with (k := g) in E.
  apply (substitute_more tab g s o') with (k := f) in E'. rewrite Nat.add_comm in E'. congruence.
Qed.
(** What comes out has no substitution left that could be replaced. *)
Theorem C72_nothing_left tab f s v : substitute tab f s = Some (Returns v) -> last_match v = None.
Proof.
  revert s; induction f as [|f IH]; intros s E; cbn [substitute] in E;
    destruct (last_match s) as [m|] eqn:L; try discriminate; try (injection E as <-; exact L).
  destruct (tab (what m)) as [g|]; [|discriminate]. destruct (g (args m)); try discriminate.
  now apply (IH _ E).
Qed.

(** The claim without the proviso: every text whose substitutions all exist is substituted. *)
Definition C72_claim : Prop :=
  forall tab s, (forall n, tab n <> None) -> (forall n f x, tab n = Some f -> exists v, f x = Returns v) ->
    exists f o, substitute tab f s = Some o.
Theorem C72_refuted : ~ C72_claim.
Proof.
  intros H.
  destruct (H (fun _ => Some (fun _ => Returns (chars "$(var x)"))) (chars "$(var x)")) as (f & o & E).
  - discriminate.
  - intros n f x [= <-]. eauto.
  - assert (N : forall k, substitute (fun _ => Some (fun _ => Returns (chars "$(var x)"))) k (chars "$(var x)") = None).
    { induction k as [|k IH]; [reflexivity|]. exact IH. }
    rewrite N in E. discriminate.
Qed.

(** An example: "a/$(var p$(var q))/b". *)
Definition example_table : table := fun n =>
  if str_eqb n (chars "var") then
    Some (fun x => Returns (if str_eqb x (chars "q") then chars "1" else if str_eqb x (chars "p1") then chars "dir" else []))
  else None.
Definition example_template : template :=
  Seq (Text (chars "a/")) (Seq (Sub (chars "var") (Seq (Text (chars "p")) (Sub (chars "var") (Text (chars "q")))))
                               (Text (chars "/b"))).
Lemma var_wordy : wordy (chars "var").
Proof.
  split; [discriminate|]. intros c I. left. cbn in I.
  destruct I as [<-|[<-|[<-|[]]]]; vm_compute; tauto.
Qed.
Lemma unopened_no_dollar s : ~ In "$"%char s -> unopened s.
Proof. intros N a b E. apply N. rewrite E, in_app_iff. right. now left. Qed.
Example example_expands : expands example_table example_template (chars "a/dir/b").
Proof.
  assert (O : forall s, existsb newline (chars s) = false -> one_line (chars s)) by exact one_line_chars.
  apply (ex_seq _ _ _ (chars "a/") (chars "dir/b")); [apply ex_text, O; reflexivity|].
  apply (ex_seq _ _ _ (chars "dir") (chars "/b")); [|apply ex_text, O; reflexivity].
  eapply (ex_sub _ (chars "var") _ (chars "p1")); try reflexivity.
  - exact var_wordy.
  - apply (ex_seq _ _ _ (chars "p") (chars "1")); [apply ex_text, O; reflexivity|].
    eapply (ex_sub _ (chars "var") _ (chars "q")); try reflexivity.
    + exact var_wordy.
    + apply ex_text, O. reflexivity.
    + cbn. intuition discriminate.
    + apply unopened_no_dollar. cbn. intuition discriminate.
    + apply (O "1"%string). reflexivity.
  - cbn. intuition discriminate.
  - apply unopened_no_dollar. cbn. intuition discriminate.
  - apply (O "dir"%string). reflexivity.
Qed.
Example example_runs : substitute example_table 2 (written example_template) = Some (Returns (chars "a/dir/b"))
  /\ written example_template = chars "a/$(var p$(var q))/b".
Proof. split; reflexivity. Qed.

(** ** C73: attributes of type Integer *)
Section Integers.
Context (F : doubles) (scope : env F) (text : str -> outcome (option str)) (tab : table).
(** Boost's cast of the object to a string prints an Integer in decimal. *)
Definition prints : Prop :=
  forall n z, scope n = Returns (Some (PInt z)) -> text n = Returns (Some (show_Z z)).
Definition read (f : nat) (a : option str) : option (outcome Z) :=
  read_attribute 0%Z read_integer (evaluate F scope) text tab f a.

Lemma read_plain f s : unopened s ->
  read f (Some s) = read_value 0%Z read_integer (evaluate F scope) text s.
Proof. intros U. unfold read, read_attribute. now rewrite C72_plain_text_kept. Qed.

(** An attribute that is not there is an error, unless there is a default or it is optional. *)
Theorem C73_missing f d :
  read f None = Some Throws /\
  read_attribute_or 0%Z read_integer (evaluate F scope) text tab f None d = Some (Returns d) /\
  read_attribute_optional 0%Z read_integer (evaluate F scope) text tab f None = Some (Returns None).
Proof. repeat split. Qed.
(** The default is not used when the attribute is there. *)
Theorem C73_default_not_used f s d :
  read_attribute_or 0%Z read_integer (evaluate F scope) text tab f (Some s) d = read f (Some s).
Proof. reflexivity. Qed.

Lemma show_Z_head z : exists c s, show_Z z = c :: s /\ c <> "$"%char /\ ~ In "$"%char (show_Z z).
Proof.
  unfold show_Z.
  destruct (show_pos_spec (S (Z.to_nat (Z.log2 (Z.abs z)))) (Z.abs z) []) as (ds & E & NE & A & V).
  - split; [lia|]. rewrite Nat2Z.inj_succ, Z2Nat.id by apply Z.log2_nonneg.
    destruct (Z.eq_dec (Z.abs z) 0) as [->|]; [cbn; lia|].
    destruct (Z.log2_spec (Z.abs z) ltac:(lia)) as [_ U].
    assert (2 ^ Z.succ (Z.log2 (Z.abs z)) <= 10 ^ Z.succ (Z.log2 (Z.abs z)))%Z
      by (apply Z.pow_le_mono_l; pose proof (Z.log2_nonneg (Z.abs z)); lia). lia.
  - lia.
  - rewrite app_nil_r in E. rewrite E.
    assert (ND : ~ In "$"%char ds).
    { intros I. apply A in I. apply in_existsb in I. discriminate I. }
    destruct (z <? 0)%Z.
    + exists minus_sign, ds. split; [reflexivity|]. split; [discriminate|].
      intros [I|I]; [discriminate I|contradiction].
    + destruct ds as [|c ds]; [congruence|]. exists c, ds. split; [reflexivity|]. split; [|exact ND].
      intros ->. apply ND. now left.
Qed.

(** A number in decimal is read as itself. *)
Theorem C73_literal f z : (- 2 ^ 63 <= z < 2 ^ 63)%Z -> read f (Some (show_Z z)) = Some (Returns z).
Proof.
  intros R. destruct (show_Z_head z) as (c & s & E & Nc & ND).
  rewrite read_plain by now apply unopened_no_dollar.
  unfold read_value. rewrite E.
  replace (is_expression (c :: s)) with false.
  - destruct (Ascii.eqb_spec c "$"%char); [congruence|]. rewrite <- E, read_show_Z by exact R. reflexivity.
  - symmetry. unfold is_expression.
    destruct (strip_prefix (chars "${") (c :: s)) as [r|] eqn:S0; [|reflexivity].
    apply strip_prefix_some in S0. cbn in S0. congruence.
Qed.

(** A reference to an integer parameter gives its value, all 64 bits of it. *)
Theorem C73_reference f n z :
  prints -> all a_name_char n -> scope n = Returns (Some (PInt z)) -> (- 2 ^ 63 <= z < 2 ^ 63)%Z ->
  read f (Some (chars "$" ++ n)) = Some (Returns z).
Proof.
  intros Pr A S0 R. rewrite read_plain.
  - unfold read_value. cbn [chars list_ascii_of_string app].
    replace (is_expression ("$"%char :: n)) with false.
    + rewrite Ascii.eqb_refl. rewrite (Pr n z S0). cbn [bind]. rewrite read_show_Z by exact R. reflexivity.
    + symmetry. unfold is_expression.
      destruct (strip_prefix (chars "${") ("$"%char :: n)) as [r|] eqn:E; [|reflexivity].
      apply strip_prefix_some in E. cbn in E. injection E as ->.
      assert (I : a_name_char "{"%char) by (apply A; now left). apply in_existsb in I. discriminate I.
  - intros a b E. destruct a as [|c a].
    + cbn in E. injection E as ->. assert (I : a_name_char "("%char) by (apply A; now left).
      apply in_existsb in I. discriminate I.
    + cbn in E. injection E as _ ->. assert (I : a_name_char "$"%char) by (apply A, in_or_app; right; now left).
      apply in_existsb in I. discriminate I.
Qed.
(** A reference to a parameter that does not exist is an error. *)
Theorem C73_unknown_reference f n :
  all a_name_char n -> text n = Returns None -> read f (Some (chars "$" ++ n)) = Some Throws.
Proof.
  intros A S0. rewrite read_plain.
  - unfold read_value. cbn [chars list_ascii_of_string app].
    replace (is_expression ("$"%char :: n)) with false.
    + rewrite Ascii.eqb_refl, S0. reflexivity.
    + symmetry. unfold is_expression.
      destruct (strip_prefix (chars "${") ("$"%char :: n)) as [r|] eqn:E; [|reflexivity].
      apply strip_prefix_some in E. cbn in E. injection E as ->.
      assert (I : a_name_char "{"%char) by (apply A; now left). apply in_existsb in I. discriminate I.
  - intros a b E. destruct a as [|c a].
    + cbn in E. injection E as ->. assert (I : a_name_char "("%char) by (apply A; now left).
      apply in_existsb in I. discriminate I.
    + cbn in E. injection E as _ ->. assert (I : a_name_char "$"%char) by (apply A, in_or_app; right; now left).
      apply in_existsb in I. discriminate I.
Qed.

(** An expression gives its value if it is one of integers that fit 32 bits throughout. *)
Theorem C73_expression f e s w z :
  spelled 0 e s -> blank w -> exact F scope e = Some z -> all_small F scope e ->
  unopened (chars "${" ++ (s ++ w) ++ chars "}") ->
  read f (Some (chars "${" ++ (s ++ w) ++ chars "}")) = Some (Returns z).
Proof.
  intros H B E S0 U. rewrite read_plain by exact U. unfold read_value.
  change (chars "${" ++ (s ++ w) ++ chars "}") with ("$"%char :: "{"%char :: ((s ++ w) ++ chars "}")).
  replace (is_expression _) with true.
  - cbn [skipn]. change (chars "}") with ["}"%char]. rewrite removelast_last.
    destruct (C71_integers_exact F scope e s w z H B E S0) as (t & E1 & E2). rewrite E1. cbn [option_map bind].
    now rewrite E2.
  - symmetry. unfold is_expression. cbn [strip_prefix chars list_ascii_of_string Ascii.eqb Bool.eqb].
    change ("$"%char :: "{"%char :: ((s ++ w) ++ ["}"%char])) with (("$"%char :: "{"%char :: (s ++ w)) ++ ["}"%char]).
    rewrite last_last. reflexivity.
Qed.

(** "$(var n)" reads the same parameter as "$n". *)
Theorem C73_var n z :
  prints -> tab (chars "var") = Some (var_of text) -> all a_name_char n ->
  scope n = Returns (Some (PInt z)) -> (- 2 ^ 63 <= z < 2 ^ 63)%Z ->
  exists k, forall f, read (k + f) (Some (chars "$(var " ++ n ++ chars ")")) = Some (Returns z).
Proof.
  intros Pr T A S0 R.
  destruct (show_Z_head z) as (c & s & E & Nc & ND).
  assert (NL : forall l, (forall x, In x l -> a_name_char x) -> one_line l).
  { intros l Al. split; intros I; apply Al in I; apply in_existsb in I; discriminate I. }
  assert (X : expands tab (Sub (chars "var") (Text n)) (show_Z z)).
  { apply (ex_sub tab (chars "var") (Text n) n (var_of text)).
    - exact var_wordy.
    - apply ex_text. now apply NL.
    - intros I. apply A in I. apply in_existsb in I. discriminate I.
    - apply unopened_no_dollar. intros I. apply A in I. apply in_existsb in I. discriminate I.
    - exact T.
    - unfold var_of. rewrite (Pr n z S0). reflexivity.
    - unfold show_Z in *.
      destruct (show_pos_spec (S (Z.to_nat (Z.log2 (Z.abs z)))) (Z.abs z) []) as (ds & E' & NE & Ad & V).
      + split; [lia|]. rewrite Nat2Z.inj_succ, Z2Nat.id by apply Z.log2_nonneg.
        destruct (Z.eq_dec (Z.abs z) 0) as [->|]; [cbn; lia|].
        destruct (Z.log2_spec (Z.abs z) ltac:(lia)) as [_ U].
        assert (2 ^ Z.succ (Z.log2 (Z.abs z)) <= 10 ^ Z.succ (Z.log2 (Z.abs z)))%Z
          by (apply Z.pow_le_mono_l; pose proof (Z.log2_nonneg (Z.abs z)); lia). lia.
      + lia.
      + rewrite app_nil_r in E'. rewrite E'.
        assert (Nd : one_line ds).
        { split; intros I; apply Ad in I; apply in_existsb in I; discriminate I. }
        destruct (z <? 0)%Z; [|exact Nd].
        apply (one_line_app (chars "-") ds). split; [now apply one_line_chars|exact Nd]. }
  destruct (C72_substituted tab _ _ X (unopened_no_dollar _ ND)) as (k & K).
  exists k. intros f. specialize (K f). cbn [written] in K.
  unfold read, read_attribute.
  replace (chars "$(var " ++ n ++ chars ")") with (chars "$(" ++ chars "var" ++ chars " " ++ n ++ chars ")")
    by reflexivity.
  rewrite K. pose proof (C73_literal f z R) as L. rewrite read_plain in L by now apply unopened_no_dollar.
  exact L.
Qed.

(** An empty value is taken as 0 without complaint. *)
Theorem C73_empty f : read f (Some []) = Some (Returns 0%Z).
Proof. unfold read, read_attribute. rewrite C72_plain_text_kept; [reflexivity|]. intros [|? ?] ?; discriminate. Qed.
End Integers.

(** The hypotheses are met. *)
Definition sample_scope : env milli := fun n =>
  if str_eqb n (chars "n") then Returns (Some (PInt 4294967297)) else Returns None.
Definition sample_text : str -> outcome (option str) := fun n =>
  if str_eqb n (chars "n") then Returns (Some (chars "4294967297")) else Returns None.
Definition sample_table : table := fun w =>
  if str_eqb w (chars "var") then Some (var_of sample_text) else None.
Example sample_prints : prints milli sample_scope sample_text.
Proof.
  intros n z. unfold sample_scope, sample_text. destruct (str_eqb n (chars "n")); [|discriminate].
  intros [= <-]. reflexivity.
Qed.
Example sample_reads :
  read milli sample_scope sample_text sample_table 1 (Some (chars "$n")) = Some (Returns 4294967297%Z) /\
  read milli sample_scope sample_text sample_table 1 (Some (chars "$(var n)")) = Some (Returns 4294967297%Z) /\
  read milli sample_scope sample_text sample_table 1 (Some (chars "${$n}")) = Some (Returns 1%Z) /\
  read milli sample_scope sample_text sample_table 1 (Some (chars "$x")) = Some Throws /\
  read milli sample_scope sample_text sample_table 1 (Some (chars "-17")) = Some (Returns (-17)%Z) /\
  read milli sample_scope sample_text sample_table 1 (Some (chars "${1 + 2 * 3}")) = Some (Returns 7%Z).
Proof. repeat split; vm_compute; reflexivity. Qed.

(** "${$n}" and "$n" are not the same number. *)
Theorem C73_expression_of_reference_refuted :
  ~ (forall F (scope : env F) text tab f n z, prints F scope text -> all a_name_char n ->
       scope n = Returns (Some (PInt z)) -> (- 2 ^ 63 <= z < 2 ^ 63)%Z ->
       read F scope text tab f (Some (chars "${$" ++ n ++ chars "}")) = Some (Returns z)).
Proof.
  intros H.
  specialize (H milli sample_scope sample_text sample_table 1%nat (chars "n") 4294967297%Z sample_prints).
  assert (E : read milli sample_scope sample_text sample_table 1 (Some (chars "${$n}")) = Some (Returns 1%Z))
    by reflexivity.
  assert (X : Some (Returns 1%Z) = Some (Returns 4294967297%Z)); [|congruence].
  rewrite <- E. apply H; [|reflexivity|lia]. intros c [<-|[]]. vm_compute. tauto.
Qed.

Print Assumptions C72_substituted.
Print Assumptions C72_plain_text_kept.
Print Assumptions C72_unknown_is_an_error.
Print Assumptions C72_one_answer.
Print Assumptions C72_nothing_left.
Print Assumptions C72_refuted.
Print Assumptions C73_missing.
Print Assumptions C73_default_not_used.
Print Assumptions C73_literal.
Print Assumptions C73_reference.
Print Assumptions C73_unknown_reference.
Print Assumptions C73_expression.
Print Assumptions C73_var.
Print Assumptions C73_empty.
Print Assumptions C73_expression_of_reference_refuted.
