(** * Expressions: what every expression means, and what becomes of its value. *)
From Coq Require Import Ascii String List Bool Arith ZArith Lia.
From Verif Require Import M_Scope M_Parameter M_Expression S_Expression P_Expression.
Import ListNotations.
Local Open Scope list_scope.

Section Theorems.
Context (F : doubles) (scope : env F).

(** ** C70 *)

(** Evaluating never fails to return an answer in the model: the fuel suffices. *)
Theorem C70_terminates s : evaluate F scope s <> None.
Proof.
  unfold evaluate. pose proof (parse_fed F scope (S (length s)) s ltac:(lia)) as N.
  destruct (parse F scope (S (length s)) s); congruence.
Qed.

(** Every text that spells an expression evaluates to the meaning of that expression: precedence,
    left associativity, parentheses, white space, types and errors. *)
Theorem C70_expression_means e s w :
  spelled 0 e s -> blank w ->
  evaluate F scope (s ++ w) = Some (bind (meaning F scope e) (fun v => Returns (show F v))).
Proof.
  intros H B. unfold evaluate. rewrite parse_level.
  rewrite (spelled_reads F scope 0 e s H); [|lia|now apply tail_end].
  rewrite continue_tail0; [|now apply tail_end|rewrite <- (app_nil_r w), lit_blank by exact B; reflexivity].
  destruct (meaning F scope e) as [v| |]; cbn [pval bind]; try reflexivity.
  rewrite <- (app_nil_r w), skip_blank by exact B. reflexivity.
Qed.

(** So a text means one thing only, however it is read. *)
Theorem C70_unambiguous e e' s :
  spelled 0 e s -> spelled 0 e' s -> meaning F scope e = meaning F scope e'.
Proof.
  intros H H'.
  assert (B : blank []) by (intros c []).
  pose proof (spelled_reads F scope 0 e s H (length (s ++ [])) [] ltac:(lia) (tail_end F [] B)) as E.
  pose proof (spelled_reads F scope 0 e' s H' (length (s ++ [])) [] ltac:(lia) (tail_end F [] B)) as E'.
  rewrite E in E'. rewrite !continue_tail0 in E' by (try apply tail_end; try exact B; reflexivity).
  destruct (meaning F scope e), (meaning F scope e'); cbn in E'; congruence.
Qed.

Lemma spelled_weaker k e s : (k <= 3)%nat -> spelled k e s -> spelled 0 e s.
Proof. induction k as [|k IH]; intros L H; [exact H|]. apply IH; [lia|]. apply sp_next; [lia|exact H]. Qed.

(** Booleans and numbers do not mix in + - * % or in "and", "or", "not" and signs. *)
Theorem C70_mixing_is_an_error o a b sa w sb x y :
  spelled (precedence o) a sa -> gap o w -> spelled (S (precedence o)) b sb ->
  meaning F scope a = Returns x -> meaning F scope b = Returns y ->
  is_bool F x <> is_bool F y -> o <> Divide ->
  evaluate F scope (sa ++ w ++ sign o ++ sb) = Some Throws.
Proof.
  intros Ha G Hb Ex Ey N ND.
  assert (H : spelled 0 (ABin o a b) (sa ++ w ++ sign o ++ sb)).
  { apply (spelled_weaker (precedence o)); [destruct o; cbn; lia|]. now apply sp_bin. }
  pose proof (C70_expression_means (ABin o a b) _ [] H ltac:(intros c [])) as E.
  rewrite app_nil_r in E. rewrite E. cbn [meaning]. rewrite Ex, Ey. cbn [bind].
  destruct o; try congruence; destruct x, y; cbn in N |- *; try congruence; reflexivity.
Qed.

(** ** Integers survive the way back into an attribute *)

Lemma number_app ds c : number (ds ++ [c]) = (10 * number ds + (Z.of_N (N_of_ascii c) - 48))%Z.
Proof.
  induction ds as [|d ds IH]; cbn [app number length]; [cbn; lia|].
  rewrite IH, app_length, Nat2Z.inj_add. change (Z.of_nat (length [c])) with 1%Z.
  rewrite Z.pow_add_r by lia. ring.
Qed.
Lemma digit_char z : (0 <= z < 10)%Z ->
  a_digit (ascii_of_N (Z.to_N (48 + z))) /\ (Z.of_N (N_of_ascii (ascii_of_N (Z.to_N (48 + z)))) - 48 = z)%Z.
Proof.
  intros H.
  assert (C : (z = 0 \/ z = 1 \/ z = 2 \/ z = 3 \/ z = 4 \/ z = 5 \/ z = 6 \/ z = 7 \/ z = 8 \/ z = 9)%Z) by lia.
  unfold a_digit.
  destruct C as [->|[->|[->|[->|[->|[->|[->|[->|[->| ->]]]]]]]]]; (split; [vm_compute; tauto|reflexivity]).
Qed.
Lemma show_pos_spec fuel z acc : (0 <= z < 10 ^ Z.of_nat fuel)%Z -> (0 < fuel)%nat ->
  exists ds, show_pos fuel z acc = ds ++ acc /\ ds <> [] /\ all a_digit ds /\ number ds = z.
Proof.
  revert z acc; induction fuel as [|f IH]; intros z acc H Lf; [lia|].
  cbn [show_pos]. pose proof (Z.mod_pos_bound z 10 ltac:(lia)) as M.
  destruct (digit_char (z mod 10) M) as [Dc Vc].
  set (c := ascii_of_N (Z.to_N (48 + z mod 10))) in *.
  destruct (Z.ltb_spec z 10).
  - exists [c]. split; [reflexivity|]. split; [discriminate|]. split.
    + intros d [<-|[]]. exact Dc.
    + cbn [number length]. rewrite Vc. cbn. rewrite Z.mod_small by lia. lia.
  - rewrite Nat2Z.inj_succ, Z.pow_succ_r in H by lia.
    destruct f as [|f]; [cbn in H; lia|].
    destruct (IH (z / 10)%Z (c :: acc)) as (ds & E & NE & A & V); [|lia|].
    { split; [apply Z.div_pos; lia|apply Z.div_lt_upper_bound; lia]. }
    exists (ds ++ [c]). rewrite E, <- app_assoc. split; [reflexivity|]. split; [now destruct ds|]. split.
    + intros d I. apply in_app_iff in I as [I|[<-|[]]]; [now apply A|exact Dc].
    + rewrite number_app, V, Vc. symmetry. apply Z.div_mod. lia.
Qed.
Lemma show_pos_natural m : (0 <= m)%Z ->
  natural (show_pos (S (Z.to_nat (Z.log2 m))) m []) = Some m
  /\ exists c s, show_pos (S (Z.to_nat (Z.log2 m))) m [] = c :: s /\ is_digit c = true.
Proof.
  intros H. destruct (show_pos_spec (S (Z.to_nat (Z.log2 m))) m []) as (ds & E & NE & A & V).
  - split; [exact H|]. rewrite Nat2Z.inj_succ, Z2Nat.id by apply Z.log2_nonneg.
    destruct (Z.eq_dec m 0) as [->|]; [cbn; lia|].
    destruct (Z.log2_spec m ltac:(lia)) as [_ U].
    assert (2 ^ Z.succ (Z.log2 m) <= 10 ^ Z.succ (Z.log2 m))%Z
      by (apply Z.pow_le_mono_l; pose proof (Z.log2_nonneg m); lia). lia.
  - lia.
  - rewrite app_nil_r in E. rewrite E. split; [rewrite natural_number by assumption; now rewrite V|].
    destruct ds as [|c s]; [congruence|]. exists c, s. split; [reflexivity|]. apply digit_spec, A. now left.
Qed.

(** Printing an integer and reading it as an attribute of type Integer gives it back. *)
Lemma read_show_Z z : (- 2 ^ 63 <= z < 2 ^ 63)%Z -> read_integer (show_Z z) = Some z.
Proof.
  intros R. unfold show_Z. destruct (show_pos_natural (Z.abs z) ltac:(lia)) as [N (c & s & E & Dc)].
  set (ds := show_pos _ _ _) in *.
  assert (Nm : Ascii.eqb c minus_sign = false) by (rewrite Ascii.eqb_sym; now apply digit_eqb).
  assert (Np : Ascii.eqb c plus_sign = false) by (rewrite Ascii.eqb_sym; now apply digit_eqb).
  destruct (Z.ltb_spec z 0).
  - unfold read_integer, signed. rewrite Ascii.eqb_refl, N. cbn [option_map].
    destruct (Z.leb_spec (Z.abs z) (2 ^ 63)); [f_equal; lia|lia].
  - unfold read_integer, signed. rewrite E, Nm, Np, <- E, N. cbn [option_map].
    destruct (Z.ltb_spec (Z.abs z) (2 ^ 63)); [f_equal; lia|lia].
Qed.

(** ** C71 *)

(** An expression built from integer literals, integer parameters that fit 32 bits, parentheses,
    signs, + - and *: its value over the integers. *)
Fixpoint exact (e : ast) : option Z :=
  match e with
  | AInt ds => Some (number ds)
  | ARef n => match scope n with Returns (Some (PInt z)) => Some z | _ => None end
  | ANeg a => option_map Z.opp (exact a)
  | ABin Plus a b => match exact a, exact b with Some x, Some y => Some (x + y)%Z | _, _ => None end
  | ABin Minus a b => match exact a, exact b with Some x, Some y => Some (x - y)%Z | _, _ => None end
  | ABin Times a b => match exact a, exact b with Some x, Some y => Some (x * y)%Z | _, _ => None end
  | _ => None
  end.
(** All literals, parameters and intermediate results fit 32 bits. *)
Definition small (z : Z) : Prop := (-2147483648 <= z <= 2147483647)%Z.
Fixpoint all_small (e : ast) : Prop :=
  (forall z, exact e = Some z -> small z) /\
  match e with
  | ANeg a => all_small a
  | ABin _ a b => all_small a /\ all_small b
  | _ => True
  end.

Lemma fits_small z : small z -> fits F z = Returns (EInt z).
Proof.
  intros [L U]. unfold fits. now rewrite (proj2 (Z.leb_le _ _) L), (proj2 (Z.leb_le _ _) U).
Qed.
Lemma exact_meaning e z : all_small e -> exact e = Some z -> meaning F scope e = Returns (EInt z).
Proof.
  revert z; induction e as [ds|ds fs|b|n|a IHa|a IHa|o a IHa b IHb|f a IHa|a IHa b IHb];
    intros z S0 E; cbn [exact] in E; try discriminate.
  - now injection E as <-.
  - cbn [all_small] in S0. destruct S0 as [S0 _]. cbn [meaning exact] in *. unfold parameter.
    destruct (scope n) as [[[x| | | | |]|]| |]; try discriminate. injection E as <-.
    specialize (S0 x eq_refl). destruct S0. cbn [bind].
    rewrite Z.mod_small by lia. do 2 f_equal. lia.
  - destruct S0 as [S0 Sa]. destruct (exact a) as [x|] eqn:Ex; [|discriminate]. injection E as <-.
    cbn [meaning]. rewrite (IHa x Sa eq_refl). cbn. apply fits_small, S0. cbn. now rewrite Ex.
  - destruct S0 as [S0 [Sa Sb]]. cbn [exact] in S0.
    destruct o; try discriminate; destruct (exact a) as [x|] eqn:Ex; try discriminate;
      destruct (exact b) as [y|] eqn:Ey; try discriminate; injection E as <-; cbn [meaning];
      rewrite (IHa x Sa eq_refl), (IHb y Sb eq_refl); cbn; now apply fits_small, S0.
Qed.

(** Integer arithmetic is exact as long as everything fits 32 bits, and the result is read back
    unchanged as an Integer. *)
Theorem C71_integers_exact e s w z :
  spelled 0 e s -> blank w -> exact e = Some z -> all_small e ->
  exists text, evaluate F scope (s ++ w) = Some (Returns text) /\ read_integer text = Some z.
Proof.
  intros H B E S0. exists (show_Z z). split.
  - rewrite (C70_expression_means e s w H B), (exact_meaning e z S0 E). reflexivity.
  - apply read_show_Z. destruct e; destruct S0 as [S0 _]; destruct (S0 z E);
      change (2 ^ 63)%Z with 9223372036854775808%Z; lia.
Qed.

(** ... but it is undefined as soon as the outermost result does not. *)
Theorem C71_overflow_undefined o a b sa w sb x y :
  spelled (precedence o) a sa -> gap o w -> spelled (S (precedence o)) b sb ->
  exact a = Some x -> exact b = Some y -> all_small a -> all_small b ->
  (exists z, exact (ABin o a b) = Some z /\ ~ small z) ->
  evaluate F scope (sa ++ w ++ sign o ++ sb) = Some Undefined.
Proof.
  intros Ha G Hb Ex Ey Sa Sb (z & Ez & NS).
  assert (H : spelled 0 (ABin o a b) (sa ++ w ++ sign o ++ sb)).
  { apply (spelled_weaker (precedence o)); [destruct o; cbn; lia|]. now apply sp_bin. }
  pose proof (C70_expression_means (ABin o a b) _ [] H ltac:(intros c [])) as E.
  rewrite app_nil_r in E. rewrite E. cbn [meaning].
  rewrite (exact_meaning a x Sa Ex), (exact_meaning b y Sb Ey). cbn [bind].
  assert (U : forall z, ~ small z -> fits F z = Undefined).
  { intros z' N'. unfold fits, small in *.
    destruct (Z.leb_spec (-2147483648) z'), (Z.leb_spec z' 2147483647); try reflexivity; lia. }
  cbn [exact] in Ez. rewrite Ex, Ey in Ez.
  destruct o; try discriminate; injection Ez as Ez; subst z; cbn; now rewrite U.
Qed.

(** / % and pow always give a floating point text: if the standard library prints doubles with a
    decimal point (or as inf or nan), an attribute of type Integer does not accept it, even for 6 / 2 or 7 % 3. *)
Definition shows_point : Prop := forall d,
  In "."%char (d_show F d) \/
  In (d_show F d) [chars "inf"; chars "-inf"; chars "nan"; chars "-nan"].
Lemma digits_point acc s : In "."%char s -> digits acc s = None.
Proof.
  revert acc; induction s as [|c s IH]; intros acc I; [destruct I|]. cbn [digits].
  destruct I as [->|I]; [reflexivity|]. destruct (digit c); [now apply IH|reflexivity].
Qed.
Lemma natural_point s : In "."%char s -> natural s = None.
Proof. intros I. destruct s as [|c s]; [reflexivity|]. now apply digits_point. Qed.
Lemma read_integer_point s : In "."%char s -> read_integer s = None.
Proof.
  intros I. unfold read_integer, signed. destruct s as [|c s]; [reflexivity|].
  destruct (Ascii.eqb_spec c minus_sign) as [->|].
  { destruct I as [I|I]; [discriminate I|]. now rewrite natural_point. }
  destruct (Ascii.eqb_spec c plus_sign) as [->|].
  { destruct I as [I|I]; [discriminate I|]. now rewrite natural_point. }
  now rewrite natural_point.
Qed.
Lemma read_integer_double s :
  In "."%char s \/ In s [chars "inf"; chars "-inf"; chars "nan"; chars "-nan"] -> read_integer s = None.
Proof.
  intros [I|I]; [now apply read_integer_point|].
  destruct I as [<-|[<-|[<-|[<-|[]]]]]; reflexivity.
Qed.
Theorem C71_division_is_not_an_integer o a b sa w sb text :
  shows_point -> o = Divide \/ o = Modulo ->
  spelled 3 a sa -> blank w -> spelled 4 b sb ->
  evaluate F scope (sa ++ w ++ sign o ++ sb) = Some (Returns text) -> read_integer text = None.
Proof.
  intros P O Ha B Hb E.
  assert (H : spelled 0 (ABin o a b) (sa ++ w ++ sign o ++ sb)).
  { do 3 (apply sp_next; [lia|]).
    destruct O as [-> | ->]; [apply (sp_bin Divide)|apply (sp_bin Modulo)];
      try assumption; split; cbn; auto. }
  pose proof (C70_expression_means (ABin o a b) _ [] H ltac:(intros c [])) as E'.
  rewrite app_nil_r in E'. rewrite E' in E. cbn [meaning] in E.
  destruct (meaning F scope a) as [x| |]; cbn [bind] in E; try discriminate.
  destruct (meaning F scope b) as [y| |]; cbn [bind] in E; try discriminate.
  destruct O as [-> | ->]; cbn [apply] in E.
  - cbn [bind show] in E. injection E as <-. apply read_integer_double, P.
  - destruct (is_bool F x || is_bool F y); cbn [bind show] in E; [discriminate|].
    injection E as <-. apply read_integer_double, P.
Qed.

(** An empty expression is 0, one of white space only is an error. *)
Theorem C71_empty_is_zero : evaluate F scope [] = Some (Returns (chars "0")).
Proof. reflexivity. Qed.
End Theorems.

(** ** A concrete instance: doubles as pairs of an integer mantissa and a decimal exponent are not
    needed to run the examples, integers times a thousand are enough. *)
Definition milli : doubles :=
  {| D := Z; d_of_Z := fun z => (1000 * z)%Z; d_add := Z.add; d_sub := Z.sub;
     d_mul := fun a b => (a * b / 1000)%Z; d_div := fun a b => (a * 1000 / b)%Z;
     d_fmod := Z.rem; d_pow := fun a b => (1000 * (a / 1000) ^ (b / 1000))%Z; d_neg := Z.opp;
     d_round := fun a => Some ((a + 500) / 1000)%Z; d_floor := fun a => Some (a / 1000)%Z;
     d_ceil := fun a => Some (- ((- a) / 1000))%Z;
     d_sqrt := fun a => if (a <? 0)%Z then None else Some (Z.sqrt (a / 1000))%Z;
     d_show := fun a => show_Z (a / 1000) ++ chars "." ++ show_Z (a mod 1000);
     d_read := fun s => match natural (fst (span is_digit s)) with Some n => (1000 * n)%Z | None => 0%Z end |}.
Definition some_scope : env milli := fun n =>
  if str_eqb n (chars "n") then Returns (Some (PInt 4294967297))
  else if str_eqb n (chars "u") then Returns (Some (PUns 0))
  else if str_eqb n (chars "b") then Returns (Some (PBool true))
  else if str_eqb n (chars "s") then Returns (Some POther)
  else Returns None.
Definition run (t : string) := evaluate milli some_scope (chars t).

Example milli_shows_point : shows_point milli.
Proof. intros d. left. apply in_or_app. right. now left. Qed.

Ltac digits_ok := let c := fresh in intros c H; vm_compute in H |- *; tauto.
(** 1 + 2 * -3 - 4 is (1 + (2 * (-3))) - 4. *)
Definition tree := ABin Minus (ABin Plus (AInt (chars "1"))
                     (ABin Times (AInt (chars "2")) (ANeg (AInt (chars "3"))))) (AInt (chars "4")).
Lemma one_digit c : a_digit c -> spelled 6 (AInt [c]) (chars " " ++ [c]).
Proof.
  intros A. apply sp_int.
  - intros d [<-|[]]. cbn. tauto.
  - discriminate.
  - intros d [<-|[]]. exact A.
  - cbn. apply in_existsb in A. revert A. destruct c as [[] [] [] [] [] [] [] []]; vm_compute; congruence.
Qed.
Example tree_spelled : spelled 0 tree (chars " 1 + 2 * - 3 - 4").
Proof.
  assert (D : forall c, a_digit c -> spelled 4 (AInt [c]) (chars " " ++ [c])).
  { intros c A. do 2 (apply sp_next; [lia|]). now apply one_digit. }
  assert (B : blank (chars " ")) by (intros d [<-|[]]; cbn; tauto).
  do 2 (apply sp_next; [lia|]).
  apply (sp_bin Minus _ _ (chars " 1 + 2 * - 3") (chars " ") (chars " 4")); [|split; [exact B|exact I]|].
  - apply (sp_bin Plus _ _ (chars " 1") (chars " ") (chars " 2 * - 3")); [|split; [exact B|exact I]|].
    + do 2 (apply sp_next; [cbn; lia|]). apply (D "1"%char). vm_compute. tauto.
    + apply (sp_bin Times _ _ (chars " 2") (chars " ") (chars " - 3")); [|split; [exact B|exact I]|].
      * apply sp_next; [cbn; lia|]. apply (D "2"%char). vm_compute. tauto.
      * apply (sp_neg _ (chars " ") (chars " 3")); [exact B|].
        apply sp_next; [lia|]. apply (one_digit "3"%char). vm_compute. tauto.
  - apply sp_next; [cbn; lia|]. apply (D "4"%char). vm_compute. tauto.
Qed.
Example tree_value : run " 1 + 2 * - 3 - 4" = Some (Returns (chars "-9")).
Proof. reflexivity. Qed.
Example tree_exact : exact milli some_scope tree = Some (-9)%Z /\ all_small milli some_scope tree.
Proof.
  split; [reflexivity|]. cbn. unfold small.
  repeat match goal with |- _ /\ _ => split | |- forall _, _ => intros ? [= <-] end; cbn; lia || exact I.
Qed.
Example logic_value : run "not false and (true or $b)" = Some (Returns (chars "true")).
Proof. reflexivity. Qed.
Example overflow_value : run "2147483647 + 1" = Some Undefined.
Proof. reflexivity. Qed.
Example mixing_value : run "1 + true" = Some Throws /\ run "1 and true" = Some Throws.
Proof. split; reflexivity. Qed.

(** ** What does not hold *)

(** The value of an integer parameter is not preserved: 4294967297 reads as 1. *)
Theorem C71_parameter_value_refuted :
  ~ (forall F (scope : env F) n z, scope n = Returns (Some (PInt z)) ->
       forall text, evaluate F scope (chars "$" ++ n) = Some (Returns text) ->
       read_integer text = Some z).
Proof.
  intros H. specialize (H milli some_scope (chars "n") 4294967297%Z eq_refl (chars "1") eq_refl).
  discriminate.
Qed.
(** Unsigned arithmetic wraps around: 0 - 1 is 4294967295. *)
Example unsigned_wraps : run "$u - 1" = Some (Returns (chars "4294967295")).
Proof. reflexivity. Qed.
(** sqrt gives an integer: sqrt(2) is 1. *)
Example sqrt_truncates : run "sqrt(2)" = Some (Returns (chars "1")).
Proof. reflexivity. Qed.
(** Division accepts booleans. *)
Example boolean_divided : run "true / 2" = Some (Returns (chars "0.500")).
Proof. reflexivity. Qed.
(** Signs do not repeat. *)
Example no_double_sign : run "- - 1" = Some Throws /\ run "2 - - 1" = Some (Returns (chars "3")).
Proof. split; reflexivity. Qed.
(** 7 % 3 is a floating point text. *)
Example modulo_text : run "7 % 3" = Some (Returns (chars "1.0")) /\ read_integer (chars "1.0") = None.
Proof. split; reflexivity. Qed.
Example undeclared : run "$x" = Some Throws /\ run "$s" = Some Throws /\ run "1 2" = Some Throws.
Proof. repeat split; reflexivity. Qed.

Print Assumptions C70_terminates.
Print Assumptions C70_expression_means.
Print Assumptions C70_unambiguous.
Print Assumptions C70_mixing_is_an_error.
Print Assumptions C71_integers_exact.
Print Assumptions C71_overflow_undefined.
Print Assumptions C71_division_is_not_an_integer.
Print Assumptions C71_empty_is_zero.
Print Assumptions C71_parameter_value_refuted.
