(** Proofs about parameters. *)
From Coq Require Import Ascii String List Bool Arith ZArith QArith Qround Lia Lqa.
From Verif Require Import M_Condition M_Scope M_Parameter S_Parameter.
Import ListNotations.
Local Open Scope Z_scope.
Local Open Scope list_scope.

Lemma str_eqb_spec : forall a b, str_eqb a b = true <-> a = b.
Proof. intros; unfold str_eqb; destruct (list_eq_dec ascii_dec a b); split; congruence. Qed.
Lemma str_eqb_refl : forall a, str_eqb a a = true.
Proof. intros; apply str_eqb_spec; auto. Qed.
Lemma str_eqb_neq : forall a b, str_eqb a b = false <-> a <> b.
Proof.
  intros. rewrite <- not_true_iff_false, str_eqb_spec. tauto.
Qed.

Lemma before_nil : forall a, ~ before a [].
Proof.
  intros a H. remember [] as e eqn:E. destruct H as [p c t|p a s b t N]; destruct p; discriminate.
Qed.
Lemma before_cons : forall x a y b,
  before (x :: a) (y :: b) <-> (N_of_ascii x < N_of_ascii y)%N \/ (x = y /\ before a b).
Proof.
  intros x a y b. split.
  - intros H. remember (x :: a) as u eqn:U. remember (y :: b) as v eqn:V.
    destruct H as [p c t|p a' s b' t N].
    + subst p. injection V as -> <-. right. split; auto. constructor.
    + destruct p as [|z p]; simpl in *; injection U as <- <-; injection V as <- <-; auto.
      right. split; auto. constructor; auto.
  - intros [H|[-> H]]; [apply (before_differ [] x a y b H)|].
    destruct H as [p c t|p a' s b' t N].
    + apply (before_shorter (y :: p) c t).
    + apply (before_differ (y :: p) a' s b' t N).
Qed.
Lemma lt_str_spec : forall a b, lt_str a b = true <-> before a b.
Proof.
  induction a as [|x a IH]; intros [|y b]; simpl.
  - split; [discriminate|]. intros H. destruct (before_nil _ H).
  - split; auto. intros _. apply (before_shorter [] y b).
  - split; [discriminate|]. intros H. destruct (before_nil _ H).
  - rewrite orb_true_iff, andb_true_iff, N.ltb_lt, Ascii.eqb_eq, IH, before_cons. tauto.
Qed.

Lemma lt_num_spec : forall a b, lt_num a b = true <-> less_num a b.
Proof.
  intros a b; split.
  - destruct a, b; simpl; intros H; try discriminate; constructor.
    rewrite negb_true_iff in H. apply Qnot_le_lt. intros C. apply Qle_bool_iff in C. congruence.
  - destruct 1; simpl; auto. rewrite negb_true_iff. apply not_true_iff_false.
    rewrite Qle_bool_iff. lra.
Qed.
Lemma eq_num_spec : forall a b, eq_num a b = true <-> same_num a b.
Proof.
  intros a b; split.
  - destruct a, b; simpl; intros H; try discriminate; constructor. apply Qeq_bool_iff; auto.
  - destruct 1; simpl; auto. apply Qeq_bool_iff; auto.
Qed.

Lemma or_related : forall (lt eq : bool) (Lt Eq : Prop), (lt = true <-> Lt) -> (eq = true <-> Eq) ->
  (lt || eq = true <-> Lt \/ Eq).
Proof. intros lt eq Lt Eq A B. rewrite orb_true_iff, A, B. tauto. Qed.
Lemma not_related : forall (eq : bool) (Eq : Prop), (eq = true <-> Eq) -> (negb eq = true <-> ~ Eq).
Proof. intros eq Eq B. rewrite negb_true_iff, <- not_true_iff_false, B. tauto. Qed.
Ltac rel A B :=
  first [apply B | apply A | apply (not_related _ _ B) | apply (or_related _ _ _ _ (A _ _) B)].

Lemma compare_related : forall lex v r s b,
  compare lex v r s = Returns b ->
  exists x, construct lex (type_of v) s = Returns x /\ (b = true <-> related r v x).
Proof.
  intros lex v r s b H.
  assert (Z1 : forall a c, (a <? c) = true <-> a < c) by (intros; apply Z.ltb_lt).
  assert (Z2 : forall a c, (a =? c) = true <-> a = c) by (intros; apply Z.eqb_eq).
  destruct v; simpl in *.
  - destruct (construct_boolean s) as [x|]; simpl in *; [|discriminate]. injection H as <-.
    eexists; split; [reflexivity|].
    assert (A : forall p q, lt_bool p q = true <-> less (VBoolean p) (VBoolean q)).
    { intros [] []; unfold lt_bool; simpl; split; try discriminate; try constructor;
        inversion 1. }
    assert (B : eqb b0 x = true <-> VBoolean b0 = VBoolean x).
    { rewrite eqb_true_iff. split; congruence. }
    destruct r; simpl; rel A B.
  - unfold construct_double in *. destruct (lex s) as [x|]; simpl in *; [|discriminate].
    injection H as <-. eexists; split; [reflexivity|].
    assert (A : forall p q, lt_num p q = true <-> less (VDouble p) (VDouble q)).
    { intros p q. rewrite lt_num_spec. split; [constructor; auto|inversion 1; auto]. }
    pose proof (eq_num_spec d x) as B.
    destruct r; simpl; rel A B.
  - destruct (read_integer s) as [x|]; simpl in *; [|discriminate]. injection H as <-.
    eexists; split; [reflexivity|].
    assert (A : forall p q, (p <? q) = true <-> less (VInteger p) (VInteger q)).
    { intros p q. rewrite Z1. split; [constructor; auto|inversion 1; auto]. }
    assert (B : (z =? x) = true <-> VInteger z = VInteger x) by (rewrite Z2; split; congruence).
    destruct r; simpl; rel A B.
  - injection H as <-. eexists; split; [reflexivity|].
    assert (A : forall p q, lt_str p q = true <-> less (VString p) (VString q)).
    { intros p q. rewrite lt_str_spec. split; [constructor; auto|inversion 1; auto]. }
    assert (B : str_eqb s0 s = true <-> VString s0 = VString s)
      by (rewrite str_eqb_spec; split; congruence).
    destruct r; simpl; rel A B.
  - destruct (read_unsigned 64 s) as [x|]; simpl in *; [|discriminate]. injection H as <-.
    eexists; split; [reflexivity|].
    assert (A : forall p q, (p <? q) = true <-> less (VUnsignedInteger p) (VUnsignedInteger q)).
    { intros p q. rewrite Z1. split; [constructor; auto|inversion 1; auto]. }
    assert (B : (z =? x) = true <-> VUnsignedInteger z = VUnsignedInteger x)
      by (rewrite Z2; split; congruence).
    destruct r; simpl; rel A B.
  - destruct (read_unsigned 16 s) as [x|]; simpl in *; [|discriminate]. injection H as <-.
    eexists; split; [reflexivity|].
    assert (A : forall p q, (p <? q) = true <-> less (VUnsignedShort p) (VUnsignedShort q)).
    { intros p q. rewrite Z1. split; [constructor; auto|inversion 1; auto]. }
    assert (B : (z =? x) = true <-> VUnsignedShort z = VUnsignedShort x)
      by (rewrite Z2; split; congruence).
    destruct r; simpl; rel A B.
Qed.

Lemma compare_literal : forall lex v r s, literal lex v s -> exists b, compare lex v r s = Returns b.
Proof.
  intros lex v r s [x H]. destruct v; simpl in *; unfold construct_double in *.
  - destruct (construct_boolean s); simpl in *; [eauto|discriminate].
  - destruct (lex s); simpl in *; [eauto|discriminate].
  - destruct (read_integer s); simpl in *; [eauto|discriminate].
  - eauto.
  - destruct (read_unsigned 64 s); simpl in *; [eauto|discriminate].
  - destruct (read_unsigned 16 s); simpl in *; [eauto|discriminate].
Qed.
Lemma compare_defined : forall lex v r s, compare lex v r s <> Undefined.
Proof.
  intros. destruct v; simpl; unfold construct_double.
  - destruct (construct_boolean s); discriminate.
  - destruct (lex s); discriminate.
  - destruct (read_integer s); discriminate.
  - discriminate.
  - destruct (read_unsigned 64 s); discriminate.
  - destruct (read_unsigned 16 s); discriminate.
Qed.

(** compare and the specification, all at once. *)
Lemma compare_spec : forall lex v r s,
  literal lex v s ->
  (compares lex v r s /\ compare lex v r s = Returns true) \/
  (~ compares lex v r s /\ compare lex v r s = Returns false).
Proof.
  intros lex v r s L. destruct (compare_literal lex v r s L) as [b E].
  destruct (compare_related _ _ _ _ _ E) as (x & X & B). destruct b.
  - left. split; auto. exists x; split; auto. apply B; auto.
  - right. split; auto. intros (y & Y & R). rewrite X in Y. injection Y as <-.
    apply B in R. discriminate.
Qed.
Lemma compare_unreadable : forall lex v r s, ~ literal lex v s -> compare lex v r s = Throws.
Proof.
  intros lex v r s L. destruct (compare lex v r s) as [b| |] eqn:E; auto.
  - destruct (compare_related _ _ _ _ _ E) as (x & X & _). destruct L. exists x; auto.
  - exfalso. apply (compare_defined _ _ _ _ E).
Qed.

Lemma eval_constraints_true : forall lex v l,
  eval_constraints lex v l = Returns true <-> forall k, In k l -> satisfies lex v k.
Proof.
  induction l as [|k l IH]; simpl; [split; tauto|]. split.
  - intros H. destruct (compare lex v (k_rule k) (k_value k)) as [[]| |] eqn:E; simpl in H;
      try discriminate.
    intros k' [<-|I]; [|apply IH; auto].
    destruct (compare_related _ _ _ _ _ E) as (x & X & B). exists x; split; auto. apply B; auto.
  - intros H. assert (L : literal lex v (k_value k)).
    { destruct (H k) as (x & X & _); auto. exists x; auto. }
    destruct (compare_spec lex v (k_rule k) (k_value k) L) as [[_ E]|[N _]].
    + rewrite E. simpl. apply IH; auto.
    + destruct N. apply (H k); auto.
Qed.
Lemma eval_constraints_literal : forall lex v l,
  (forall k, In k l -> literal lex v (k_value k)) -> exists b, eval_constraints lex v l = Returns b.
Proof.
  induction l as [|k l IH]; simpl; intros H; eauto.
  destruct (compare_literal lex v (k_rule k) (k_value k)) as [b E]; [apply H; auto|].
  rewrite E. simpl. destruct b; eauto.
Qed.
Lemma eval_constraints_defined : forall lex v l, eval_constraints lex v l <> Undefined.
Proof.
  induction l as [|k l IH]; simpl; [discriminate|].
  destruct (compare lex v (k_rule k) (k_value k)) as [[]| |] eqn:E; simpl; auto; try discriminate.
  exfalso. apply (compare_defined _ _ _ _ E).
Qed.

Lemma eval_alternatives_true : forall lex v l,
  eval_alternatives lex v l = Returns true ->
  exists g, In g l /\ forall k, In k g -> satisfies lex v k.
Proof.
  induction l as [|g l IH]; simpl; [discriminate|]. intros H.
  destruct (eval_constraints lex v g) as [[]| |] eqn:E; simpl in H; try discriminate.
  - exists g; split; auto. apply eval_constraints_true; auto.
  - destruct (IH H) as (g' & I & S). eauto.
Qed.
Lemma eval_alternatives_complete : forall lex v l,
  (forall g k, In g l -> In k g -> literal lex v (k_value k)) ->
  (exists g, In g l /\ forall k, In k g -> satisfies lex v k) ->
  eval_alternatives lex v l = Returns true.
Proof.
  induction l as [|g l IH]; simpl; intros L (g' & I & S); [tauto|].
  destruct (eval_constraints_literal lex v g) as [b E]; [intros k K; apply (L g); auto|].
  rewrite E. simpl. destruct b; auto. apply IH; [intros g0 k G K; apply (L g0); auto|].
  destruct I as [<-|I]; [|exists g'; split; auto].
  apply eval_constraints_true in S. congruence.
Qed.
Lemma eval_alternatives_defined : forall lex v l, eval_alternatives lex v l <> Undefined.
Proof.
  induction l as [|g l IH]; simpl; [discriminate|].
  destruct (eval_constraints lex v g) as [[]| |] eqn:E; simpl; auto; try discriminate.
  exfalso. apply (eval_constraints_defined _ _ _ E).
Qed.

Lemma construct_defined : forall lex t s, construct lex t s <> Undefined.
Proof.
  intros. destruct t; simpl; unfold construct_double; try discriminate.
  - destruct (read_integer s); discriminate.
  - destruct (lex s); discriminate.
  - destruct (read_unsigned 64 s); discriminate.
  - destruct (read_unsigned 16 s); discriminate.
  - destruct (construct_boolean s); discriminate.
Qed.

Lemma evaluate_returns : forall lex d v,
  evaluate lex d = Returns v ->
  construct lex (d_type d) (d_value d) = Returns v /\ admissible lex (d_groups d) v.
Proof.
  intros lex d v. unfold evaluate, admissible. destruct (d_groups d) as [|g gs]; intros H; auto.
  destruct (construct lex (d_type d) (d_value d)) as [w| |]; cbn [bind] in H; try discriminate.
  destruct (eval_alternatives lex w (g :: gs)) as [[]| |] eqn:E; cbn [bind] in H; try discriminate.
  injection H as ->. split; auto. right. apply eval_alternatives_true; auto.
Qed.
Lemma evaluate_defined : forall lex d, evaluate lex d <> Undefined.
Proof.
  intros lex d. unfold evaluate. pose proof (construct_defined lex (d_type d) (d_value d)) as C.
  destruct (d_groups d) as [|g gs]; auto.
  destruct (construct lex (d_type d) (d_value d)) as [w| |]; cbn [bind]; try discriminate; auto.
  pose proof (eval_alternatives_defined lex w (g :: gs)) as A.
  destruct (eval_alternatives lex w (g :: gs)) as [[]| |]; cbn [bind]; try discriminate; auto.
Qed.

Lemma check_name_spec : forall n,
  (reserved n /\ check_name n = Throws) \/ (~ reserved n /\ check_name n = Returns n).
Proof.
  intros n. unfold check_name. destruct (str_eqb (firstn 3 n) (chars "OSC")) eqn:E.
  - left. split; auto. apply str_eqb_spec in E. exists (skipn 3 n). rewrite <- E.
    symmetry. apply firstn_skipn.
  - right. split; auto. intros [rest ->]. apply str_eqb_neq in E. apply E. reflexivity.
Qed.

Lemma declare_returns : forall lex ps d ps',
  declare lex ps d = Returns ps' ->
  ~ reserved (d_name d) /\
  exists v, construct lex (d_type d) (d_value d) = Returns v /\
            admissible lex (d_groups d) v /\ ps' = ps ++ [(d_name d, v)].
Proof.
  intros lex ps d ps' H. unfold declare in H.
  destruct (forallb group_accepted (d_groups d)); [|discriminate].
  destruct (check_name_spec (d_name d)) as [[_ E]|[N E]]; rewrite E in H; cbn [bind] in H;
    [discriminate|].
  destruct (evaluate lex d) as [v| |] eqn:V; cbn [bind] in H; try discriminate.
  injection H as <-. apply evaluate_returns in V as [C A]. eauto.
Qed.
Lemma declare_defined : forall lex ps d, declare lex ps d <> Undefined.
Proof.
  intros lex ps d. unfold declare. destruct (forallb group_accepted (d_groups d)); [|discriminate].
  destruct (check_name_spec (d_name d)) as [[_ E]|[_ E]]; rewrite E; cbn [bind]; [discriminate|].
  pose proof (evaluate_defined lex d). destruct (evaluate lex d); cbn [bind]; auto; discriminate.
Qed.
Lemma declare_complete : forall lex ps d v,
  ~ reserved (d_name d) ->
  construct lex (d_type d) (d_value d) = Returns v ->
  (forall g, In g (d_groups d) -> g <> []) ->
  (forall g k, In g (d_groups d) -> In k g -> literal lex v (k_value k)) ->
  admissible lex (d_groups d) v ->
  declare lex ps d = Returns (ps ++ [(d_name d, v)]).
Proof.
  intros lex ps d v N C G L A. unfold declare.
  replace (forallb group_accepted (d_groups d)) with true.
  2:{ symmetry. apply forallb_forall. intros g I. specialize (G g I). destruct g; auto. }
  destruct (check_name_spec (d_name d)) as [[R _]|[_ E]]; [tauto|]. rewrite E. cbn [bind].
  unfold evaluate. destruct (d_groups d) as [|g gs] eqn:D; rewrite C; cbn [bind]; auto.
  destruct A as [A|A]; [discriminate|].
  rewrite (eval_alternatives_complete lex v (g :: gs)); auto.
Qed.

(** ** Lookup and assignment *)
Lemma named_eq : forall n (p : str * value), named n p = true <-> fst p = n.
Proof. intros n [m v]. apply str_eqb_spec. Qed.
Lemma named_neq : forall n m (p : str * value), n <> m -> named n p = true -> named m p = false.
Proof.
  intros n m p D H. apply named_eq in H. apply not_true_iff_false. rewrite named_eq. congruence.
Qed.
Lemma filter_assign_same : forall ps n v,
  filter (named n) (assign ps n v) = map (fun p => (fst p, v)) (filter (named n) ps).
Proof.
  induction ps as [|p ps IH]; intros n v; simpl; auto.
  destruct (named n p) eqn:E; simpl.
  - replace (named n (fst p, v)) with true by (symmetry; apply named_eq; apply named_eq in E; auto).
    simpl. f_equal. apply IH.
  - rewrite E. apply IH.
Qed.
Lemma filter_assign_other : forall ps n m v, n <> m ->
  filter (named m) (assign ps n v) = filter (named m) ps.
Proof.
  induction ps as [|p ps IH]; intros n m v D; simpl; auto.
  destruct (named n p) eqn:E; simpl.
  - pose proof (named_neq n m p D E) as F. rewrite F.
    replace (named m (fst p, v)) with false by (symmetry; exact F). apply IH; auto.
  - destruct (named m p); simpl; [f_equal|]; apply IH; auto.
Qed.
Lemma lookup_assign_same : forall ps n v w, lookup ps n = Some w -> lookup (assign ps n v) n = Some v.
Proof.
  intros ps n v w H. unfold lookup in *. rewrite filter_assign_same.
  destruct (filter (named n) ps) as [|p [|q l]]; try discriminate. reflexivity.
Qed.
Lemma lookup_assign_other : forall ps n m v, n <> m -> lookup (assign ps n v) m = lookup ps m.
Proof. intros. unfold lookup. rewrite filter_assign_other; auto. Qed.
Lemma assign_names : forall ps n v, map fst (assign ps n v) = map fst ps.
Proof.
  intros. unfold assign. rewrite map_map. apply map_ext. intros p. destruct (named n p); auto.
Qed.

(** ** Literals *)
Lemma digit_of_char : forall d, is_digit d -> digit (digit_char d) = Some d.
Proof.
  intros d [A B]. unfold digit, digit_char. rewrite N_ascii_embedding by lia.
  rewrite Z2N.id by lia.
  replace ((48 <=? 48 + d) && (48 + d <=? 57)) with true.
  - f_equal. lia.
  - symmetry. apply andb_true_intro. split; apply Z.leb_le; lia.
Qed.
Lemma digits_positional : forall ds acc, (forall d, In d ds -> is_digit d) ->
  digits acc (numeral ds) = Some (acc * 10 ^ Z.of_nat (length ds) + positional ds).
Proof.
  induction ds as [|d ds IH]; intros acc H.
  - simpl. f_equal. lia.
  - cbn [numeral map digits]. rewrite digit_of_char by (apply H; left; auto).
    fold (numeral ds). rewrite IH by (intros; apply H; right; auto). f_equal.
    cbn [positional]. replace (Z.of_nat (length (d :: ds))) with (Z.of_nat (length ds) + 1)
      by (simpl length; lia).
    rewrite Z.pow_add_r by lia. ring.
Qed.
Lemma natural_numeral : forall ds, ds <> [] -> (forall d, In d ds -> is_digit d) ->
  natural (numeral ds) = Some (positional ds).
Proof.
  intros ds N H. destruct ds as [|d ds]; [congruence|]. unfold natural. cbn [numeral map].
  change (digits 0 (numeral (d :: ds)) = Some (positional (d :: ds))).
  rewrite digits_positional; auto.
Qed.
Lemma digit_char_plain : forall d, is_digit d ->
  Ascii.eqb (digit_char d) minus_sign = false /\ Ascii.eqb (digit_char d) plus_sign = false.
Proof.
  intros d [A B].
  assert (H : d = 0 \/ d = 1 \/ d = 2 \/ d = 3 \/ d = 4 \/ d = 5 \/ d = 6 \/ d = 7 \/ d = 8 \/ d = 9)
    by lia.
  repeat (destruct H as [->|H]; [split; reflexivity|]). subst; split; reflexivity.
Qed.
Lemma signed_numeral : forall ds, ds <> [] -> (forall d, In d ds -> is_digit d) ->
  signed (numeral ds) = Some (false, positional ds) /\
  signed (plus_sign :: numeral ds) = Some (false, positional ds) /\
  signed (minus_sign :: numeral ds) = Some (true, positional ds).
Proof.
  intros ds N H. pose proof (natural_numeral ds N H) as E. repeat split.
  - destruct ds as [|d ds]; [congruence|]. unfold signed.
    destruct (digit_char_plain d) as [P Q]; [apply H; left; auto|].
    change (numeral (d :: ds)) with (digit_char d :: numeral ds) in *. cbv beta iota. rewrite P, Q, E. reflexivity.
  - unfold signed. change (Ascii.eqb plus_sign minus_sign) with false.
    change (Ascii.eqb plus_sign plus_sign) with true. cbv iota. rewrite E. reflexivity.
  - unfold signed. change (Ascii.eqb minus_sign minus_sign) with true. cbv iota. rewrite E. reflexivity.
Qed.
Lemma positional_nonneg : forall ds, (forall d, In d ds -> is_digit d) -> 0 <= positional ds.
Proof.
  induction ds as [|d ds IH]; intros H; simpl; [lia|].
  assert (0 <= d) by (apply (H d); left; auto). assert (0 <= positional ds) by (apply IH; intros; apply H; right; auto).
  assert (0 < 10 ^ Z.of_nat (length ds)) by (apply Z.pow_pos_nonneg; lia).
  assert (0 <= d * 10 ^ Z.of_nat (length ds)) by (apply Z.mul_nonneg_nonneg; lia). lia.
Qed.
Lemma digits_nonneg : forall s acc z, 0 <= acc -> digits acc s = Some z -> 0 <= z.
Proof.
  induction s as [|c s IH]; intros acc z A H; simpl in H; [congruence|].
  destruct (digit c) as [d|] eqn:E; [|discriminate].
  apply (IH (10 * acc + d)); [|exact H]. clear H. unfold digit in E.
  destruct ((48 <=? Z.of_N (N_of_ascii c)) && (Z.of_N (N_of_ascii c) <=? 57)) eqn:F; [|discriminate].
  apply andb_true_iff in F as [F _]. apply Z.leb_le in F. injection E as <-. lia.
Qed.
Lemma natural_nonneg : forall s z, natural s = Some z -> 0 <= z.
Proof. intros [|c s] z H; [discriminate|]. eapply digits_nonneg; [|exact H]. lia. Qed.
Lemma signed_nonneg : forall s n z, signed s = Some (n, z) -> 0 <= z.
Proof.
  intros [|c s] n z H; [discriminate|]. unfold signed in H.
  destruct (Ascii.eqb c minus_sign); [|destruct (Ascii.eqb c plus_sign)];
    match type of H with option_map _ ?x = _ => destruct x eqn:E end; try discriminate;
    injection H as <- <-; eapply natural_nonneg; eauto.
Qed.
Lemma read_integer_range : forall s z, read_integer s = Some z -> - 2 ^ 63 <= z < 2 ^ 63.
Proof.
  intros s z H. unfold read_integer in H. destruct (signed s) as [[[] m]|] eqn:E; [| |discriminate].
  - apply signed_nonneg in E. destruct (m <=? 2 ^ 63) eqn:F; [|discriminate].
    apply Z.leb_le in F. injection H as <-. lia.
  - apply signed_nonneg in E. destruct (m <? 2 ^ 63) eqn:F; [|discriminate].
    apply Z.ltb_lt in F. injection H as <-. lia.
Qed.
Lemma read_unsigned_range : forall n s z, 0 <= n -> read_unsigned n s = Some z -> 0 <= z < 2 ^ n.
Proof.
  intros n s z N H. assert (P : 0 < 2 ^ n) by (apply Z.pow_pos_nonneg; lia).
  unfold read_unsigned in H. destruct (signed s) as [[[] m]|] eqn:E; [| |discriminate].
  - destruct (m <? 2 ^ n) eqn:F; [|discriminate]. injection H as <-. apply Z.mod_pos_bound; auto.
  - apply signed_nonneg in E. destruct (m <? 2 ^ n) eqn:F; [|discriminate].
    apply Z.ltb_lt in F. injection H as <-. lia.
Qed.
Lemma construct_range : forall lex t s v, construct lex t s = Returns v -> in_range v /\ belongs v t.
Proof.
  intros lex t s v H. unfold belongs. destruct t; simpl in H.
  - destruct (read_integer s) eqn:E; [|discriminate]. injection H as <-.
    split; [apply read_integer_range in E; auto|left; auto].
  - unfold construct_double in H. destruct (lex s); [|discriminate]. injection H as <-. simpl; auto.
  - injection H as <-. simpl; auto.
  - destruct (read_unsigned 64 s) eqn:E; [|discriminate]. injection H as <-.
    split; [apply read_unsigned_range in E; [auto|lia]|left; auto].
  - destruct (read_unsigned 16 s) eqn:E; [|discriminate]. injection H as <-.
    split; [apply read_unsigned_range in E; [auto|lia]|left; auto].
  - destruct (construct_boolean s); [|discriminate]. injection H as <-. simpl; auto.
  - injection H as <-. simpl; eauto.
Qed.

(** ** Set *)
Lemma strip_prefix_nil : forall p, strip_prefix p p = Some [].
Proof. induction p; simpl; auto. rewrite Ascii.eqb_refl. auto. Qed.
Lemma strip_prefix_spec : forall p s r, strip_prefix p s = Some r -> s = p ++ r.
Proof.
  induction p as [|a p IH]; intros [|b s] r H; simpl in *; try congruence.
  destruct (Ascii.eqb a b) eqn:E; [|discriminate]. apply Ascii.eqb_eq in E as ->. f_equal; auto.
Qed.
Lemma cast_boolean_construct : forall s b, cast_boolean s = Some b -> construct_boolean s = Some b.
Proof.
  intros s b H. unfold cast_boolean, construct_boolean in *.
  assert (S : s = chars "true" \/ s = chars "false").
  { unfold read_bool in H. destruct (strip_prefix (chars "true") s) as [[|c r]|] eqn:E; try discriminate.
    - left. rewrite (strip_prefix_spec _ _ _ E). reflexivity.
    - destruct (strip_prefix (chars "false") s) as [[|c r]|] eqn:E'; simpl in H; try discriminate.
      right. rewrite (strip_prefix_spec _ _ _ E'). reflexivity. }
  destruct S as [S|S]; rewrite S in *; exact H.
Qed.
Lemma cast_like_construct : forall lex v s w,
  cast_like lex v s = Returns w ->
  type_of w = type_of v /\
  (construct lex (type_of v) s = Returns w \/
   (s = chars "INF" /\ w = VDouble PInf) \/ (s = chars "+INF" /\ w = VDouble PInf) \/
   (s = chars "-INF" /\ w = VDouble NInf)).
Proof.
  intros lex v s w H. destruct v; simpl in *.
  - destruct (cast_boolean s) eqn:E; [|discriminate]. injection H as <-.
    rewrite (cast_boolean_construct _ _ E). auto.
  - unfold cast_double in H. destruct (existsb is_space s); [discriminate|].
    destruct (str_eqb s (chars "INF")) eqn:E1.
    { apply str_eqb_spec in E1. injection H as <-. split; auto. }
    destruct (str_eqb s (chars "+INF")) eqn:E2.
    { apply str_eqb_spec in E2. injection H as <-. split; auto. }
    destruct (str_eqb s (chars "-INF")) eqn:E3.
    { apply str_eqb_spec in E3. injection H as <-. split; auto. }
    simpl in H. destruct s; [discriminate|]. unfold construct_double.
    destruct (lex (a :: s)); [|discriminate]. injection H as <-. auto.
  - destruct (read_integer s); [|discriminate]. injection H as <-. auto.
  - injection H as <-. auto.
  - destruct (read_unsigned 64 s); [|discriminate]. injection H as <-. auto.
  - destruct (read_unsigned 16 s); [|discriminate]. injection H as <-. auto.
Qed.
Lemma cast_like_range : forall lex v s w, cast_like lex v s = Returns w -> in_range w.
Proof.
  intros lex v s w H. destruct (cast_like_construct _ _ _ _ H) as [_ [C|[[_ E]|[[_ E]|[_ E]]]]];
    try (rewrite E; exact Logic.I). apply construct_range in C as [R _]; auto.
Qed.

(** ** Modify *)
Lemma to_integral_range : forall lo hi d z, to_integral lo hi d = Returns z -> lo <= z < hi.
Proof.
  intros lo hi d z H. unfold to_integral in H. destruct d; try discriminate.
  destruct ((lo <=? truncate q) && (truncate q <? hi)) eqn:E; [|discriminate].
  apply andb_true_iff in E as [A B]. apply Z.leb_le in A. apply Z.ltb_lt in B.
  injection H as <-. lia.
Qed.
Lemma modify_range : forall m v w, in_range v -> modify_value m v = Returns w ->
  in_range w /\ type_of w = type_of v.
Proof.
  intros m v w R H. destruct v; destruct m; simpl in H; try discriminate;
    try (injection H as <-; simpl; auto; fail);
    match type of H with bind ?x _ = _ => destruct x as [k| |] eqn:E; simpl in H; try discriminate end;
    injection H as <-; split; auto; try (apply to_integral_range in E; exact E);
    simpl; apply Z.mod_pos_bound; reflexivity.
Qed.
Lemma towards_zero_truncate : forall q, towards_zero q (truncate q).
Proof.
  intros [n d]. unfold towards_zero, truncate, Qle, Qlt. simpl.
  pose proof (Z.quot_rem' n (Zpos d)) as E.
  assert (D : 0 < Zpos d) by lia.
  split; intros H.
  - assert (0 <= n) by lia.
    pose proof (Z.rem_bound_pos n (Zpos d) H0 D). lia.
  - assert (n <= 0) by lia.
    pose proof (Z.rem_bound_neg_pos n (Zpos d)). 
    pose proof (Z.rem_nonpos n (Zpos d)).
    assert (Zpos d <> 0) by lia. specialize (H2 H3 H0).
    pose proof (Z.rem_bound_abs n (Zpos d) H3). lia.
Qed.

(** Action sequences. *)
Definition typed (ps : parameters) (ts : list ptype) : Prop :=
  Forall2 (fun p t => in_range (snd p) /\ belongs (snd p) t) ps ts.
Lemma belongs_type : forall v w t, type_of w = type_of v -> belongs v t -> belongs w t.
Proof.
  intros v w t E [H|[-> [s ->]]]; [left; congruence|].
  right. split; auto. destruct w; try discriminate. eauto.
Qed.
Lemma typed_assign : forall ps ts n v w,
  typed ps ts -> lookup ps n = Some v -> in_range w -> type_of w = type_of v ->
  typed (assign ps n w) ts.
Proof.
  intros ps ts n v w T L R E.
  assert (H : forall p, In p ps -> named n p = true -> snd p = v).
  { intros p I N. unfold lookup in L.
    assert (In p (filter (named n) ps)) by (apply filter_In; auto).
    destruct (filter (named n) ps) as [|q [|q' l]]; try discriminate.
    injection L as <-. destruct H as [->|[]]; auto. }
  unfold typed, assign in *. revert H. clear L. induction T as [|p t ps ts [A B] T IH]; intros H.
  - constructor.
  - constructor; [|apply IH; intros; apply H; simpl; auto].
    destruct (named n p) eqn:N; simpl; auto. split; auto.
    apply (belongs_type v); auto. rewrite <- (H p); simpl; auto.
Qed.
Lemma perform_typed : forall lex ps ts a ps',
  typed ps ts -> perform lex ps a = Returns ps' -> typed ps' ts /\ map fst ps' = map fst ps.
Proof.
  intros lex ps ts a ps' T H. destruct a as [n s|n m]; simpl in H.
  - unfold set in H. destruct (lookup ps n) as [v|] eqn:L; [|discriminate].
    destruct (cast_like lex v s) as [w| |] eqn:C; try discriminate. injection H as <-.
    split; [|apply assign_names]. apply (typed_assign ps ts n v w); auto.
    + eapply cast_like_range; eauto.
    + apply cast_like_construct in C as [C _]; auto.
  - unfold modify in H. destruct (lookup ps n) as [v|] eqn:L; [|discriminate].
    assert (R : in_range v).
    { unfold lookup in L. destruct (filter (named n) ps) as [|q [|q' l]] eqn:F; try discriminate.
      injection L as <-. assert (I : In q ps).
      { apply (filter_In (named n)). rewrite F. left; auto. }
      clear - T I. induction T as [|p t ps ts [A B] T IH]; [destruct I|]. destruct I as [->|I]; auto. }
    destruct (modify_value m v) as [w| |] eqn:C; try discriminate. injection H as <-.
    split; [|apply assign_names].
    destruct (modify_range _ _ _ R C) as [A B]. apply (typed_assign ps ts n v w); auto.
Qed.
Lemma perform_all_typed : forall lex l ps ts ps',
  typed ps ts -> perform_all lex ps l = Returns ps' -> typed ps' ts /\ map fst ps' = map fst ps.
Proof.
  induction l as [|a l IH]; intros ps ts ps' T H; simpl in H.
  - injection H as <-. auto.
  - destruct (perform lex ps a) as [ps1| |] eqn:E; try discriminate.
    destruct (perform_typed _ _ _ _ _ T E) as [T1 N1].
    destruct (IH _ _ _ T1 H) as [T2 N2]. split; auto. congruence.
Qed.
Lemma declare_all_typed : forall lex ds ps ts ps',
  typed ps ts -> declare_all lex ps ds = Returns ps' ->
  typed ps' (ts ++ map d_type ds) /\ map fst ps' = map fst ps ++ map d_name ds.
Proof.
  induction ds as [|d ds IH]; intros ps ts ps' T H; simpl in H.
  - injection H as <-. simpl. rewrite !app_nil_r. auto.
  - destruct (declare lex ps d) as [ps1| |] eqn:E; try discriminate.
    destruct (declare_returns _ _ _ _ E) as (_ & v & C & _ & ->).
    assert (T1 : typed (ps ++ [(d_name d, v)]) (ts ++ [d_type d])).
    { apply Forall2_app; auto. constructor; [|constructor]. simpl.
      eapply construct_range; eauto. }
    destruct (IH _ _ _ T1 H) as [T2 N2]. rewrite <- app_assoc in T2. simpl in T2.
    split; auto. rewrite N2, map_app, <- app_assoc. reflexivity.
Qed.

Lemma before_irrefl : forall a, ~ before a a.
Proof.
  intros a H. apply lt_str_spec in H. revert H. induction a as [|c a IH]; simpl; [discriminate|].
  rewrite N.ltb_irrefl, Ascii.eqb_refl. exact IH.
Qed.
Lemma less_irrefl : forall v, ~ less v v.
Proof.
  intros v H. assert (G : forall a b, less a b -> a = b -> False).
  { intros a b L. destruct L; intros E; try discriminate; injection E as ->; try lia.
    - apply lt_num_spec in H0. destruct b; simpl in H0; try discriminate.
      apply negb_true_iff in H0. apply not_true_iff_false in H0. apply H0.
      apply Qle_bool_iff. apply Qle_refl.
    - eapply before_irrefl; eauto. }
  eapply G; eauto.
Qed.
