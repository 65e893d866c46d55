(** * Properties C24 and C49 - C52: parameters. *)
From Coq Require Import Ascii String List Bool Arith ZArith QArith Lia Lqa.
From Verif Require Import M_Condition M_Scope M_Parameter S_Parameter P_Parameter.
Import ListNotations.
Local Open Scope Z_scope.
Local Open Scope list_scope.

(** ** C24. Declared values satisfy their constraints. *)

(** Every parameter of a scenario that is accepted has the declared value, satisfies its
    constraints, and has an unreserved name. *)
Theorem C24_declared_values_admissible : forall lex ds ps,
  declare_all lex [] ds = Returns ps ->
  Forall2 (fun d p =>
    fst p = d_name d /\ ~ reserved (d_name d) /\
    construct lex (d_type d) (d_value d) = Returns (snd p) /\
    admissible lex (d_groups d) (snd p)) ds ps.
Proof.
  assert (G : forall lex ds ps0 ps, declare_all lex ps0 ds = Returns ps ->
    exists qs, ps = ps0 ++ qs /\ Forall2 (fun d p =>
    fst p = d_name d /\ ~ reserved (d_name d) /\
    construct lex (d_type d) (d_value d) = Returns (snd p) /\
    admissible lex (d_groups d) (snd p)) ds qs).
  { induction ds as [|d ds IH]; intros ps0 ps H; cbn [declare_all] in H.
    - injection H as <-. exists []. rewrite app_nil_r. auto.
    - destruct (declare lex ps0 d) as [ps1| |] eqn:E; cbn [bind] in H; try discriminate.
      destruct (declare_returns _ _ _ _ E) as (N & v & C & A & ->).
      destruct (IH _ _ H) as (qs & -> & F). exists ((d_name d, v) :: qs).
      rewrite <- app_assoc. split; auto. }
  intros lex ds ps H. destruct (G _ _ _ _ H) as (qs & -> & F). exact F.
Qed.

(** Everything else is rejected with an exception: nothing is left undefined. *)
Theorem C24_rejected : forall lex ps d,
  (reserved (d_name d) ->  declare lex ps d = Throws) /\
  ((forall v, construct lex (d_type d) (d_value d) = Returns v -> ~ admissible lex (d_groups d) v) ->
   declare lex ps d = Throws) /\
  declare lex ps d <> Undefined.
Proof.
  intros lex ps d. pose proof (declare_defined lex ps d) as D. repeat split; auto.
  - intros R. destruct (declare lex ps d) as [ps'| |] eqn:E; auto; [|tauto].
    destruct (declare_returns _ _ _ _ E) as (N & _). tauto.
  - intros R. destruct (declare lex ps d) as [ps'| |] eqn:E; auto; [|tauto].
    destruct (declare_returns _ _ _ _ E) as (_ & v & C & A & _). destruct (R v C A).
Qed.

(** Conversely a declaration that meets its constraints is accepted (if the constraints can be
    read at all, and no group is empty). *)
Theorem C24_admissible_accepted : forall lex ps d v,
  ~ reserved (d_name d) ->
  construct lex (d_type d) (d_value d) = Returns v ->
  (forall g, In g (d_groups d) -> g <> []) ->
  (forall g k, In g (d_groups d) -> In k g -> literal lex v (k_value k)) ->
  admissible lex (d_groups d) v ->
  declare lex ps d = Returns (ps ++ [(d_name d, v)]).
Proof. exact declare_complete. Qed.

(** A speed limit between 10 and 20 or equal to 50. *)
Definition limits : list (list constraint) :=
  [ [ {| k_rule := GreaterOrEqual; k_value := chars "10" |};
      {| k_rule := LessThan; k_value := chars "20" |} ];
    [ {| k_rule := EqualTo; k_value := chars "50" |} ] ].
Definition limit (s : string) : declaration :=
  {| d_name := chars "limit"; d_type := PInteger; d_value := chars s; d_groups := limits |}.
Definition nolex : lexical := fun _ => None.
Example C24_example :
  declare nolex [] (limit "15") = Returns [(chars "limit", VInteger 15)] /\
  declare nolex [] (limit "50") = Returns [(chars "limit", VInteger 50)] /\
  declare nolex [] (limit "20") = Throws /\ declare nolex [] (limit "9") = Throws.
Proof. vm_compute. auto. Qed.

(** ** C49. A condition sees the value an action has set. *)

Definition C49_claim : Prop := forall lex ps n s ps' r,
  lex (chars "INF") = Some PInf -> lex (chars "+INF") = Some PInf -> lex (chars "-INF") = Some NInf ->
  set lex ps n s = Returns ps' ->
  r = EqualTo \/ r = LessOrEqual \/ r = GreaterOrEqual ->
  condition_holds lex ps' n r s = Returns true.

(** The exception is not-a-number. *)
Theorem C49_set_then_condition : forall lex ps n s ps' v,
  lex (chars "INF") = Some PInf -> lex (chars "+INF") = Some PInf -> lex (chars "-INF") = Some NInf ->
  set lex ps n s = Returns ps' ->
  lookup ps n = Some v -> (forall d, v = VDouble d -> cast_double lex s <> Some NaN) ->
  condition_holds lex ps' n EqualTo s = Returns true /\
  condition_holds lex ps' n LessOrEqual s = Returns true /\
  condition_holds lex ps' n GreaterOrEqual s = Returns true /\
  condition_holds lex ps' n NotEqualTo s = Returns false /\
  condition_holds lex ps' n LessThan s = Returns false /\
  condition_holds lex ps' n GreaterThan s = Returns false.
Proof.
  intros lex ps n s ps' v I1 I2 I3 H L NN. unfold set in H. rewrite L in H.
  destruct (cast_like lex v s) as [w| |] eqn:C; try discriminate. injection H as <-.
  unfold condition_holds. rewrite (lookup_assign_same _ _ w _ L).
  destruct (cast_like_construct _ _ _ _ C) as [T K].
  assert (X : construct lex (type_of w) s = Returns w).
  { rewrite T. destruct K as [K|[[-> K]|[[-> K]|[-> K]]]]; auto;
      rewrite <- T, K; cbn [type_of construct]; unfold construct_double; rewrite ?I1, ?I2, ?I3; reflexivity. }
  assert (Lit : literal lex w s) by (exists w; auto).
  assert (E : same w w).
  { destruct w as [b|d|z|t|z|z]; simpl; auto.
    destruct d; try (constructor; reflexivity). exfalso.
    destruct v as [b|d|z|t|z|z]; try discriminate T. simpl in C.
    apply (NN d eq_refl). destruct (cast_double lex s); simpl in C; congruence. }
  pose proof (less_irrefl w) as NL.
  assert (G : forall r, compares lex w r s <-> related r w w).
  { intros r. split.
    - intros (x & Y & R). rewrite X in Y. injection Y as <-. auto.
    - intros R. exists w. auto. }
  repeat split;
    match goal with |- compare _ _ ?r _ = _ =>
      destruct (compare_spec lex w r s Lit) as [[Q E']|[Q E']]; auto; exfalso;
      rewrite G in Q; simpl in Q; tauto end.
Qed.
(** Nothing else changes. *)
Theorem C49_set_changes_nothing_else : forall lex ps n s ps' m,
  set lex ps n s = Returns ps' -> m <> n -> lookup ps' m = lookup ps m.
Proof.
  intros lex ps n s ps' m H D. unfold set in H. destruct (lookup ps n) as [v|]; [|discriminate].
  destruct (cast_like lex v s); try discriminate. injection H as <-.
  apply lookup_assign_other. auto.
Qed.
Theorem C49_set_then_condition_refuted : ~ C49_claim.
Proof.
  intros C.
  set (lex := fun s => if str_eqb s (chars "nan") then Some NaN
                       else if str_eqb s (chars "-INF") then Some NInf else Some PInf).
  specialize (C lex [(chars "x", VDouble PInf)] (chars "x") (chars "nan")
    [(chars "x", VDouble NaN)] EqualTo).
  assert (condition_holds lex [(chars "x", VDouble NaN)] (chars "x") EqualTo (chars "nan") = Returns false)
    by reflexivity.
  rewrite C in H; auto. discriminate.
Qed.
Example C49_example :
  set nolex [(chars "a", VUnsignedShort 3); (chars "b", VBoolean true)] (chars "a") (chars "65535")
    = Returns [(chars "a", VUnsignedShort 65535); (chars "b", VBoolean true)] /\
  condition_holds nolex [(chars "a", VUnsignedShort 65535); (chars "b", VBoolean true)]
    (chars "a") EqualTo (chars "65535") = Returns true.
Proof. vm_compute. auto. Qed.

(** ** C50. Modifying a parameter is arithmetic. *)

(** The sum or product, stored in the type of the parameter (integers round towards zero). *)
Definition result_of (m : modification) (q : Q) : option Q :=
  match m with
  | AddValue (Fin d) => Some (q + d)%Q
  | MultiplyByValue (Fin d) => Some (q * d)%Q
  | _ => None
  end.
Definition C50_claim : Prop := forall m v w q r,
  in_range v -> numeric v = Some q -> result_of m q = Some r -> modify_value m v = Returns w ->
  stores r w.

(** True for double and integer parameters ... *)
Theorem C50_modification : forall m v w q r,
  numeric v = Some q -> result_of m q = Some r -> modify_value m v = Returns w ->
  type_of v = PDouble \/ type_of v = PInteger ->
  stores r w.
Proof.
  intros m v w q r N R M T.
  destruct v as [b|[x| | |]|z|s|z|z]; try discriminate N; try (destruct T; discriminate);
    simpl in N; injection N as <-; destruct m as [[d| | |]|[d| | |]]; try discriminate R;
    injection R as <-; simpl in M.
  - injection M as <-. simpl. reflexivity.
  - injection M as <-. simpl. reflexivity.
  - unfold to_integral in M.
    destruct ((_ <=? truncate (inject_Z z + d)) && _); [|discriminate]. injection M as <-.
    apply towards_zero_truncate.
  - unfold to_integral in M.
    destruct ((_ <=? truncate (inject_Z z * d)) && _); [|discriminate]. injection M as <-.
    apply towards_zero_truncate.
Qed.
(** ... and for unsigned ones only if the operand is a natural number and the result fits. *)
Theorem C50_unsigned_modification : forall v bits z k,
  (v = VUnsignedInteger z /\ bits = 64) \/ (v = VUnsignedShort z /\ bits = 16) ->
  in_range v -> 0 <= k < 2 ^ bits ->
  (z + k < 2 ^ bits -> exists w, modify_value (AddValue (Fin (inject_Z k))) v = Returns w /\
   type_of w = type_of v /\ numeric w = Some (inject_Z (z + k))) /\
  (z * k < 2 ^ bits -> exists w, modify_value (MultiplyByValue (Fin (inject_Z k))) v = Returns w /\
   type_of w = type_of v /\ numeric w = Some (inject_Z (z * k))).
Proof.
  intros v bits z k [[-> ->]|[-> ->]] R K; simpl in R; split; intros F;
    unfold modify_value, to_integral, truncate; simpl Qnum; simpl Qden; rewrite Z.quot_1_r;
    rewrite (proj2 (andb_true_iff (0 <=? k) _))
      by (split; [apply Z.leb_le|apply Z.ltb_lt]; lia);
    cbn [bind]; eexists; (split; [reflexivity|]); split; auto; simpl; rewrite Z.mod_small; auto; nia.
Qed.
(** Halving ten gives zero. *)
Theorem C50_modification_refuted : ~ C50_claim.
Proof.
  intros C.
  specialize (C (MultiplyByValue (Fin (1 # 2))) (VUnsignedInteger 10) (VUnsignedInteger 0)
    (inject_Z 10) (inject_Z 10 * (1 # 2))%Q).
  destruct C as [C _]; try reflexivity; [simpl; lia|].
  destruct C as [_ C]; [discriminate|]. revert C. unfold Qlt. simpl. lia.
Qed.
(** Subtracting from an unsigned parameter is undefined behaviour. *)
Theorem C50_subtraction_undefined : forall v z d,
  v = VUnsignedInteger z \/ v = VUnsignedShort z -> (d <= - (1))%Q ->
  modify_value (AddValue (Fin d)) v = Undefined.
Proof.
  intros v z d H D.
  assert (T : truncate d <= -1).
  { destruct (towards_zero_truncate d) as [_ B]. destruct B as [B B']; [lra|].
    destruct (Z_le_gt_dec (truncate d) (-1)); auto. exfalso.
    assert (inject_Z (-1) < inject_Z (truncate d))%Q by (rewrite <- Zlt_Qlt; lia).
    assert (G : (inject_Z (truncate d - 1) < - (1))%Q) by lra.
    change (-(1))%Q with (inject_Z (-1)) in G. rewrite <- Zlt_Qlt in G. lia. }
  assert (forall hi, to_integral 0 hi (Fin d) = Undefined).
  { intros hi. unfold to_integral. destruct (0 <=? truncate d) eqn:E; auto.
    apply Z.leb_le in E. lia. }
  destruct H as [->| ->]; unfold modify_value; rewrite H0; reflexivity.
Qed.
(** Texts and truth values are refused and stay as they were. *)
Theorem C50_not_numeric_rejected : forall m v,
  type_of v = PString \/ type_of v = PBoolean -> modify_value m v = Throws.
Proof. intros m [] [H|H]; try discriminate; destruct m; reflexivity. Qed.
Example C50_example :
  modify_value (AddValue (Fin (-7 # 2))) (VInteger 2) = Returns (VInteger (-1)) /\
  modify_value (MultiplyByValue (Fin 3)) (VUnsignedShort 7) = Returns (VUnsignedShort 21) /\
  modify_value (AddValue (Fin 1)) (VUnsignedShort 65535) = Returns (VUnsignedShort 0).
Proof. vm_compute. auto. Qed.

(** ** C51. Actions preserve the type, the range and the constraints of a parameter. *)

(** After any declarations and any parameter actions, the names are those declared and every value
    is a value of the declared type. *)
Theorem C51_types_preserved : forall lex ds ps0 acts ps,
  declare_all lex [] ds = Returns ps0 -> perform_all lex ps0 acts = Returns ps ->
  map fst ps = map d_name ds /\
  Forall2 (fun p d => in_range (snd p) /\ belongs (snd p) (d_type d)) ps ds.
Proof.
  intros lex ds ps0 acts ps D A.
  destruct (declare_all_typed lex ds [] [] ps0) as [T N]; auto; [constructor|].
  destruct (perform_all_typed _ _ _ _ _ T A) as [T' N']. simpl in *. split; [congruence|].
  unfold typed in T'. clear - T'. revert ps T'. induction ds as [|d ds IH]; intros ps T'; inversion T'; subst.
  - constructor.
  - constructor; auto.
Qed.
Definition C51_claim : Prop := forall lex ds ps0 acts ps,
  declare_all lex [] ds = Returns ps0 -> perform_all lex ps0 acts = Returns ps ->
  Forall2 (fun p d => admissible lex (d_groups d) (snd p)) ps ds.
(** The constraints are not checked again. *)
Theorem C51_constraints_preserved_refuted : ~ C51_claim.
Proof.
  intros C. specialize (C nolex [limit "15"] [(chars "limit", VInteger 15)]
    [Set_ (chars "limit") (chars "99")] [(chars "limit", VInteger 99)] eq_refl eq_refl).
  inversion C as [|p d ps ds A _]; subst. simpl in A. destruct A as [A|(g & I & S)]; [discriminate|].
  destruct I as [<-|[<-|[]]].
  - destruct (S {| k_rule := LessThan; k_value := chars "20" |}) as (x & X & R); [simpl; auto|].
    vm_compute in X. injection X as <-. simpl in R. inversion R; lia.
  - destruct (S {| k_rule := EqualTo; k_value := chars "50" |}) as (x & X & R); [simpl; auto|].
    vm_compute in X. injection X as <-. simpl in R. discriminate R.
Qed.

(** ** C52. Numeric literals mean the number they write. *)
Theorem C52_integer_literals : forall ds,
  ds <> [] -> (forall d, In d ds -> is_digit d) ->
  (positional ds < 2 ^ 63 ->
   read_integer (numeral ds) = Some (positional ds) /\
   read_integer (plus_sign :: numeral ds) = Some (positional ds)) /\
  (positional ds <= 2 ^ 63 -> read_integer (minus_sign :: numeral ds) = Some (- positional ds)) /\
  (2 ^ 63 <= positional ds -> read_integer (numeral ds) = None) /\
  (2 ^ 63 < positional ds -> read_integer (minus_sign :: numeral ds) = None).
Proof.
  intros ds N H. destruct (signed_numeral ds N H) as (A & B & C). unfold read_integer.
  rewrite A, B, C. set (p := positional ds).
  destruct (Z.ltb_spec p (2 ^ 63)); destruct (Z.leb_spec p (2 ^ 63)); repeat split; auto;
    intros; lia.
Qed.
Definition C52_claim : Prop := forall bits ds,
  bits = 64 \/ bits = 16 -> ds <> [] -> (forall d, In d ds -> is_digit d) -> 0 < positional ds ->
  (positional ds < 2 ^ bits -> read_unsigned bits (numeral ds) = Some (positional ds)) /\
  (2 ^ bits <= positional ds -> read_unsigned bits (numeral ds) = None) /\
  read_unsigned bits (minus_sign :: numeral ds) = None.
Theorem C52_unsigned_literals : forall bits ds,
  bits = 64 \/ bits = 16 -> ds <> [] -> (forall d, In d ds -> is_digit d) -> 0 < positional ds ->
  (positional ds < 2 ^ bits ->
   read_unsigned bits (numeral ds) = Some (positional ds) /\
   read_unsigned bits (minus_sign :: numeral ds) = Some (2 ^ bits - positional ds)) /\
  (2 ^ bits <= positional ds -> read_unsigned bits (numeral ds) = None).
Proof.
  intros bits ds BB N H P. destruct (signed_numeral ds N H) as (A & B & C). unfold read_unsigned.
  rewrite A, C. set (p := positional ds) in *.
  destruct (Z.ltb_spec p (2 ^ bits)); repeat split; auto; intros; try lia.
  f_equal. symmetry. apply Z.mod_unique with (q := -1); lia.
Qed.
(** A negative literal is accepted: -1 is the largest unsigned number. *)
Theorem C52_negative_unsigned_refuted : ~ C52_claim.
Proof.
  intros C. destruct (C 16 [1]) as (_ & _ & X); auto; try discriminate; [|simpl; lia].
  intros d [<-|[]]. unfold is_digit. lia.
Qed.
Example C52_example : read_unsigned 16 (chars "-1") = Some 65535 /\ read_integer (chars "-012") = Some (-12)
  /\ read_integer (chars "1.5") = None /\ read_integer [] = None.
Proof. vm_compute. auto. Qed.

Print Assumptions C24_declared_values_admissible.
Print Assumptions C24_rejected.
Print Assumptions C24_admissible_accepted.
Print Assumptions C49_set_then_condition.
Print Assumptions C49_set_changes_nothing_else.
Print Assumptions C49_set_then_condition_refuted.
Print Assumptions C50_modification.
Print Assumptions C50_unsigned_modification.
Print Assumptions C50_modification_refuted.
Print Assumptions C50_subtraction_undefined.
Print Assumptions C50_not_numeric_rejected.
Print Assumptions C51_types_preserved.
Print Assumptions C51_constraints_preserved_refuted.
Print Assumptions C52_integer_literals.
Print Assumptions C52_unsigned_literals.
Print Assumptions C52_negative_unsigned_refuted.
