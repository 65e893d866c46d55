(** * Proofs about the expression parser. *)
From Coq Require Import Ascii String List Bool Arith ZArith Lia.
From Verif Require Import M_Scope M_Parameter M_Expression S_Expression.
Import ListNotations.
Local Open Scope list_scope.

(** ** Characters *)

Ltac all_bytes c := destruct c as [[] [] [] [] [] [] [] []].

Lemma in_existsb c l : In c l -> existsb (Ascii.eqb c) l = true.
Proof. intros I. apply existsb_exists. exists c. split; [exact I|apply Ascii.eqb_refl]. Qed.
Lemma in_existsb_N n l : In n l -> existsb (N.eqb n) l = true.
Proof. intros I. apply existsb_exists. exists n. split; [exact I|apply N.eqb_refl]. Qed.

Lemma blank_space c : In (N_of_ascii c) [32; 9; 10; 11; 12; 13]%N -> is_space c = true.
Proof. intros H. apply in_existsb_N in H. revert H. all_bytes c; vm_compute; congruence. Qed.
Lemma digit_spec c : a_digit c -> is_digit c = true.
Proof. intros H. apply in_existsb in H. revert H. all_bytes c; vm_compute; congruence. Qed.
Lemma name_spec c : a_name_char c -> is_name c = true.
Proof. intros H. apply in_existsb in H. revert H. all_bytes c; vm_compute; congruence. Qed.
Lemma digit_value c : a_digit c -> digit c = Some (Z.of_N (N_of_ascii c) - 48)%Z.
Proof. intros H. apply in_existsb in H. revert H. all_bytes c; vm_compute; congruence. Qed.
Lemma digit_least c : a_digit c -> (48 <= N_of_ascii c)%N.
Proof. intros H. apply in_existsb in H. revert H. all_bytes c; vm_compute; congruence. Qed.
Lemma digit_name c : is_digit c = true -> is_name c = true.
Proof. unfold is_name. intros ->. now rewrite orb_true_r. Qed.
Lemma digit_not_space c : is_digit c = true -> is_space c = false.
Proof. all_bytes c; vm_compute; congruence. Qed.
Lemma name_not_space c : is_name c = true -> is_space c = false.
Proof. all_bytes c; vm_compute; congruence. Qed.

Lemma skip_blank w s : blank w -> skip_space (w ++ s) = skip_space s.
Proof.
  induction w as [|c w IH]; intros B; cbn; [reflexivity|].
  rewrite (blank_space c) by (apply B; now left).
  apply IH. intros d I. apply B. now right.
Qed.

Lemma lit_blank t w s : blank w -> lit t (w ++ s) = lit t s.
Proof. intros B. unfold lit. now rewrite skip_blank. Qed.

Lemma strip_prefix_app t s : strip_prefix t (t ++ s) = Some s.
Proof. induction t as [|c t IH]; cbn; [reflexivity|]. now rewrite Ascii.eqb_refl. Qed.

Lemma strip_prefix_length t s r : strip_prefix t s = Some r -> length s = (length t + length r)%nat.
Proof.
  revert s; induction t as [|a t IH]; intros [|b s] E; cbn in *; try congruence.
  - now injection E as <-.
  - injection E as <-. reflexivity.
  - destruct (Ascii.eqb a b); [|discriminate]. now rewrite (IH _ E).
Qed.
Lemma strip_prefix_nocase_length t s r :
  strip_prefix_nocase t s = Some r -> length s = (length t + length r)%nat.
Proof.
  revert s; induction t as [|a t IH]; intros [|b s] E; cbn in *; try congruence.
  - now injection E as <-.
  - injection E as <-. reflexivity.
  - destruct (Ascii.eqb a (lower b)); [|discriminate]. now rewrite (IH _ E).
Qed.
Lemma skip_space_length s : (length (skip_space s) <= length s)%nat.
Proof. induction s as [|c s IH]; cbn; [lia|]. destruct (is_space c); cbn; lia. Qed.
Lemma lit_length t s r : lit t s = Some r -> (length t + length r <= length s)%nat.
Proof.
  intros E. pose proof (strip_prefix_length _ _ _ E). pose proof (skip_space_length s). lia.
Qed.

Lemma span_app f a s :
  (forall c, In c a -> f c = true) -> match s with c :: _ => f c = false | [] => True end ->
  span f (a ++ s) = (a, s).
Proof.
  induction a as [|c a IH]; intros A B; cbn.
  - destruct s as [|c s]; cbn; [reflexivity|]. now rewrite B.
  - rewrite (A c) by now left. rewrite IH; auto. intros d I. apply A. now right.
Qed.
Lemma span_length f s a b : span f s = (a, b) -> length s = (length a + length b)%nat.
Proof.
  revert a b; induction s as [|c s IH]; cbn; intros a b E.
  - injection E as <- <-. reflexivity.
  - destruct (f c).
    + destruct (span f s) as [x y] eqn:Es. injection E as <- <-. cbn. now rewrite (IH _ _ eq_refl).
    + injection E as <- <-. reflexivity.
Qed.
Lemma take_sign_length s a b : take_sign s = (a, b) -> length s = (length a + length b)%nat.
Proof.
  destruct s as [|c s]; cbn; [intros [= <- <-]; reflexivity|].
  destruct (Ascii.eqb c minus_sign || Ascii.eqb c plus_sign); intros [= <- <-]; reflexivity.
Qed.
Lemma take_exponent_length s a b : take_exponent s = (a, b) -> length s = (length a + length b)%nat.
Proof.
  destruct s as [|c s]; cbn; [intros [= <- <-]; reflexivity|].
  destruct (Ascii.eqb c "e" || Ascii.eqb c "E"); [|intros [= <- <-]; reflexivity].
  destruct (take_sign s) as [sg s1] eqn:E1. destruct (span is_digit s1) as [ds s2] eqn:E2.
  apply take_sign_length in E1. apply span_length in E2.
  destruct ds as [|d ds]; intros [= <- <-]; cbn; [reflexivity|].
  rewrite app_length. cbn in *. lia.
Qed.

(** The number of a row of digits, read from the left. *)
Lemma digits_number ds acc : all a_digit ds ->
  digits acc ds = Some (acc * 10 ^ Z.of_nat (length ds) + number ds)%Z.
Proof.
  revert acc; induction ds as [|c ds IH]; intros acc A; cbn [digits number length].
  - f_equal. cbn. lia.
  - rewrite (digit_value c) by (apply A; now left). rewrite IH by (intros d I; apply A; now right).
    f_equal. rewrite Nat2Z.inj_succ, Z.pow_succ_r by lia. ring.
Qed.
Lemma natural_number ds : ds <> [] -> all a_digit ds -> natural ds = Some (number ds).
Proof. destruct ds; [congruence|]. intros _ A. unfold natural. rewrite digits_number by assumption. f_equal. Qed.
Lemma number_nonneg ds : all a_digit ds -> (0 <= number ds)%Z.
Proof.
  induction ds as [|c ds IH]; intros A; cbn; [lia|].
  assert (48 <= N_of_ascii c)%N by (apply digit_least, A; now left).
  assert (0 <= number ds)%Z by (apply IH; intros d I; apply A; now right).
  assert (0 <= 10 ^ Z.of_nat (length ds))%Z by (apply Z.pow_nonneg; lia).
  nia.
Qed.

Section Proofs.
Context (F : doubles) (scope : env F).

(** ** Levels under one name *)

Definition at_level (k m : nat) (s : str) : pres F :=
  match k with
  | 0 => lv0 F scope (parse F scope m) (S m) s
  | 1 => lv1 F scope (parse F scope m) (S m) s
  | 2 => lv2 F scope (parse F scope m) (S m) s
  | 3 => lv3 F scope (parse F scope m) (S m) s
  | 4 => lv4 F scope (parse F scope m) s
  | 5 => lv5 F scope (parse F scope m) s
  | _ => lv6 F scope (parse F scope m) s
  end%nat.
Definition loop (k m : nat) (v : evalue F) (s : str) : pres F :=
  match k with
  | 0 | 1 | 2 | 3 => rounds F (S m) (operators F k) (at_level (S k) m) v s
  | _ => POk v s
  end%nat.

Lemma parse_level m s : parse F scope (S m) s = at_level 0 m s.
Proof. reflexivity. Qed.

Lemma level_step k m s : (k <= 3)%nat ->
  at_level k m s = pbind F (at_level (S k) m s) (fun v r => loop k m v r).
Proof. intros L. destruct k as [|[|[|[|k]]]]; try lia; reflexivity. Qed.

(** ** What is left is shorter *)

Definition shrinks (p : str -> pres F) : Prop :=
  forall s v r, p s = POk v r -> (length r < length s)%nat.

Lemma por_ok a b v r : por F a b = POk v r -> a = POk v r \/ b = POk v r.
Proof. destruct a; cbn; intros E; try discriminate; auto. Qed.
Lemma after_ok t s p v r : after F t s p = POk v r -> exists s1, lit t s = Some s1 /\ p s1 = POk v r.
Proof. unfold after. destruct (lit t s) as [s1|]; [eauto|discriminate]. Qed.
Lemma pbind_ok a f v r : pbind F a f = POk v r -> exists w s1, a = POk w s1 /\ f w s1 = POk v r.
Proof. destruct a; cbn; intros E; try discriminate; eauto. Qed.
Lemma pval_ok o s v r : pval F o s = POk v r -> r = s.
Proof. destruct o; cbn; intros E; try discriminate. now injection E. Qed.

Ltac chase :=
  repeat match goal with
  | H : por _ _ _ = POk _ _ |- _ => apply por_ok in H as [H|H]
  | H : after _ _ _ _ = POk _ _ |- _ =>
      let s := fresh "s" in let E := fresh "E" in apply after_ok in H as (s & E & H); apply lit_length in E
  | H : pbind _ _ _ = POk _ _ |- _ =>
      let w := fresh "w" in let s := fresh "s" in let E := fresh "E" in
      apply pbind_ok in H as (w & s & E & H)
  | H : pval _ _ _ = POk _ _ |- _ => apply pval_ok in H; subst
  | H : POk _ _ = POk _ _ |- _ => injection H as <- <-
  end.

Lemma p_int_shrinks : shrinks (p_int F).
Proof.
  intros s v r. unfold p_int.
  destruct (take_sign (skip_space s)) as [sg s1] eqn:E1.
  destruct (span is_digit s1) as [ds s2] eqn:E2.
  pose proof (skip_space_length s). apply take_sign_length in E1. apply span_length in E2.
  destruct ds as [|d ds]; [discriminate|].
  destruct (natural (d :: ds)); [|discriminate].
  destruct (int_ok _); [|discriminate]. intros [= <- <-]. cbn in *. lia.
Qed.

Lemma p_dbl_shrinks : shrinks (p_dbl F).
Proof.
  intros s v r. unfold p_dbl.
  destruct (take_sign (skip_space s)) as [sg s1] eqn:E1.
  destruct (span is_digit s1) as [ds s2] eqn:E2.
  pose proof (skip_space_length s). apply take_sign_length in E1. apply span_length in E2.
  match goal with |- context [match s2 with [] => match ds with [] => ?x | _ => _ end | _ => _ end] =>
    set (special := x) end.
  assert (SP : special = POk v r -> (length r < length s1)%nat).
  { subst special.
    destruct (strip_prefix_nocase (chars "nan") s1) as [x|] eqn:N1.
    { intros [= <- <-]. apply strip_prefix_nocase_length in N1. cbn in N1. lia. }
    destruct (strip_prefix_nocase (chars "infinity") s1) as [x|] eqn:N2.
    { intros [= <- <-]. apply strip_prefix_nocase_length in N2. cbn in N2. lia. }
    destruct (strip_prefix_nocase (chars "inf") s1) as [x|] eqn:N3; [|discriminate].
    intros [= <- <-]. apply strip_prefix_nocase_length in N3. cbn in N3. lia. }
  destruct s2 as [|c s3].
  { destruct ds; [|discriminate]. intros E. specialize (SP E). lia. }
  destruct (Ascii.eqb c ".").
  - destruct (span is_digit s3) as [fs s4] eqn:E3. apply span_length in E3.
    destruct (take_exponent s4) as [ex s5] eqn:E4. apply take_exponent_length in E4.
    destruct ds as [|d ds]; [destruct fs as [|f fs]|]; cbn in *;
      try (intros E; specialize (SP E); lia); intros [= <- <-]; lia.
  - destruct ds as [|d ds]; [intros E; specialize (SP E); lia|].
    destruct (take_exponent (c :: s3)) as [ex s5] eqn:E4. apply take_exponent_length in E4.
    destruct ex; [discriminate|]. intros [= <- <-]. cbn in *. lia.
Qed.

Lemma p_ref_shrinks : shrinks (p_ref F scope).
Proof.
  intros s v r. unfold p_ref. destruct (lit (chars "$") s) as [s1|] eqn:E; [|discriminate].
  destruct (span is_name s1) as [n s2] eqn:E2. apply span_length in E2. apply lit_length in E.
  intros H. apply pval_ok in H. subst. cbn in E. lia.
Qed.

Section Shrink.
Context (p0 : str -> pres F) (P0 : shrinks p0).
Ltac use0 := repeat match goal with H : p0 _ = POk _ _ |- _ => apply P0 in H end.

Lemma lv6_shrinks : shrinks (lv6 F scope p0).
Proof.
  intros s v r H. unfold lv6 in H. chase; use0; cbn in *; try lia.
  - now apply p_dbl_shrinks in H.
  - now apply p_int_shrinks in H.
  - now apply p_ref_shrinks in H.
Qed.
Lemma lv5_shrinks : shrinks (lv5 F scope p0).
Proof.
  intros s v r H. unfold lv5, call1, call2 in H. chase; use0; cbn in *; try lia.
  now apply lv6_shrinks in H.
Qed.
Lemma lv4_shrinks : shrinks (lv4 F scope p0).
Proof.
  intros s v r H. unfold lv4 in H. chase; cbn in *;
    repeat match goal with H : lv5 _ _ _ _ = POk _ _ |- _ => apply lv5_shrinks in H end; lia.
Qed.
End Shrink.

Lemma round_of_shrinks ops operand v : shrinks operand -> shrinks (round_of F ops operand v).
Proof.
  intros P s w r. induction ops as [|[t f] ops IH]; cbn; [discriminate|].
  intros H. chase; [|now apply IH]. apply P in E0. lia.
Qed.
Lemma rounds_shrinks n ops operand v s w r : shrinks operand ->
  rounds F n ops operand v s = POk w r -> (length r <= length s)%nat.
Proof.
  intros P. revert v s; induction n as [|n IH]; intros v s; cbn; [discriminate|].
  destruct (round_of F ops operand v s) eqn:E; try discriminate.
  - intros H. apply IH in H. apply (round_of_shrinks ops operand v P) in E. lia.
  - intros [= <- <-]. lia.
Qed.
Lemma then_rounds_shrinks n ops p : shrinks p ->
  shrinks (fun s => pbind F (p s) (fun v r => rounds F n ops p v r)).
Proof.
  intros P s v r H. cbn in H. chase. apply P in E. apply rounds_shrinks in H; [lia|exact P].
Qed.

Lemma at_level_shrinks k m : shrinks (at_level k m).
Proof.
  revert k; induction m as [|m IH]; intros k.
  - assert (P0 : shrinks (parse F scope 0)) by (intros s v r E; discriminate).
    destruct k as [|[|[|[|[|[|k]]]]]].
    + apply then_rounds_shrinks, then_rounds_shrinks, then_rounds_shrinks, then_rounds_shrinks.
      now apply lv4_shrinks.
    + apply then_rounds_shrinks, then_rounds_shrinks, then_rounds_shrinks. now apply lv4_shrinks.
    + apply then_rounds_shrinks, then_rounds_shrinks. now apply lv4_shrinks.
    + apply then_rounds_shrinks. now apply lv4_shrinks.
    + now apply lv4_shrinks.
    + now apply lv5_shrinks.
    + now apply lv6_shrinks.
  - assert (P0 : shrinks (parse F scope (S m))) by exact (IH 0%nat).
    destruct k as [|[|[|[|[|[|k]]]]]].
    + apply then_rounds_shrinks, then_rounds_shrinks, then_rounds_shrinks, then_rounds_shrinks.
      now apply lv4_shrinks.
    + apply then_rounds_shrinks, then_rounds_shrinks, then_rounds_shrinks. now apply lv4_shrinks.
    + apply then_rounds_shrinks, then_rounds_shrinks. now apply lv4_shrinks.
    + apply then_rounds_shrinks. now apply lv4_shrinks.
    + now apply lv4_shrinks.
    + now apply lv5_shrinks.
    + now apply lv6_shrinks.
Qed.

(** ** Fuel *)

Lemma rounds_fuel n n' ops operand v s : shrinks operand ->
  (length s < n)%nat -> (length s < n')%nat ->
  rounds F n ops operand v s = rounds F n' ops operand v s.
Proof.
  intros P. revert n' v s; induction n as [|n IH]; intros [|n'] v s L L'; try lia.
  cbn. destruct (round_of F ops operand v s) eqn:E; try reflexivity.
  apply (round_of_shrinks ops operand v P) in E. apply IH; lia.
Qed.

Definition fed (p : str -> pres F) (s : str) : Prop :=
  forall s', (length s' <= length s)%nat -> p s' <> PFuel.
(** On all shorter strings. *)
Definition fed_below (p : str -> pres F) (s : str) : Prop :=
  forall s', (length s' < length s)%nat -> p s' <> PFuel.

Lemma por_fed a b : a <> PFuel -> b <> PFuel -> por F a b <> PFuel.
Proof. destruct a; cbn; auto. Qed.
Lemma after_fed t s p : (forall r, lit t s = Some r -> p r <> PFuel) -> after F t s p <> PFuel.
Proof. unfold after. destruct (lit t s); [auto|discriminate]. Qed.
Lemma pbind_fed a f : a <> PFuel -> (forall v r, a = POk v r -> f v r <> PFuel) -> pbind F a f <> PFuel.
Proof. destruct a; cbn; auto. Qed.
Lemma pval_fed o s : pval F o s <> PFuel.
Proof. destruct o; discriminate. Qed.

Lemma p_dbl_fed s : p_dbl F s <> PFuel.
Proof.
  unfold p_dbl. destruct (take_sign _) as [sg s1]. destruct (span is_digit s1) as [ds s2].
  assert (SP : match strip_prefix_nocase (chars "nan") s1 with
    | Some r => POk (EDbl (d_read F (sg ++ chars "nan"))) r
    | None =>
        match strip_prefix_nocase (chars "infinity") s1 with
        | Some r => POk (EDbl (d_read F (sg ++ chars "inf"))) r
        | None =>
            match strip_prefix_nocase (chars "inf") s1 with
            | Some r => POk (EDbl (d_read F (sg ++ chars "inf"))) r
            | None => PFail
            end
        end
    end <> PFuel).
  { destruct (strip_prefix_nocase _ _); [discriminate|].
    destruct (strip_prefix_nocase _ _); [discriminate|].
    destruct (strip_prefix_nocase _ _); discriminate. }
  destruct s2 as [|c s3]; [destruct ds; [exact SP|discriminate]|].
  destruct (Ascii.eqb c ".").
  - destruct (span is_digit s3) as [fs s4]. destruct (take_exponent s4).
    destruct ds; [destruct fs; [exact SP|discriminate]|discriminate].
  - destruct ds; [exact SP|]. destruct (take_exponent (c :: s3)) as [[|e ex] s5]; discriminate.
Qed.
Lemma p_int_fed s : p_int F s <> PFuel.
Proof.
  unfold p_int. destruct (take_sign _) as [sg s1]. destruct (span is_digit s1) as [ds s2].
  destruct (natural ds); [|discriminate]. destruct (int_ok _); discriminate.
Qed.
Lemma p_ref_fed s : p_ref F scope s <> PFuel.
Proof.
  unfold p_ref. destruct (lit _ s) as [s1|]; [|discriminate].
  destruct (span is_name s1). apply pval_fed.
Qed.

Section Fed.
Context (p0 : str -> pres F) (P0 : shrinks p0).
Ltac feed :=
  repeat first
  [ apply por_fed | apply p_dbl_fed | apply p_int_fed | apply p_ref_fed | apply pval_fed
  | discriminate
  | apply after_fed; let r := fresh "r" in let E := fresh "E" in intros r E; apply lit_length in E; cbn in E
  | apply pbind_fed; [|let v := fresh "v" in let r := fresh "r" in let E := fresh "E" in
                       intros v r E; try apply P0 in E] ].

Lemma lv6_fed s : fed_below p0 s -> lv6 F scope p0 s <> PFuel.
Proof. intros B. unfold lv6. feed. apply B. lia. Qed.
Lemma lv5_fed s : fed_below p0 s -> lv5 F scope p0 s <> PFuel.
Proof.
  intros B. unfold lv5, call1, call2. feed; try (apply B; lia); now apply lv6_fed.
Qed.
Lemma lv4_fed s : fed_below p0 s -> lv4 F scope p0 s <> PFuel.
Proof.
  intros B. unfold lv4.
  apply por_fed; [|apply por_fed; [|now apply lv5_fed]]; apply after_fed; intros r E;
    apply lit_length in E; (apply pbind_fed; [|intros; apply pval_fed]); apply lv5_fed;
    intros s' L; apply B; lia.
Qed.
End Fed.

Lemma round_of_fed ops operand v s :
  (forall s', (length s' <= length s)%nat -> operand s' <> PFuel) ->
  round_of F ops operand v s <> PFuel.
Proof.
  intros B. induction ops as [|[t f] ops IH]; cbn; [discriminate|].
  apply por_fed; [|exact IH]. apply after_fed. intros r E. apply lit_length in E.
  apply pbind_fed; [apply B; lia|]. intros. apply pval_fed.
Qed.
Lemma rounds_fed n ops operand v s : shrinks operand ->
  (forall s', (length s' <= length s)%nat -> operand s' <> PFuel) -> (length s < n)%nat ->
  rounds F n ops operand v s <> PFuel.
Proof.
  intros P. revert v s; induction n as [|n IH]; intros v s B L; [lia|]. cbn.
  pose proof (round_of_fed ops operand v s B) as R.
  destruct (round_of F ops operand v s) eqn:E; try discriminate; [|congruence].
  apply (round_of_shrinks ops operand v P) in E. apply IH; [|lia]. intros s' L'. apply B. lia.
Qed.
Lemma then_rounds_fed n ops p s : shrinks p ->
  (forall s', (length s' <= length s)%nat -> p s' <> PFuel) -> (length s < n)%nat ->
  pbind F (p s) (fun v r => rounds F n ops p v r) <> PFuel.
Proof.
  intros P B L. apply pbind_fed; [apply B; lia|]. intros v r E. apply P in E.
  apply rounds_fed; [exact P| |lia]. intros s' L'. apply B. lia.
Qed.

Lemma parse_fed m s : (length s < m)%nat -> parse F scope m s <> PFuel.
Proof.
  revert s; induction m as [|m IH]; intros s L; [lia|].
  rewrite parse_level.
  assert (F4 : forall s', (length s' <= m)%nat -> at_level 4 m s' <> PFuel).
  { intros s' L'. apply lv4_fed; [destruct m; [intros ? ? ? E; discriminate|exact (at_level_shrinks 0 m)]|].
    intros s'' L''. apply IH. lia. }
  assert (F3 : forall s', (length s' <= m)%nat -> at_level 3 m s' <> PFuel).
  { intros s' L'. apply (then_rounds_fed (S m) (operators F 3) (at_level 4 m)); [apply at_level_shrinks| |lia].
    intros. apply F4. lia. }
  assert (F2 : forall s', (length s' <= m)%nat -> at_level 2 m s' <> PFuel).
  { intros s' L'. apply (then_rounds_fed (S m) (operators F 2) (at_level 3 m)); [apply at_level_shrinks| |lia].
    intros. apply F3. lia. }
  assert (F1 : forall s', (length s' <= m)%nat -> at_level 1 m s' <> PFuel).
  { intros s' L'. apply (then_rounds_fed (S m) (operators F 1) (at_level 2 m)); [apply at_level_shrinks| |lia].
    intros. apply F2. lia. }
  apply (then_rounds_fed (S m) (operators F 0) (at_level 1 m)); [apply at_level_shrinks| |lia].
  intros. apply F1. lia.
Qed.

(** ** The operations *)

Lemma fits_int z : fits F z = as_int F z.
Proof.
  unfold fits, as_int, int_ok. change (- 2 ^ 31)%Z with (-2147483648)%Z. change (2 ^ 31)%Z with 2147483648%Z.
  destruct (Z.leb_spec (-2147483648) z), (Z.leb_spec z 2147483647), (Z.ltb_spec z 2147483648);
    cbn; try reflexivity; lia.
Qed.
Definition op_of (o : operator) : evalue F -> evalue F -> outcome (evalue F) :=
  match o with
  | Or => e_or F | And => e_and F | Plus => e_add F | Minus => e_sub F
  | Times => e_mul F | Divide => e_div F | Modulo => e_mod F
  end.
Lemma double_of_to v : double_of F v = to_double F v.
Proof. destruct v as [| | | |[]]; reflexivity. Qed.
Lemma apply_op o a b : apply F o a b = op_of o a b.
Proof.
  destruct o; destruct a, b; cbn;
    try reflexivity; rewrite ?fits_int; try reflexivity;
    repeat match goal with x : bool |- _ => destruct x end; reflexivity.
Qed.
Lemma negation_op v : negation F v = e_neg F v.
Proof. destruct v; cbn; try reflexivity; apply fits_int. Qed.
Lemma complement_op v : complement F v = e_not F v.
Proof. destruct v; reflexivity. Qed.
Definition fun_of (f : function) : evalue F -> outcome (evalue F) :=
  match f with Round => e_round F | Floor => e_floor F | Ceil => e_ceil F | Sqrt => e_sqrt F end.
Lemma call_op f v : call F f v = fun_of f v.
Proof.
  destruct f; cbn; unfold call, e_round, e_floor, e_ceil, e_sqrt, e_int; rewrite double_of_to; cbn;
    match goal with |- match ?x with _ => _ end = _ => destruct x end; try reflexivity; apply fits_int.
Qed.
Lemma parameter_op n : parameter F scope n = to_value F scope n.
Proof.
  unfold parameter, to_value. destruct (scope n) as [[[]|]| |]; reflexivity.
Qed.

(** ** What may follow *)

Definition sep (rest : str) : Prop :=
  match rest with c :: _ => is_name c = false /\ c <> "."%char | [] => True end.
Definition tail (k : nat) (rest : str) : Prop :=
  sep rest /\ forall i t f, (k < i <= 3)%nat -> In (t, f) (operators F i) -> lit t rest = None.

Lemma tail_mono k k' rest : (k <= k')%nat -> tail k rest -> tail k' rest.
Proof. intros L [S0 T]. split; [exact S0|]. intros i t f I. apply T. lia. Qed.

Lemma space_not_name c : is_space c = true -> is_name c = false /\ c <> "."%char.
Proof. intros H. split; revert H; all_bytes c; vm_compute; congruence. Qed.

Lemma tail_char k w c rest :
  blank w -> is_space c = false -> (w <> [] \/ (is_name c = false /\ c <> "."%char)) ->
  (forall i t f, (k < i <= 3)%nat -> In (t, f) (operators F i) ->
     match t with a :: _ => Ascii.eqb a c = false | [] => False end) ->
  tail k (w ++ c :: rest).
Proof.
  intros B NS H T. split.
  - destruct w as [|d w]; cbn.
    + destruct H as [H|H]; [congruence|exact H].
    + apply space_not_name, blank_space, B. now left.
  - intros i t f L I. specialize (T i t f L I). rewrite lit_blank by assumption.
    unfold lit. cbn. rewrite NS. destruct t as [|a t]; [contradiction|]. cbn. now rewrite T.
Qed.

Ltac in_cases H :=
  repeat match type of H with
  | _ \/ _ => destruct H as [H|H]
  | False => contradiction
  | (_, _) = (_, _) => injection H as <- <-
  end.

Lemma tail_operators k c : 
  forallb (fun i => forallb (fun tf : str * (evalue F -> evalue F -> outcome (evalue F)) =>
             match fst tf with a :: _ => negb (Ascii.eqb a c) | [] => false end) (operators F i))
    (seq (S k) (3 - k)) = true ->
  forall i t f, (k < i <= 3)%nat -> In (t, f) (operators F i) ->
    match t with a :: _ => Ascii.eqb a c = false | [] => False end.
Proof.
  intros H i t f L I. rewrite forallb_forall in H.
  assert (I1 : In i (seq (S k) (3 - k))) by (apply in_seq; lia).
  specialize (H i I1). rewrite forallb_forall in H. specialize (H (t, f) I). cbn in H.
  destruct t as [|a t]; [discriminate|]. now apply negb_true_iff in H.
Qed.

Lemma tail_close k w rest : blank w -> tail k (w ++ chars ")" ++ rest).
Proof.
  intros B. apply (tail_char k w ")"); [exact B|reflexivity|right; split; [reflexivity|discriminate]|].
  apply tail_operators. destruct k as [|[|[|[|k]]]]; reflexivity.
Qed.
Lemma tail_comma k w rest : blank w -> tail k (w ++ chars "," ++ rest).
Proof.
  intros B. apply (tail_char k w ","); [exact B|reflexivity|right; split; [reflexivity|discriminate]|].
  apply tail_operators. destruct k as [|[|[|[|k]]]]; reflexivity.
Qed.
Lemma tail_sign o w rest : gap o w -> tail (precedence o) (w ++ sign o ++ rest).
Proof.
  intros [B G].
  destruct o; cbn [sign chars list_ascii_of_string app];
    (apply tail_char; [exact B|reflexivity| |apply tail_operators; reflexivity]);
    first [left; exact G|right; split; [reflexivity|discriminate]].
Qed.
Lemma tail_end w : blank w -> tail 0 w.
Proof.
  intros B. split.
  - destruct w as [|c w]; [exact I|]. apply space_not_name, blank_space, B. now left.
  - intros i t f L I. rewrite <- (app_nil_r w), lit_blank by assumption.
    destruct i as [|[|[|[|i]]]]; try lia; cbn in I; in_cases I; reflexivity.
Qed.

Lemma loop_stop k m v rest :
  ((k <= 3)%nat -> forall t f, In (t, f) (operators F k) -> lit t rest = None) ->
  loop k m v rest = POk v rest.
Proof.
  intros H.
  assert (R : forall ops operand, (forall t f, In (t, f) ops -> lit t rest = None) ->
                round_of F ops operand v rest = PFail).
  { induction ops as [|[t f] ops IH]; intros operand H'; cbn; [reflexivity|].
    unfold after. rewrite (H' t f) by now left. cbn. apply IH. intros t' f' I. apply (H' t' f'). now right. }
  destruct k as [|[|[|[|k]]]]; cbn [loop rounds]; try reflexivity; rewrite R; try reflexivity;
    intros t f I; apply (H ltac:(lia) t f I).
Qed.
Lemma loop_tail k m v rest : tail k rest -> loop (S k) m v rest = POk v rest.
Proof. intros [_ T]. apply loop_stop. intros L t f. apply T. lia. Qed.

Lemma por_fail_r a : por F a PFail = a.
Proof. now destruct a. Qed.

(** One round with the operator that is there. *)
Lemma round_of_sign o operand v w s :
  blank w ->
  round_of F (operators F (precedence o)) operand v (w ++ sign o ++ s) =
  pbind F (operand s) (fun x r => pval F (op_of o v x) r).
Proof.
  intros B.
  destruct o; cbn [precedence operators round_of];
    unfold after;
    repeat match goal with |- context [lit ?t (w ++ ?x)] => rewrite (lit_blank t w x B) end;
    cbn -[e_or e_and e_add e_sub e_mul e_div e_mod pval]; rewrite ?por_fail_r; reflexivity.
Qed.

(** ** Leaves *)

Lemma digit_eqb a d : is_digit a = false -> is_digit d = true -> Ascii.eqb a d = false.
Proof.
  intros A B. destruct (Ascii.eqb a d) eqn:E; [|reflexivity].
  apply Ascii.eqb_eq in E. congruence.
Qed.
Lemma digit_lower a d : is_digit a = false -> is_digit d = true -> Ascii.eqb a (lower d) = false.
Proof.
  intros A B. replace (lower d) with d; [now apply digit_eqb|].
  revert B. all_bytes d; vm_compute; congruence.
Qed.
Lemma lit_digit t a d s :
  is_digit a = false -> is_digit d = true -> lit (a :: t) (d :: s) = None.
Proof.
  intros A B. unfold lit. cbn. rewrite digit_not_space by assumption. cbn.
  now rewrite digit_eqb.
Qed.

Lemma sep_span_digit rest : sep rest -> match rest with c :: _ => is_digit c = false | [] => True end.
Proof.
  destruct rest as [|c rest]; [auto|]. intros [N _]. destruct (is_digit c) eqn:E; [|reflexivity].
  apply digit_name in E. congruence.
Qed.
Lemma sep_span_name rest : sep rest -> match rest with c :: _ => is_name c = false | [] => True end.
Proof. destruct rest as [|c rest]; [auto|]. now intros [N _]. Qed.
Lemma sep_exponent rest : sep rest -> take_exponent rest = ([], rest).
Proof.
  destruct rest as [|c rest]; [reflexivity|]. intros [N _]. cbn.
  destruct (Ascii.eqb_spec c "e"%char) as [->|]; [discriminate|].
  destruct (Ascii.eqb_spec c "E"%char) as [->|]; [discriminate|]. reflexivity.
Qed.
Lemma sep_dot c rest : sep (c :: rest) -> Ascii.eqb c "." = false.
Proof. intros [_ N]. now destruct (Ascii.eqb_spec c "."%char). Qed.

Lemma take_sign_digit d s : is_digit d = true -> take_sign (d :: s) = ([], d :: s).
Proof.
  intros H. cbn. rewrite (Ascii.eqb_sym d minus_sign), (Ascii.eqb_sym d plus_sign).
  now rewrite !digit_eqb.
Qed.
Lemma all_digit ds : all a_digit ds -> forall c, In c ds -> is_digit c = true.
Proof. intros A c I. now apply digit_spec, A. Qed.

Lemma p_dbl_int ds rest : ds <> [] -> all a_digit ds -> sep rest -> p_dbl F (ds ++ rest) = PFail.
Proof.
  intros NE A S0. destruct ds as [|d ds]; [congruence|].
  assert (Hd : is_digit d = true) by (apply digit_spec, A; now left).
  unfold p_dbl. replace (skip_space ((d :: ds) ++ rest)) with ((d :: ds) ++ rest)
    by (cbn; now rewrite digit_not_space).
  change ((d :: ds) ++ rest) with (d :: (ds ++ rest)) at 1. rewrite take_sign_digit by exact Hd.
  change (d :: (ds ++ rest)) with ((d :: ds) ++ rest).
  rewrite span_app by (first [now apply all_digit|now apply sep_span_digit]).
  destruct rest as [|c rest]; [reflexivity|]. rewrite (sep_dot c rest S0).
  now rewrite (sep_exponent _ S0).
Qed.
Lemma p_int_int ds rest : ds <> [] -> all a_digit ds -> (number ds < 2 ^ 31)%Z -> sep rest ->
  p_int F (ds ++ rest) = POk (EInt (number ds)) rest.
Proof.
  intros NE A R S0. pose proof (number_nonneg ds A) as P.
  destruct ds as [|d ds]; [congruence|].
  assert (Hd : is_digit d = true) by (apply digit_spec, A; now left).
  unfold p_int. replace (skip_space ((d :: ds) ++ rest)) with ((d :: ds) ++ rest)
    by (cbn; now rewrite digit_not_space).
  change ((d :: ds) ++ rest) with (d :: (ds ++ rest)) at 1. rewrite take_sign_digit by exact Hd.
  change (d :: (ds ++ rest)) with ((d :: ds) ++ rest).
  rewrite span_app by (first [now apply all_digit|now apply sep_span_digit]).
  rewrite natural_number by assumption.
  replace (int_ok (number (d :: ds))) with true; [reflexivity|].
  symmetry. unfold int_ok. apply andb_true_iff. split; [apply Z.leb_le|apply Z.ltb_lt; exact R].
  change (- 2 ^ 31)%Z with (-2147483648)%Z. lia.
Qed.
Lemma p_dbl_dec ds fs rest : ds <> [] -> all a_digit ds -> all a_digit fs -> sep rest ->
  p_dbl F (ds ++ chars "." ++ fs ++ rest) = POk (EDbl (d_read F (ds ++ chars "." ++ fs))) rest.
Proof.
  intros NE A Af S0. destruct ds as [|d ds]; [congruence|].
  assert (Hd : is_digit d = true) by (apply digit_spec, A; now left).
  unfold p_dbl.
  replace (skip_space ((d :: ds) ++ chars "." ++ fs ++ rest))
    with ((d :: ds) ++ chars "." ++ fs ++ rest)
    by (cbn; now rewrite digit_not_space).
  change ((d :: ds) ++ chars "." ++ fs ++ rest) with (d :: (ds ++ chars "." ++ fs ++ rest)) at 1.
  rewrite take_sign_digit by exact Hd.
  change (d :: (ds ++ chars "." ++ fs ++ rest)) with ((d :: ds) ++ chars "." ++ fs ++ rest).
  rewrite span_app; [|now apply all_digit|reflexivity].
  change (chars "." ++ fs ++ rest) with ("."%char :: (fs ++ rest)). cbn iota. rewrite Ascii.eqb_refl.
  rewrite span_app by (first [now apply all_digit|now apply sep_span_digit]).
  rewrite sep_exponent by assumption. now rewrite app_nil_r.
Qed.

Section Leaf.
Context (p0 : str -> pres F).

Lemma p_dbl_blank w s : blank w -> p_dbl F (w ++ s) = p_dbl F s.
Proof. intros B. unfold p_dbl. now rewrite skip_blank. Qed.
Lemma p_int_blank w s : blank w -> p_int F (w ++ s) = p_int F s.
Proof. intros B. unfold p_int. now rewrite skip_blank. Qed.
Lemma lv6_blank w s : blank w -> lv6 F scope p0 (w ++ s) = lv6 F scope p0 s.
Proof.
  intros B. unfold lv6, after, p_ref. now rewrite !lit_blank, p_dbl_blank, p_int_blank by assumption.
Qed.
Lemma lv5_blank w s : blank w -> lv5 F scope p0 (w ++ s) = lv5 F scope p0 s.
Proof.
  intros B. unfold lv5, call1, call2, after. now rewrite !lit_blank, lv6_blank by assumption.
Qed.
Lemma lv4_blank w s : blank w -> lv4 F scope p0 (w ++ s) = lv4 F scope p0 s.
Proof.
  intros B. unfold lv4, after. now rewrite !lit_blank, lv5_blank by assumption.
Qed.

Lemma lv6_int ds rest : ds <> [] -> all a_digit ds -> (number ds < 2 ^ 31)%Z -> sep rest ->
  lv6 F scope p0 (ds ++ rest) = POk (EInt (number ds)) rest.
Proof.
  intros NE A R S0. unfold lv6. rewrite p_dbl_int, p_int_int by assumption.
  destruct ds as [|d ds]; [congruence|].
  assert (Hd : is_digit d = true) by (apply digit_spec, A; now left).
  unfold after. cbn [chars list_ascii_of_string app].
  rewrite !lit_digit by (reflexivity || assumption). reflexivity.
Qed.
Lemma lv6_dec ds fs rest : ds <> [] -> all a_digit ds -> all a_digit fs -> sep rest ->
  lv6 F scope p0 (ds ++ chars "." ++ fs ++ rest)
  = POk (EDbl (d_read F (ds ++ chars "." ++ fs))) rest.
Proof.
  intros NE A Af S0. unfold lv6. rewrite p_dbl_dec by assumption.
  destruct ds as [|d ds]; [congruence|].
  assert (Hd : is_digit d = true) by (apply digit_spec, A; now left).
  unfold after. cbn [chars list_ascii_of_string app].
  rewrite !lit_digit by (reflexivity || assumption). reflexivity.
Qed.
Lemma lv6_ref n rest : all a_name_char n -> sep rest ->
  lv6 F scope p0 (chars "$" ++ n ++ rest) = pval F (to_value F scope n) rest.
Proof.
  intros A S0. unfold lv6. unfold after, p_ref, lit. cbn -[span].
  rewrite span_app; [reflexivity| |now apply sep_span_name].
  intros c I. now apply name_spec, A.
Qed.

Lemma lv5_of_6 e s rest : spelled 6 e s -> lv5 F scope p0 (s ++ rest) = lv6 F scope p0 (s ++ rest).
Proof.
  intros H. inversion H; subst; try lia;
    try (match goal with o : operator |- _ => destruct o; discriminate end);
    rewrite <- !app_assoc, lv5_blank, lv6_blank by assumption;
    unfold lv5, call1, call2, after; try reflexivity;
    match goal with N : ?ds <> [], A : all a_digit ?ds |- _ =>
      destruct ds as [|d ds']; [congruence|];
      assert (Hd : is_digit d = true) by (apply digit_spec, A; now left);
      cbn [chars list_ascii_of_string app];
      rewrite !lit_digit by (reflexivity || assumption); reflexivity
    end.
Qed.
Lemma lv4_of_5 e s rest : spelled 5 e s -> lv4 F scope p0 (s ++ rest) = lv5 F scope p0 (s ++ rest).
Proof.
  intros H. inversion H; subst; try lia;
    try (match goal with o : operator |- _ => destruct o; discriminate end).
  - match goal with H : spelled 6 _ _ |- _ => inversion H; subst end; try lia;
    try (match goal with o : operator |- _ => destruct o; discriminate end);
    rewrite <- !app_assoc, lv4_blank, lv5_blank by assumption;
    unfold lv4, after; try reflexivity;
    match goal with N : ?ds <> [], A : all a_digit ?ds |- _ =>
      destruct ds as [|d ds']; [congruence|];
      assert (Hd : is_digit d = true) by (apply digit_spec, A; now left);
      cbn [chars list_ascii_of_string app];
      rewrite !lit_digit by (reflexivity || assumption); reflexivity
    end.
  - rewrite <- !app_assoc, lv4_blank, lv5_blank by assumption.
    unfold lv4, after. destruct f; reflexivity.
  - rewrite <- !app_assoc, lv4_blank, lv5_blank by assumption.
    unfold lv4, after. reflexivity.
Qed.
End Leaf.

(** ** The parser follows the grammar *)

Definition continue (k m : nat) (o : outcome (evalue F)) (rest : str) : pres F :=
  match o with Returns v => loop k m v rest | Throws => PThrow | Undefined => PUndef end.

Lemma continue_tail k m o rest : tail k rest -> continue (S k) m o rest = pval F o rest.
Proof. intros T. destruct o; cbn [continue pval]; try reflexivity. now apply loop_tail. Qed.
Lemma continue_high k m o rest : (4 <= k)%nat -> continue k m o rest = pval F o rest.
Proof. intros L. destruct k as [|[|[|[|k]]]]; try lia. now destruct o. Qed.
Lemma continue_tail0 m o rest :
  tail 0 rest -> lit (chars "or") rest = None -> continue 0 m o rest = pval F o rest.
Proof.
  intros T N. destruct o; cbn [continue pval]; try reflexivity. apply loop_stop.
  intros _ t f [[= <- <-]|[]]. exact N.
Qed.

Lemma por_pval o r b : por F (pval F o r) b = pval F o r.
Proof. destruct o; reflexivity. Qed.
Lemma pbind_pval o r f :
  pbind F (pval F o r) f = match o with Returns v => f v r | Throws => PThrow | Undefined => PUndef end.
Proof. destruct o; reflexivity. Qed.

Definition reads (k : nat) (e : ast) (s : str) : Prop :=
  forall m rest, (length (s ++ rest) <= m)%nat -> tail k rest ->
    at_level k m (s ++ rest) = continue k m (meaning F scope e) rest.

(** An expression inside parentheses, up to what follows it. *)
Lemma reads_inner e s m rest : reads 0 e s -> (length (s ++ rest) < m)%nat ->
  tail 0 rest -> lit (chars "or") rest = None ->
  parse F scope m (s ++ rest) = pval F (meaning F scope e) rest.
Proof.
  intros R L T N. destruct m as [|m]; [lia|]. rewrite parse_level, R by (lia || assumption).
  now apply continue_tail0.
Qed.

Ltac lengths := rewrite ?app_length in *; cbn [chars list_ascii_of_string length app] in *; lia.

Lemma close_not_or w rest : blank w -> lit (chars "or") (w ++ chars ")" ++ rest) = None.
Proof. intros B. rewrite lit_blank by assumption. reflexivity. Qed.
Lemma comma_not_or w rest : blank w -> lit (chars "or") (w ++ chars "," ++ rest) = None.
Proof. intros B. rewrite lit_blank by assumption. reflexivity. Qed.

Lemma after_blank_sym t w s p :
  blank w -> strip_prefix t (skip_space (t ++ s)) = Some s -> after F t (w ++ t ++ s) p = p s.
Proof. intros B E. unfold after. rewrite lit_blank by assumption. unfold lit. now rewrite E. Qed.

Lemma after_sym t s p : strip_prefix t (skip_space (t ++ s)) = Some s -> after F t (t ++ s) p = p s.
Proof. intros E. unfold after, lit. now rewrite E. Qed.

Lemma call1_miss p0 name f s : lit name s = None -> call1 F p0 name f s = PFail.
Proof. intros E. unfold call1, after. now rewrite E. Qed.
Lemma call2_miss p0 name f s : lit name s = None -> call2 F p0 name f s = PFail.
Proof. intros E. unfold call2, after. now rewrite E. Qed.

Lemma reads_call f e w1 w2 s w3 m rest :
  blank w1 -> blank w2 -> blank w3 -> reads 0 e s ->
  (length ((w1 ++ name_of f ++ w2 ++ chars "(" ++ s ++ w3 ++ chars ")") ++ rest) <= m)%nat ->
  lv5 F scope (parse F scope m) ((w1 ++ name_of f ++ w2 ++ chars "(" ++ s ++ w3 ++ chars ")") ++ rest)
  = pval F (bind (meaning F scope e) (call F f)) rest.
Proof.
  intros B1 B2 B3 R L.
  assert (C : call1 F (parse F scope m) (name_of f) (fun_of f)
      (name_of f ++ w2 ++ chars "(" ++ s ++ w3 ++ chars ")" ++ rest)
    = pval F (bind (meaning F scope e) (call F f)) rest).
  { unfold call1.
    rewrite (after_sym (name_of f)) by (destruct f; reflexivity).
    rewrite after_blank_sym by (assumption || reflexivity).
    rewrite (reads_inner e s m (w3 ++ chars ")" ++ rest)).
    - rewrite pbind_pval. destruct (meaning F scope e) as [v| |]; try reflexivity.
      rewrite after_blank_sym by (assumption || reflexivity). cbn [bind]. now rewrite call_op.
    - exact R.
    - lengths.
    - now apply tail_close.
    - now apply close_not_or. }
  rewrite <- !app_assoc, lv5_blank by assumption.
  unfold lv5. rewrite call2_miss by (destruct f; reflexivity). cbn [por].
  destruct f; cbn [name_of fun_of] in *;
    repeat (rewrite call1_miss by reflexivity; cbn [por]); rewrite C; now rewrite por_pval.
Qed.

Lemma reads_pow a b w1 w2 sa w3 sb w4 m rest :
  blank w1 -> blank w2 -> blank w3 -> blank w4 -> reads 0 a sa -> reads 0 b sb ->
  (length ((w1 ++ chars "pow" ++ w2 ++ chars "(" ++ sa ++ w3 ++ chars "," ++ sb ++ w4 ++ chars ")")
           ++ rest) <= m)%nat ->
  lv5 F scope (parse F scope m)
    ((w1 ++ chars "pow" ++ w2 ++ chars "(" ++ sa ++ w3 ++ chars "," ++ sb ++ w4 ++ chars ")") ++ rest)
  = pval F (meaning F scope (APow a b)) rest.
Proof.
  intros B1 B2 B3 B4 Ra Rb L.
  rewrite <- !app_assoc, lv5_blank by assumption.
  assert (C : call2 F (parse F scope m) (chars "pow") (e_pow F)
      (chars "pow" ++ w2 ++ chars "(" ++ sa ++ w3 ++ chars "," ++ sb ++ w4 ++ chars ")" ++ rest)
    = pval F (meaning F scope (APow a b)) rest).
  { unfold call2.
    rewrite (after_sym (chars "pow")) by reflexivity.
    rewrite after_blank_sym by (assumption || reflexivity).
    rewrite (reads_inner a sa m (w3 ++ chars "," ++ sb ++ w4 ++ chars ")" ++ rest));
      [|exact Ra|lengths|now apply tail_comma|now apply comma_not_or].
    rewrite pbind_pval. cbn [meaning]. destruct (meaning F scope a) as [x| |]; try reflexivity.
    rewrite after_blank_sym by (assumption || reflexivity).
    rewrite (reads_inner b sb m (w4 ++ chars ")" ++ rest));
      [|exact Rb|lengths|now apply tail_close|now apply close_not_or].
    rewrite pbind_pval. cbn [bind]. destruct (meaning F scope b) as [y| |]; try reflexivity.
    rewrite after_blank_sym by (assumption || reflexivity).
    unfold e_pow. cbn [bind pval]. now rewrite !double_of_to. }
  unfold lv5. rewrite C. now rewrite por_pval.
Qed.

Lemma reads_paren e w1 s w2 m rest :
  blank w1 -> blank w2 -> reads 0 e s ->
  (length ((w1 ++ chars "(" ++ s ++ w2 ++ chars ")") ++ rest) <= m)%nat ->
  lv6 F scope (parse F scope m) ((w1 ++ chars "(" ++ s ++ w2 ++ chars ")") ++ rest)
  = pval F (meaning F scope e) rest.
Proof.
  intros B1 B2 R L.
  rewrite <- !app_assoc, lv6_blank by assumption. unfold lv6.
  rewrite (after_sym (chars "(")) by reflexivity.
  rewrite (reads_inner e s m (w2 ++ chars ")" ++ rest));
    [|exact R|lengths|now apply tail_close|now apply close_not_or].
  rewrite pbind_pval. destruct (meaning F scope e) as [v| |]; try reflexivity.
  now rewrite after_blank_sym by (assumption || reflexivity).
Qed.

Theorem spelled_reads k e s : spelled k e s -> reads k e s.
Proof.
  induction 1 as
    [k e s L H IH | o a b sa w sb Ha IHa G Hb IHb | e w s B H IH | e w s B H IH
    | f e w1 w2 s w3 B1 B2 B3 H IH | a b w1 w2 sa w3 sb w4 B1 B2 B3 B4 Ha IHa Hb IHb
    | e w1 s w2 B1 B2 H IH | w B | w B | w ds B NE A R | w ds fs B NE A NF Af | w n B A];
    intros m rest Lm T.
  - (* a level further in *)
    assert (T' : tail (S k) rest) by (apply (tail_mono k); [lia|exact T]).
    specialize (IH m rest Lm T').
    destruct (le_lt_dec k 3) as [Lk|Lk].
    + rewrite level_step, IH by exact Lk. rewrite continue_tail by exact T.
      rewrite pbind_pval. reflexivity.
    + rewrite (continue_tail k) in IH by exact T. rewrite continue_high by lia. rewrite <- IH.
      destruct k as [|[|[|[|[|[|k]]]]]]; try lia; cbn [at_level].
      * eapply lv4_of_5; eassumption.
      * eapply lv5_of_6; eassumption.
  - (* a binary operator *)
    destruct G as [B G].
    assert (Lp : (precedence o <= 3)%nat) by (destruct o; cbn; lia).
    assert (E : (sa ++ w ++ sign o ++ sb) ++ rest = sa ++ (w ++ sign o ++ (sb ++ rest)))
      by (now rewrite <- !app_assoc).
    rewrite E in *.
    rewrite IHa by (exact Lm || now apply tail_sign).
    cbn [meaning]. destruct (meaning F scope a) as [x| |]; try reflexivity. cbn [bind].
    assert (Lb : (length (sb ++ rest) <= m)%nat) by lengths.
    assert (T' : tail (S (precedence o)) rest) by (apply (tail_mono (precedence o)); [lia|exact T]).
    specialize (IHb m rest Lb T'). rewrite continue_tail in IHb by exact T.
    assert (St : forall n, rounds F (S n) (operators F (precedence o)) (at_level (S (precedence o)) m) x
        (w ++ sign o ++ (sb ++ rest))
      = match bind (meaning F scope b) (fun y => apply F o x y) with
        | Returns z => rounds F n (operators F (precedence o)) (at_level (S (precedence o)) m) z rest
        | Throws => PThrow | Undefined => PUndef end).
    { intros n. cbn [rounds]. rewrite round_of_sign by exact B. rewrite IHb, pbind_pval.
      destruct (meaning F scope b) as [y| |]; cbn [bind]; try reflexivity.
      rewrite <- apply_op. now destruct (apply F o x y). }
    transitivity (match bind (meaning F scope b) (fun y => apply F o x y) with
        | Returns z => rounds F m (operators F (precedence o)) (at_level (S (precedence o)) m) z rest
        | Throws => PThrow | Undefined => PUndef end).
    { rewrite <- St. cbn [continue]. destruct (precedence o) as [|[|[|[|p]]]]; try lia; reflexivity. }
    destruct (bind (meaning F scope b) (fun y => apply F o x y)) as [z| |]; try reflexivity.
    cbn [continue].
    assert (Lr : (length rest < m)%nat).
    { assert (0 < length (sign o))%nat by (destruct o; cbn; lia). lengths. }
    rewrite (rounds_fuel m (S m)); [|apply at_level_shrinks|exact Lr|lia].
    destruct (precedence o) as [|[|[|[|p]]]]; try lia; reflexivity.
  - (* - *)
    cbn [at_level]. rewrite <- !app_assoc in *. rewrite lv4_blank by exact B.
    assert (T' : tail 5 rest) by (apply (tail_mono 4); [lia|exact T]).
    assert (L' : (length (s ++ rest) <= m)%nat) by lengths.
    specialize (IH m rest L' T'). rewrite continue_high in * by lia. cbn [at_level] in IH.
    unfold lv4. rewrite (after_sym (chars "-")) by reflexivity.
    rewrite IH, pbind_pval. cbn [meaning].
    destruct (meaning F scope e) as [v| |]; cbn [bind por pval]; try reflexivity.
    rewrite negation_op. apply por_pval.
  - (* not *)
    cbn [at_level]. rewrite <- !app_assoc in *. rewrite lv4_blank by exact B.
    assert (T' : tail 5 rest) by (apply (tail_mono 4); [lia|exact T]).
    assert (L' : (length (s ++ rest) <= m)%nat) by lengths.
    specialize (IH m rest L' T'). rewrite continue_high in * by lia. cbn [at_level] in IH.
    unfold lv4. unfold after at 1. cbn [lit]. 
    change (lit (chars "-") (chars "not" ++ s ++ rest)) with (@None str). cbn [por].
    rewrite (after_sym (chars "not")) by reflexivity.
    rewrite IH, pbind_pval. cbn [meaning].
    destruct (meaning F scope e) as [v| |]; cbn [bind por pval]; try reflexivity.
    rewrite complement_op. apply por_pval.
  - rewrite continue_high by lia. cbn [at_level]. cbn [meaning]. now apply reads_call.
  - rewrite continue_high by lia. cbn [at_level]. now apply reads_pow.
  - rewrite continue_high by lia. cbn [at_level]. now apply reads_paren.
  - rewrite continue_high by lia. cbn [at_level]. rewrite <- !app_assoc, lv6_blank by assumption. reflexivity.
  - rewrite continue_high by lia. cbn [at_level]. rewrite <- !app_assoc, lv6_blank by assumption. reflexivity.
  - rewrite continue_high by lia. cbn [at_level]. rewrite <- !app_assoc, lv6_blank by assumption.
    apply lv6_int; try assumption. apply T.
  - rewrite continue_high by lia. cbn [at_level]. rewrite <- !app_assoc, lv6_blank by assumption.
    apply lv6_dec; try assumption. apply T.
  - rewrite continue_high by lia. cbn [at_level]. rewrite <- !app_assoc, lv6_blank by assumption.
    cbn [meaning]. rewrite parameter_op. apply lv6_ref; try assumption. apply T.
Qed.
End Proofs.
