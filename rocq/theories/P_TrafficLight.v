From Coq Require Import Ascii String List Bool Arith ZArith Permutation Lia.
From Verif Require Import M_TrafficLight S_TrafficLight.
Import ListNotations.
Local Open Scope list_scope.

(** ** Bulb identity *)
Definition all_colors := [Green; Yellow; Red; White; UnknownColor].
Definition all_status := [SolidOn; SolidOff; Flashing; UnknownStatus].
Definition all_shapes := [Circle; Cross; Left; Down; Up; Right; LowerLeft; UpperLeft; LowerRight;
                          UpperRight; UnknownShape].
Definition all_bulbs : list bulb :=
  flat_map (fun c => flat_map (fun s => map (fun h =>
    {| b_color := c; b_status := s; b_shape := h |}) all_shapes) all_status) all_colors.
Lemma all_bulbs_complete : forall b, In b all_bulbs.
Proof.
  intros [c s h]. unfold all_bulbs. apply in_flat_map. exists c. split; [destruct c; cbn; tauto|].
  apply in_flat_map. exists s. split; [destruct s; cbn; tauto|].
  apply in_map_iff. exists h. split; [reflexivity | destruct h; cbn; tauto].
Qed.

Definition color_of (n : Z) : color := nth (Z.to_nat n) all_colors UnknownColor.
Definition status_of (n : Z) : status := nth (Z.to_nat n) all_status UnknownStatus.
Definition shape_of (n : Z) : shape :=
  match find (fun h => (shape_code h =? n)%Z) all_shapes with Some h => h | None => Circle end.
Definition decode (n : Z) : bulb :=
  {| b_color := color_of (Z.shiftr n 24);
     b_status := status_of (Z.land (Z.shiftr n 16) 255);
     b_shape := shape_of (Z.land n 65535) |}.
Lemma decode_hash : forall b, decode (hash b) = b.
Proof. intros [c s h]; destruct c, s, h; reflexivity. Qed.
Lemma hash_inj : forall a b, hash a = hash b -> a = b.
Proof. intros a b H. rewrite <- (decode_hash a), <- (decode_hash b), H. reflexivity. Qed.

Lemma contains_iff : forall b l, contains b l = true <-> In b l.
Proof.
  intros b l. unfold contains. rewrite existsb_exists. split.
  - intros (x & I & H). apply andb_prop in H as [H1 H2].
    unfold bulb_lt in *. apply negb_true_iff, Z.ltb_ge in H1, H2.
    assert (b = x) by (apply hash_inj; lia). subst; auto.
  - intros I. exists b. split; auto. unfold bulb_lt. rewrite Z.ltb_irrefl. reflexivity.
Qed.

Lemma bulb_set_tail : forall a l, bulb_set (a :: l) -> bulb_set l.
Proof. intros a l H. inversion H; subst; auto. constructor. Qed.
Lemma bulb_set_head : forall a l, bulb_set (a :: l) -> forall x, In x l -> (hash a < hash x)%Z.
Proof.
  intros a l; revert a; induction l as [|b l IH]; intros a H x I; [destruct I|].
  inversion H; subst. destruct I as [-> | I]; auto.
  specialize (IH _ H4 x I). lia.
Qed.
Lemma bulb_set_cons : forall a l, (forall x, In x l -> (hash a < hash x)%Z) -> bulb_set l -> bulb_set (a :: l).
Proof. intros a [|b l] H B; constructor; auto. apply H; left; auto. Qed.

Lemma emplace_in : forall b l x, In x (emplace b l) <-> x = b \/ In x l.
Proof.
  intros b l x; induction l as [|a l IH]; cbn; [firstorder|].
  unfold bulb_lt. destruct (Z.ltb_spec (hash b) (hash a)); [cbn; firstorder|].
  destruct (Z.ltb_spec (hash a) (hash b)).
  - cbn. rewrite IH. tauto.
  - assert (a = b) by (apply hash_inj; lia). subst. cbn. firstorder.
Qed.
Lemma emplace_set : forall b l, bulb_set l -> bulb_set (emplace b l).
Proof.
  intros b l; induction l as [|a l IH]; intros B; cbn; [constructor|].
  unfold bulb_lt. destruct (Z.ltb_spec (hash b) (hash a)).
  - constructor; auto.
  - destruct (Z.ltb_spec (hash a) (hash b)); auto.
    apply bulb_set_cons; [|apply IH; eapply bulb_set_tail; eauto].
    intros x I. apply emplace_in in I as [-> | I]; auto. eapply bulb_set_head; eauto.
Qed.
Lemma bulb_set_ext : forall l m, bulb_set l -> bulb_set m -> (forall b, In b l <-> In b m) -> l = m.
Proof.
  induction l as [|a l IH]; intros m L M E.
  - destruct m as [|b m]; auto. exfalso. apply (E b). left; auto.
  - destruct m as [|b m]. { exfalso. apply (E a). left; auto. }
    assert (a = b).
    { destruct (proj1 (E a) (or_introl eq_refl)) as [H|H]; auto.
      destruct (proj2 (E b) (or_introl eq_refl)) as [H'|H']; auto.
      pose proof (bulb_set_head _ _ L _ H'). pose proof (bulb_set_head _ _ M _ H). lia. }
    subst b. f_equal. apply IH; eauto using bulb_set_tail.
    intros x. pose proof (E x) as [E1 E2]. cbn in E1, E2. split; intros I.
    + destruct (E1 (or_intror I)); auto. subst. pose proof (bulb_set_head _ _ L _ I). lia.
    + destruct (E2 (or_intror I)); auto. subst. pose proof (bulb_set_head _ _ M _ I). lia.
Qed.

(** ** The regular expression *)
Lemma strip_prefix_iff : forall p s r, strip_prefix p s = Some r <-> s = p ++ r.
Proof.
  induction p as [|x p IH]; intros s r; cbn.
  - split; congruence.
  - destruct s as [|y s]; [split; congruence|].
    destruct (ascii_dec x y) as [-> | N].
    + rewrite IH. split; intros H; [subst|injection H]; auto.
    + split; congruence.
Qed.
Lemma strip_prefix_none : forall p s, strip_prefix p s = None <-> ~ prefix p s.
Proof.
  intros p s. split.
  - intros H [r ->]. assert (strip_prefix p (p ++ r) = Some r) by (apply strip_prefix_iff; auto).
    congruence.
  - intros H. destruct (strip_prefix p s) eqn:E; auto. apply strip_prefix_iff in E. exfalso.
    apply H. exists s0; auto.
Qed.

Definition prefixb (p s : str) : bool := match strip_prefix p s with Some _ => true | None => false end.
Definition prefix_freeb (l : list str) : bool :=
  forallb (fun a => forallb (fun b => str_eqb a b || negb (prefixb a b)) l) l.
Definition prefix_free (l : list str) : Prop :=
  forall a b s, In a l -> In b l -> prefix a s -> prefix b s -> a = b.
Lemma str_eqb_eq : forall a b, str_eqb a b = true <-> a = b.
Proof. intros a b. unfold str_eqb. destruct (list_eq_dec ascii_dec a b); split; congruence. Qed.
Lemma prefix_cmp : forall (a b s : str), prefix a s -> prefix b s -> prefix a b \/ prefix b a.
Proof.
  induction a as [|x a IH]; intros b s A B; [left; exists b; auto|].
  destruct b as [|y b]; [right; exists (x :: a); auto|].
  destruct A as [ra A], B as [rb B]. subst s. cbn in B. injection B as -> E.
  destruct (IH b (a ++ ra)) as [[r ->]|[r ->]]; try (eexists; eauto).
  - left; exists r; auto.
  - right; exists r; auto.
Qed.
Lemma prefix_freeb_ok : forall l, prefix_freeb l = true -> prefix_free l.
Proof.
  intros l H a b s A B Pa Pb. unfold prefix_freeb in H. rewrite forallb_forall in H.
  assert (K : forall a b, In a l -> In b l -> prefix a b -> a = b).
  { intros a' b' A' B' [r E]. pose proof (H _ A') as H'. rewrite forallb_forall in H'.
    specialize (H' _ B'). apply orb_prop in H' as [H'|H'].
    - apply str_eqb_eq; auto.
    - unfold prefixb in H'. assert (X : strip_prefix a' b' = Some r) by (apply strip_prefix_iff; auto).
      rewrite X in H'. discriminate. }
  destruct (prefix_cmp _ _ _ Pa Pb); [|symmetry]; auto.
Qed.
Lemma prefix_free_perm : forall l m, Permutation l m -> prefix_free m -> prefix_free l.
Proof.
  intros l m P F a b s A B. apply F; [apply (Permutation_in _ P A)|apply (Permutation_in _ P B)].
Qed.
Lemma color_pf : prefix_free (map fst color_table).
Proof. apply prefix_freeb_ok. vm_compute. reflexivity. Qed.
Lemma status_pf : prefix_free (map fst status_table).
Proof. apply prefix_freeb_ok. vm_compute. reflexivity. Qed.
Fixpoint nodupb (l : list str) : bool :=
  match l with [] => true | a :: l' => negb (existsb (str_eqb a) l') && nodupb l' end.
Lemma nodupb_ok : forall l, nodupb l = true -> NoDup l.
Proof.
  induction l as [|a l IH]; cbn; intros H; constructor; apply andb_prop in H as [H1 H2]; auto.
  intros I. apply negb_true_iff in H1.
  assert (existsb (str_eqb a) l = true) by (apply existsb_exists; exists a; split; auto; apply str_eqb_eq; auto).
  congruence.
Qed.
Lemma color_nd : NoDup (map fst color_table).
Proof. apply nodupb_ok. vm_compute. reflexivity. Qed.
Lemma status_nd : NoDup (map fst status_table).
Proof. apply nodupb_ok. vm_compute. reflexivity. Qed.
Lemma shape_nd : NoDup (map fst shape_table).
Proof. apply nodupb_ok. vm_compute. reflexivity. Qed.

Definition sdec : forall x y : str, {x = y} + {x <> y} := list_eq_dec ascii_dec.

Lemma alternatives_one : forall names s n r,
  NoDup names -> prefix_free names -> In n names -> s = n ++ r -> alternatives names s = [(n, r)].
Proof.
  intros names s n r ND PF I E. unfold alternatives.
  assert (G : forall l, incl l names -> NoDup l ->
    flat_map (fun m => match strip_prefix m s with Some r => [(m, r)] | None => [] end) l =
    if in_dec sdec n l then [(n, r)] else []).
  { induction l as [|a l IH]; intros Inc N; [reflexivity|]. inversion N; subst.
    cbn [flat_map]. rewrite IH; auto. 2: intros x X; apply Inc; right; auto.
    destruct (strip_prefix a (n ++ r)) as [ra|] eqn:S.
    - apply strip_prefix_iff in S.
      assert (a = n).
      { apply (PF a n (n ++ r)); auto. apply Inc; left; auto. exists ra; auto. exists r; auto. }
      subst a. apply app_inv_head in S. subst ra.
      destruct (in_dec sdec n l); [contradiction|].
      destruct (in_dec sdec n (n :: l)) as [_|X]; [reflexivity|]. exfalso; apply X; left; auto.
    - assert (a <> n).
      { intros ->. assert (strip_prefix n (n ++ r) = Some r) by (apply strip_prefix_iff; auto). congruence. }
      rewrite app_nil_l. destruct (in_dec sdec n l), (in_dec sdec n (a :: l)) as [X|X]; auto; exfalso.
      + apply X; right; auto.
      + destruct X; auto. }
  rewrite G; auto. 2: apply incl_refl.
  destruct (in_dec sdec n names); [reflexivity|contradiction].
Qed.
Lemma alternatives_none : forall names s,
  (forall n, In n names -> ~ prefix n s) -> alternatives names s = [].
Proof.
  induction names as [|a l IH]; intros s H; auto. cbn.
  rewrite (proj2 (strip_prefix_none a s)) by (apply H; left; auto).
  apply IH. intros n I; apply H; right; auto.
Qed.
Lemma alternatives_cases : forall names s, NoDup names -> prefix_free names ->
  (exists n r, In n names /\ s = n ++ r /\ alternatives names s = [(n, r)]) \/
  (alternatives names s = [] /\ forall n, In n names -> ~ prefix n s).
Proof.
  intros names s ND PF.
  destruct (existsb (fun n => prefixb n s) names) eqn:E.
  - apply existsb_exists in E as (n & I & P). unfold prefixb in P.
    destruct (strip_prefix n s) as [r|] eqn:S; [|discriminate]. apply strip_prefix_iff in S.
    left. exists n, r. split; auto. split; auto. apply alternatives_one; auto.
  - right.
    assert (F : forall n, In n names -> ~ prefix n s).
    { intros n I P. assert (existsb (fun n => prefixb n s) names = true); [|congruence].
      apply existsb_exists. exists n. split; auto. unfold prefixb.
      destruct (strip_prefix n s) eqn:S; auto. apply strip_prefix_none in S. contradiction. }
    split; auto. apply alternatives_none; auto.
Qed.

(** Captures of the last group. *)
Definition ended (p : str * str) : list str := match snd p with [] => [fst p] | _ => [] end.
Definition last_group (ho : list str) (r4 : str) : list str := flat_map ended (opt_group ho r4).
Definition strip1 (r n : str) : list (str * str) :=
  match strip_prefix n r with Some r0 => [(n, r0)] | None => [] end.
Lemma last_group_in : forall ho r, NoDup ho -> ~ In [] ho ->
  last_group ho r = if in_dec sdec r ho then [r] else match r with [] => [[]] | _ => [] end.
Proof.
  intros ho r ND NE. unfold last_group, opt_group. rewrite flat_map_app.
  change (alternatives ho r) with (flat_map (strip1 r) ho).
  assert (G : forall l, NoDup l -> flat_map ended (flat_map (strip1 r) l) =
    if in_dec sdec r l then [r] else []).
  { induction l as [|a l IH]; intros N; auto. inversion N; subst. cbn [flat_map].
    rewrite flat_map_app, IH by auto. unfold strip1 at 1.
    destruct (strip_prefix a r) as [ra|] eqn:S.
    - apply strip_prefix_iff in S.
      destruct ra as [|c ra].
      + rewrite app_nil_r in S. subst a.
        destruct (in_dec sdec r l); [contradiction|].
        destruct (in_dec sdec r (r :: l)) as [X|X]; [reflexivity|exfalso; apply X; left; auto].
      + assert (a <> r).
        { intros ->. rewrite <- (app_nil_r r) in S at 1. apply app_inv_head in S. discriminate. }
        change (flat_map ended [(a, c :: ra)]) with (@nil str). rewrite app_nil_l.
        destruct (in_dec sdec r l), (in_dec sdec r (a :: l)) as [X|X]; auto; exfalso.
        * apply X; right; auto.
        * destruct X; auto.
    - assert (a <> r).
      { intros ->. assert (strip_prefix r r = Some []) by (apply strip_prefix_iff; rewrite app_nil_r; auto). congruence. }
      change (flat_map ended []) with (@nil str). rewrite app_nil_l.
      destruct (in_dec sdec r l), (in_dec sdec r (a :: l)) as [X|X]; auto; exfalso.
      + apply X; right; auto.
      + destruct X; auto. }
  rewrite G by auto.
  destruct (in_dec sdec r ho) as [X|X]; destruct r; cbn; auto. contradiction.
Qed.

(** From the second run of blanks on. *)
Definition shape_part (ho : list str) (r3 : str) : list str := flat_map (last_group ho) (spaces r3).
Definition no_blank_start (s : str) : Prop := forall c s', s = c :: s' -> is_space c = false.
Lemma skip_spaces_spec : forall s, exists w, s = w ++ skip_spaces s /\ blank w /\ no_blank_start (skip_spaces s).
Proof.
  unfold skip_spaces. induction s as [|c s IH]; cbn.
  - exists []. repeat split; auto; [constructor|]. intros ? ?; discriminate.
  - destruct (is_space c) eqn:E.
    + destruct (span is_space s) as [a r]. cbn in *. destruct IH as (w & H1 & H2 & H3).
      exists (c :: w). cbn. repeat split; auto; [congruence|constructor; auto].
    + exists []. repeat split; auto; [constructor|]. cbn. intros ? ? H. injection H as <- _; auto.
Qed.
Lemma skip_spaces_app : forall w s, blank w -> no_blank_start s -> skip_spaces (w ++ s) = s.
Proof.
  induction w as [|c w IH]; intros s B N; cbn.
  - unfold skip_spaces. destruct s as [|c s]; auto. cbn. rewrite (N _ _ eq_refl). auto.
  - inversion B; subst. unfold skip_spaces. cbn. rewrite H1.
    specialize (IH s H2 N). unfold skip_spaces in IH. destruct (span is_space (w ++ s)); auto.
Qed.
Lemma spaces_app : forall w s, blank w -> no_blank_start s ->
  exists l, spaces (w ++ s) = s :: l /\ forall x, In x l -> exists c x', x = c :: x' /\ is_space c = true.
Proof.
  induction w as [|c w IH]; intros s B N; cbn.
  - destruct s as [|c s]; cbn. { exists []; split; auto. intros x []. }
    rewrite (N _ _ eq_refl). exists []; split; auto. intros x [].
  - inversion B; subst. rewrite H1. destruct (IH s H2 N) as (l & E & F). rewrite E.
    exists (l ++ [c :: w ++ s]). split; auto.
    intros x I. apply in_app_or in I as [I | [<- | []]]; auto. exists c, (w ++ s); auto.
Qed.

Definition good_names (l : list str) : Prop :=
  forall n, In n l -> exists c n', n = c :: n' /\ is_space c = false.
Lemma good_noempty : forall l, good_names l -> ~ In [] l.
Proof. intros l G I. destruct (G _ I) as (? & ? & ? & _). discriminate. Qed.
Definition goodb (l : list str) : bool :=
  forallb (fun n => match n with c :: _ => negb (is_space c) | [] => false end) l.
Lemma goodb_ok : forall l, goodb l = true -> good_names l.
Proof.
  intros l H n I. unfold goodb in H. rewrite forallb_forall in H. specialize (H _ I).
  destruct n as [|c n]; [discriminate|]. apply negb_true_iff in H. eauto.
Qed.
Lemma color_good : good_names (map fst color_table).
Proof. apply goodb_ok; vm_compute; reflexivity. Qed.
Lemma status_good : good_names (map fst status_table).
Proof. apply goodb_ok; vm_compute; reflexivity. Qed.
Lemma shape_good : good_names (map fst shape_table).
Proof. apply goodb_ok; vm_compute; reflexivity. Qed.

Lemma last_group_blank : forall ho c s, NoDup ho -> good_names ho -> is_space c = true ->
  last_group ho (c :: s) = [].
Proof.
  intros ho c s ND G E. rewrite last_group_in; auto using good_noempty.
  destruct (in_dec sdec (c :: s) ho) as [I|_]; auto.
  destruct (G _ I) as (c' & n' & H & F). injection H as <- _. congruence.
Qed.
Lemma shape_part_eq : forall ho r, NoDup ho -> good_names ho ->
  shape_part ho r = last_group ho (skip_spaces r).
Proof.
  intros ho r ND G. destruct (skip_spaces_spec r) as (w & E & B & N).
  unfold shape_part. rewrite E at 1.
  destruct (spaces_app w _ B N) as (l & S & F). rewrite S. cbn [flat_map].
  replace (flat_map (last_group ho) l) with (@nil str); [apply app_nil_r|].
  symmetry. clear S. induction l as [|x l IH]; auto. cbn [flat_map].
  destruct (F x (or_introl eq_refl)) as (c & x' & -> & C).
  rewrite last_group_blank by auto. apply IH. intros y I; apply F; right; auto.
Qed.

(** The reading chosen by the search, without search. *)
Definition shape_read (r : str) : option str :=
  if in_dec sdec (skip_spaces r) (map fst shape_table) then Some (skip_spaces r)
  else match skip_spaces r with [] => Some [] | _ => None end.
Definition find_name (names : list str) (s : str) : option (str * str) := hd_error (alternatives names s).
Definition status_read (r : str) : option (str * str) :=
  match find_name (map fst status_table) r with
  | Some (n, r') => option_map (pair n) (shape_read r')
  | None => option_map (pair []) (shape_read r)
  end.
Definition bulb_read (s : str) : option (str * str * str) :=
  match find_name (map fst color_table) s with
  | Some (n, r) => option_map (fun p => (n, fst p, snd p)) (status_read (skip_spaces r))
  | None => option_map (fun p => ([], fst p, snd p)) (status_read (skip_spaces s))
  end.

Lemma in_perm_names : forall (l m : list str), Permutation l m -> forall n, In n l <-> In n m.
Proof. intros l m P n; split; intros I; [apply (Permutation_in _ P)|apply (Permutation_in _ (Permutation_sym P))]; auto. Qed.
Lemma good_perm : forall l m, Permutation l m -> good_names m -> good_names l.
Proof. intros l m P G n I. apply G. eapply Permutation_in; eauto. Qed.

Lemma find_name_perm : forall l m s, Permutation l m -> NoDup m -> prefix_free m ->
  alternatives l s = alternatives m s.
Proof.
  intros l m s P ND PF.
  destruct (alternatives_cases m s ND PF) as [(n & r & I & E & A)|(A & F)].
  - rewrite A. apply alternatives_one; auto.
    + eapply Permutation_NoDup; [apply Permutation_sym|]; eauto.
    + eapply prefix_free_perm; eauto.
    + apply (in_perm_names _ _ P); auto.
  - rewrite A. apply alternatives_none. intros n I. apply F, (in_perm_names _ _ P); auto.
Qed.

Lemma hd_app : forall A (a b : list A), hd_error (a ++ b) = match hd_error a with Some x => Some x | None => hd_error b end.
Proof. intros A [|x a] b; reflexivity. Qed.
Lemma hd_flat_one : forall A B (f : A -> list B) x, hd_error (flat_map f [x]) = hd_error (f x).
Proof. intros. cbn. rewrite app_nil_r. reflexivity. Qed.
Lemma hd_flat_map_map : forall A B (f : A -> B) (l : list A), hd_error (map f l) = option_map f (hd_error l).
Proof. intros A B f [|x l]; reflexivity. Qed.

Lemma last_group_hd : forall ho r, Permutation ho (map fst shape_table) ->
  hd_error (last_group ho r) =
  if in_dec sdec r (map fst shape_table) then Some r else match r with [] => Some [] | _ => None end.
Proof.
  intros ho r P. rewrite last_group_in.
  - destruct (in_dec sdec r ho) as [I|I], (in_dec sdec r (map fst shape_table)) as [J|J]; try reflexivity.
    + exfalso; apply J, (in_perm_names _ _ P); auto.
    + exfalso; apply I, (in_perm_names _ _ P); auto.
    + destruct r; reflexivity.
  - eapply Permutation_NoDup; [apply Permutation_sym; eauto|apply shape_nd].
  - apply good_noempty. eapply good_perm; eauto. apply shape_good.
Qed.
Lemma shape_part_hd : forall ho r, Permutation ho (map fst shape_table) ->
  hd_error (shape_part ho r) = shape_read r.
Proof.
  intros ho r P. rewrite shape_part_eq, last_group_hd; auto.
  - eapply Permutation_NoDup; [apply Permutation_sym; eauto|apply shape_nd].
  - eapply good_perm; eauto. apply shape_good.
Qed.

Definition status_part (so ho : list str) (r2 : str) : list (str * str) :=
  flat_map (fun p => map (pair (fst p)) (shape_part ho (snd p))) (opt_group so r2).
Lemma status_unknown_only : forall n, In n (map fst status_table) ->
  forall h, In h (map fst shape_table) -> prefix n h -> h = n.
Proof.
  intros n I h J P.
  assert (K : forallb (fun n => forallb (fun h => negb (prefixb n h) || str_eqb h n) (map fst shape_table))
    (map fst status_table) = true) by (vm_compute; reflexivity).
  rewrite forallb_forall in K. specialize (K _ I). rewrite forallb_forall in K. specialize (K _ J).
  apply orb_prop in K as [K|K]; [|apply str_eqb_eq; auto].
  apply negb_true_iff in K. unfold prefixb in K.
  destruct (strip_prefix n h) eqn:S; [discriminate|]. apply strip_prefix_none in S. contradiction.
Qed.
Lemma good_skip : forall n r, (exists c n', n = c :: n' /\ is_space c = false) -> skip_spaces (n ++ r) = n ++ r.
Proof. intros n r (c & n' & -> & E). unfold skip_spaces. cbn. rewrite E. reflexivity. Qed.
Lemma skip_blank_nil : forall r, skip_spaces r = [] -> shape_read r = Some [].
Proof.
  intros r E. unfold shape_read. rewrite E.
  destruct (in_dec sdec [] (map fst shape_table)); reflexivity.
Qed.

Lemma shape_read_status : forall n r', In n (map fst status_table) ->
  shape_read r' = None -> shape_read (n ++ r') = None.
Proof.
  intros n r' I S. destruct (shape_read (n ++ r')) as [h|] eqn:S'; auto. exfalso.
  pose proof (status_good _ I) as G. unfold shape_read in S'. rewrite (good_skip _ _ G) in S'.
  destruct (in_dec sdec (n ++ r') (map fst shape_table)) as [J|J].
  - pose proof (status_unknown_only n I _ J (ex_intro _ r' eq_refl)) as K.
    assert (r' = []). { apply (app_inv_head n). rewrite app_nil_r; auto. }
    subst r'. rewrite (skip_blank_nil [] eq_refl) in S. discriminate.
  - destruct G as (c & n' & -> & _). discriminate.
Qed.
Lemma status_part_hd : forall so ho r,
  Permutation so (map fst status_table) -> Permutation ho (map fst shape_table) ->
  hd_error (status_part so ho r) = status_read r.
Proof.
  intros so ho r P Q. unfold status_part, opt_group. rewrite flat_map_app, hd_app.
  rewrite (find_name_perm _ _ _ P status_nd status_pf).
  unfold status_read, find_name.
  destruct (alternatives_cases _ r status_nd status_pf) as [(n & r' & I & E & A)|(A & F)]; rewrite A.
  - rewrite hd_flat_one, hd_flat_map_map, shape_part_hd; auto. cbn [fst snd hd_error].
    destruct (shape_read r') eqn:S; cbn [option_map]; auto.
    rewrite hd_flat_one, hd_flat_map_map, shape_part_hd; auto. cbn [fst snd].
    rewrite E, shape_read_status; auto.
  - rewrite hd_flat_one, hd_flat_map_map, shape_part_hd; auto.
Qed.
Lemma status_read_none : forall r, status_read r = None -> shape_read r = None.
Proof.
  intros r H. unfold status_read, find_name in H.
  destruct (alternatives_cases _ r status_nd status_pf) as [(n & r' & I & E & A)|(A & F)]; rewrite A in H.
  - cbn in H. destruct (shape_read r') eqn:S; [discriminate|]. rewrite E. apply shape_read_status; auto.
  - cbn in H. destruct (shape_read r); [discriminate|auto].
Qed.
Lemma skip_idem : forall c s, is_space c = true -> skip_spaces (c :: s) = skip_spaces s.
Proof. intros c s E. unfold skip_spaces. cbn. rewrite E. destruct (span is_space s); auto. Qed.
Lemma status_read_blank : forall c s, is_space c = true ->
  status_read (c :: s) = option_map (pair []) (shape_read s).
Proof.
  intros c s E. unfold status_read, find_name. rewrite alternatives_none.
  - cbn. unfold shape_read. rewrite skip_idem; auto.
  - intros n I [r H]. destruct (status_good _ I) as (c' & n' & -> & F). injection H as -> _. congruence.
Qed.
Lemma shape_read_skip : forall r, shape_read (skip_spaces r) = shape_read r.
Proof.
  intros r. destruct (skip_spaces_spec r) as (w & _ & _ & N). unfold shape_read.
  replace (skip_spaces (skip_spaces r)) with (skip_spaces r); auto.
  symmetry. apply (skip_spaces_app [] _ (Forall_nil _) N).
Qed.

Definition rest_part (so ho : list str) (r1 : str) : list (str * str) :=
  flat_map (status_part so ho) (spaces r1).
Lemma rest_part_hd : forall so ho r,
  Permutation so (map fst status_table) -> Permutation ho (map fst shape_table) ->
  hd_error (rest_part so ho r) = status_read (skip_spaces r).
Proof.
  intros so ho r P Q. unfold rest_part. induction r as [|c r IH].
  - cbn [spaces]. rewrite hd_flat_one, status_part_hd; auto.
  - cbn [spaces]. destruct (is_space c) eqn:E.
    + rewrite flat_map_app, hd_app, IH, skip_idem; auto.
      destruct (status_read (skip_spaces r)) eqn:S; auto.
      rewrite hd_flat_one, status_part_hd, status_read_blank; auto.
      apply status_read_none in S. rewrite shape_read_skip in S. rewrite S. reflexivity.
    + rewrite hd_flat_one, status_part_hd; auto. unfold skip_spaces. cbn. rewrite E. reflexivity.
Qed.

Lemma color_unknown : forall n, In n (map fst color_table) ->
  (forall m, In m (map fst status_table) -> prefix n m \/ prefix m n -> m = n) /\ (forall h, In h (map fst shape_table) -> prefix n h -> h = n).
Proof.
  intros n I.
  assert (K : forallb (fun n =>
     forallb (fun m => (negb (prefixb n m) && negb (prefixb m n)) || str_eqb m n) (map fst status_table) &&
     forallb (fun h => negb (prefixb n h) || str_eqb h n) (map fst shape_table))
    (map fst color_table) = true) by (vm_compute; reflexivity).
  rewrite forallb_forall in K. specialize (K _ I). apply andb_prop in K as [K1 K2].
  rewrite forallb_forall in K1, K2.
  assert (N : forall a b, negb (prefixb a b) = true -> ~ prefix a b).
  { intros a b H. apply strip_prefix_none. unfold prefixb in H. destruct (strip_prefix a b); auto; discriminate. }
  split.
  - intros m J O. specialize (K1 _ J). apply orb_prop in K1 as [K1|K1]; [|apply str_eqb_eq; auto].
    apply andb_prop in K1 as [A B]. apply N in A, B. tauto.
  - intros h J O. specialize (K2 _ J). apply orb_prop in K2 as [K2|K2]; [|apply str_eqb_eq; auto].
    apply N in K2. tauto.
Qed.
(** Skipping a color name that is there never helps. *)
Lemma skip_color : forall n r, In n (map fst color_table) ->
  status_read (skip_spaces r) = None -> status_read (n ++ r) = None.
Proof.
  intros n r I S. destruct (color_unknown n I) as [CS CH].
  pose proof (status_read_none _ S) as S0. rewrite shape_read_skip in S0.
  pose proof (color_good _ I) as G.
  assert (SH : shape_read (n ++ r) = None).
  { unfold shape_read. rewrite (good_skip _ _ G).
    destruct (in_dec sdec (n ++ r) (map fst shape_table)) as [J|J].
    - pose proof (CH _ J (ex_intro _ r eq_refl)) as K.
      assert (r = []). { apply (app_inv_head n). rewrite app_nil_r; auto. }
      subst r. rewrite (skip_blank_nil [] eq_refl) in S0. discriminate.
    - destruct G as (c & n' & -> & _). reflexivity. }
  unfold status_read, find_name.
  destruct (alternatives_cases _ (n ++ r) status_nd status_pf) as [(m & r' & J & E & A)|(A & F)]; rewrite A; cbn.
  - assert (m = n).
    { apply CS; auto. destruct (prefix_cmp n m (n ++ r)); auto; [exists r|exists r']; auto. }
    subst m. apply app_inv_head in E. subst r'. rewrite S0. reflexivity.
  - rewrite SH. reflexivity.
Qed.

Definition triple (p : str * (str * str)) : str * str * str := (fst p, fst (snd p), snd (snd p)).
Lemma bulb_matches_eq : forall co so ho s, bulb_matches co so ho s =
  flat_map (fun p => map (fun q => triple (fst p, q)) (rest_part so ho (snd p))) (opt_group co s).
Proof.
  intros. unfold bulb_matches.
  apply flat_map_ext. intros [c r1]. cbn [fst snd]. unfold rest_part.
  assert (M : forall A B C (f : B -> C) (g : A -> list B) l, map f (flat_map g l) = flat_map (fun x => map f (g x)) l).
  { induction l as [|x l IH]; cbn; auto. rewrite map_app, IH. auto. }
  rewrite M. apply flat_map_ext. intros r2. unfold status_part. rewrite M.
  apply flat_map_ext. intros [st r3]. cbn [fst snd]. unfold shape_part. rewrite !M.
  apply flat_map_ext. intros r4. unfold last_group. rewrite !M.
  apply flat_map_ext. intros [h [|x r5]]; reflexivity.
Qed.
Lemma bulb_matches_hd : forall co so ho s, some_order co so ho ->
  hd_error (bulb_matches co so ho s) = bulb_read s.
Proof.
  intros co so ho s (P & Q & R). rewrite bulb_matches_eq. unfold opt_group.
  rewrite flat_map_app, hd_app, (find_name_perm _ _ _ P color_nd color_pf).
  unfold bulb_read, find_name.
  destruct (alternatives_cases _ s color_nd color_pf) as [(n & r & I & E & A)|(A & F)]; rewrite A.
  - rewrite hd_flat_one, hd_flat_map_map, rest_part_hd; auto. cbn [fst snd hd_error].
    destruct (status_read (skip_spaces r)) eqn:S; cbn [option_map]; auto.
    rewrite hd_flat_one, hd_flat_map_map, rest_part_hd; auto. cbn [fst snd].
    rewrite E, (good_skip _ _ (color_good _ I)), skip_color; auto.
  - rewrite hd_flat_one, hd_flat_map_map, rest_part_hd; auto.
Qed.

Lemma at_in : forall A (t : list (str * A)) n v, NoDup (map fst t) -> In (n, v) t -> at_ t n = Some v.
Proof.
  induction t as [|[m w] t IH]; intros n v ND I; [destruct I|]. inversion ND; subst. cbn.
  destruct I as [I|I].
  - injection I as <- <-. rewrite (proj2 (str_eqb_eq m m) eq_refl). auto.
  - destruct (str_eqb m n) eqn:E; auto. apply str_eqb_eq in E. subst m.
    exfalso. apply H1. apply in_map_iff. exists (n, v); auto.
Qed.
Lemma at_some : forall A (t : list (str * A)) n v, at_ t n = Some v -> In (n, v) t.
Proof.
  induction t as [|[m w] t IH]; intros n v H; cbn in H; [discriminate|].
  destruct (str_eqb m n) eqn:E; [|right; auto]. apply str_eqb_eq in E. injection H as <-. subst; left; auto.
Qed.
Lemma or_default_part : forall A (t : list (str * A)) d n v, NoDup (map fst t) -> ~ In [] (map fst t) ->
  (or_default t d n = Some v <-> part t d n v).
Proof.
  intros A t d n v ND NE. unfold or_default, part. split.
  - destruct n as [|c n]; intros H; [injection H; auto|right; apply at_some; auto].
  - intros [[-> ->]|I]; auto. pose proof (at_in _ _ _ _ ND I) as E. destruct n; auto.
    exfalso; apply NE. apply in_map_iff. exists ([], v); auto.
Qed.
Lemma name_in : forall A (t : list (str * A)) n v, In (n, v) t -> In n (map fst t).
Proof. intros A t n v I. apply in_map_iff. exists (n, v); auto. Qed.

Lemma shape_read_some : forall r hn, shape_read r = Some hn ->
  (hn = [] \/ In hn (map fst shape_table)) /\ exists w, blank w /\ r = w ++ hn.
Proof.
  intros r hn H. destruct (skip_spaces_spec r) as (w & E & B & _). unfold shape_read in H.
  destruct (in_dec sdec (skip_spaces r) (map fst shape_table)).
  - injection H as <-. split; auto. exists w; auto.
  - destruct (skip_spaces r) eqn:S; [|discriminate]. injection H as <-. split; auto. exists w; auto.
Qed.
Lemma shape_start : forall hn, hn = [] \/ In hn (map fst shape_table) -> no_blank_start hn.
Proof.
  intros hn [-> | I] c s E; [discriminate|]. destruct (shape_good _ I) as (c' & n' & -> & F).
  injection E as -> _. auto.
Qed.
Lemma shape_read_app : forall w hn, blank w -> hn = [] \/ In hn (map fst shape_table) ->
  shape_read (w ++ hn) = Some hn.
Proof.
  intros w hn B H. unfold shape_read. rewrite skip_spaces_app; auto using shape_start.
  destruct (in_dec sdec hn (map fst shape_table)); auto. destruct H as [-> | ?]; [auto|contradiction].
Qed.

Lemma bulb_make_eq : forall co so ho s, some_order co so ho ->
  bulb_make co so ho s =
  match bulb_read s with
  | Some (c, st, h) =>
      match or_default color_table Green c, or_default status_table SolidOn st,
            or_default shape_table Circle h with
      | Some c, Some st, Some h => Some {| b_color := c; b_status := st; b_shape := h |}
      | _, _, _ => None
      end
  | None => None
  end.
Proof.
  intros co so ho s O. unfold bulb_make. rewrite <- (bulb_matches_hd co so ho s O).
  destruct (bulb_matches co so ho s) as [|[[c st] h] l]; reflexivity.
Qed.

Lemma part_name : forall A (t : list (str * A)) d n v, part t d n v -> n = [] \/ In n (map fst t).
Proof. intros A t d n v [[-> _]|I]; auto. right; eapply name_in; eauto. Qed.

Lemma status_read_eq : forall sn w2 hn,
  (sn = [] \/ In sn (map fst status_table)) -> (hn = [] \/ In hn (map fst shape_table)) -> blank w2 ->
  (sn = [] -> w2 = [] /\ forall n, In n (map fst status_table) -> ~ prefix n hn) ->
  status_read (sn ++ w2 ++ hn) = Some (sn, hn) /\ no_blank_start (sn ++ w2 ++ hn).
Proof.
  intros sn w2 hn S H B N. unfold status_read, find_name.
  destruct S as [-> | S].
  - destruct (N eq_refl) as [-> F]. cbn [app]. rewrite alternatives_none by auto. cbn.
    pose proof (shape_read_app [] hn (Forall_nil _) H) as X. rewrite app_nil_l in X. rewrite X.
    split; auto using shape_start.
  - rewrite (alternatives_one _ _ sn (w2 ++ hn) status_nd status_pf S eq_refl). cbn.
    rewrite shape_read_app by auto. split; auto.
    destruct (status_good _ S) as (c & n' & -> & E). intros c' s' E'. injection E' as <- _. auto.
Qed.
Lemma status_read_inv : forall r sn hn, status_read r = Some (sn, hn) -> no_blank_start r ->
  exists w2, r = sn ++ w2 ++ hn /\ blank w2 /\ (sn = [] \/ In sn (map fst status_table)) /\
    (hn = [] \/ In hn (map fst shape_table)) /\
    (sn = [] -> w2 = [] /\ forall n, In n (map fst status_table) -> ~ prefix n hn).
Proof.
  intros r sn hn H NB. unfold status_read, find_name in H.
  destruct (alternatives_cases _ r status_nd status_pf) as [(n & r' & I & E & A)|(A & F)]; rewrite A in H; cbn in H.
  - destruct (shape_read r') as [h|] eqn:S; [|discriminate]. injection H as <- <-.
    apply shape_read_some in S as [S (w & B & ->)]. exists w.
    split; [auto|]. split; [auto|]. split; [auto|]. split; [auto|].
    intros ->. destruct (status_good _ I) as (? & ? & ? & _). discriminate.
  - destruct (shape_read r) as [h|] eqn:S; [|discriminate]. injection H as <- <-.
    apply shape_read_some in S as [S (w & B & ->)]. exists [].
    assert (w = []).
    { destruct w as [|c w]; auto. inversion B; subst. rewrite (NB c _ eq_refl) in H1. discriminate. }
    subst w. cbn in *. split; [auto|]. split; [constructor|]. auto.
Qed.

Theorem bulb_make_iff : forall co so ho s b, some_order co so ho ->
  (bulb_make co so ho s = Some b <-> reads s b).
Proof.
  intros co so ho s b O. rewrite bulb_make_eq by auto.
  assert (PC : forall n v, or_default color_table Green n = Some v <-> part color_table Green n v)
    by (intros; apply or_default_part; [apply color_nd|apply good_noempty, color_good]).
  assert (PS : forall n v, or_default status_table SolidOn n = Some v <-> part status_table SolidOn n v)
    by (intros; apply or_default_part; [apply status_nd|apply good_noempty, status_good]).
  assert (PH : forall n v, or_default shape_table Circle n = Some v <-> part shape_table Circle n v)
    by (intros; apply or_default_part; [apply shape_nd|apply good_noempty, shape_good]).
  split.
  - intros H. destruct (bulb_read s) as [[[cn sn] hn]|] eqn:R; [|discriminate].
    destruct (or_default color_table Green cn) as [c|] eqn:C; [|discriminate].
    destruct (or_default status_table SolidOn sn) as [st|] eqn:S; [|discriminate].
    destruct (or_default shape_table Circle hn) as [h|] eqn:D; [|discriminate].
    injection H as <-. apply PC in C. apply PS in S. apply PH in D.
    unfold bulb_read, find_name in R.
    destruct (alternatives_cases _ s color_nd color_pf) as [(n & r & I & E & A)|(A & F)]; rewrite A in R; cbn [hd_error] in R.
    + destruct (status_read (skip_spaces r)) as [[sn' hn']|] eqn:T; [|discriminate].
      cbn in R. injection R as -> -> ->.
      destruct (skip_spaces_spec r) as (w1 & Er & B & NB).
      destruct (status_read_inv _ _ _ T NB) as (w2 & E2 & B2 & _ & _ & N2).
      exists cn, w1, sn, w2, hn. rewrite <- E2, <- Er. cbn [b_color b_status b_shape].
      split; [auto|]. split; [auto|]. split; [auto|]. split; [auto|]. split; [auto|]. split; [auto|].
      split; [|auto]. intros ->. destruct (color_good _ I) as (? & ? & ? & _). discriminate.
    + destruct (status_read (skip_spaces s)) as [[sn' hn']|] eqn:T; [|discriminate].
      cbn in R. injection R as <- -> ->.
      destruct (skip_spaces_spec s) as (w1 & Er & B & NB).
      destruct (status_read_inv _ _ _ T NB) as (w2 & E2 & B2 & _ & _ & N2).
      exists [], w1, sn, w2, hn. rewrite <- E2. rewrite app_nil_l. rewrite <- Er. cbn [b_color b_status b_shape].
      split; [auto|]. split; [auto|]. split; [auto|]. split; [auto|]. split; [auto|]. split; [auto|].
      split; auto.
  - intros (cn & w1 & sn & w2 & hn & E & B1 & B2 & C & S & D & NC & NS).
    assert (R : bulb_read s = Some (cn, sn, hn)).
    { destruct (status_read_eq sn w2 hn (part_name _ _ _ _ _ S) (part_name _ _ _ _ _ D) B2 NS) as [T NB].
      unfold bulb_read, find_name. destruct (part_name _ _ _ _ _ C) as [-> | I].
      - rewrite alternatives_none by auto. cbn [hd_error]. cbn in E. subst s.
        rewrite skip_spaces_app, T by auto. reflexivity.
      - rewrite (alternatives_one _ _ cn _ color_nd color_pf I E). cbn [hd_error].
        rewrite skip_spaces_app, T by auto. reflexivity. }
    rewrite R, (proj2 (PC _ _) C), (proj2 (PS _ _) S), (proj2 (PH _ _) D). destruct b; reflexivity.
Qed.

Lemma print_color_in : forall c, In (print_color c, c) color_table.
Proof. destruct c; cbn; tauto. Qed.
Lemma print_status_in : forall c, In (print_status c, c) status_table.
Proof. destruct c; cbn; tauto. Qed.
Lemma print_shape_in : forall c, In (print_shape c, c) shape_table.
Proof. destruct c; cbn; tauto. Qed.
Lemma print_reads : forall b, reads (print_bulb b) b.
Proof.
  intros [c s h]. exists (print_color c), (text " "), (print_status s), (text " "), (print_shape h).
  cbn [b_color b_status b_shape]. split; [reflexivity|].
  split; [repeat constructor|]. split; [repeat constructor|].
  split; [right; apply print_color_in|]. split; [right; apply print_status_in|].
  split; [right; apply print_shape_in|].
  split; [destruct c; discriminate|destruct s; discriminate].
Qed.

(** ** Whole lights *)
Lemma span_app : forall f h r, Forall (fun c => f c = true) h -> (forall c r', r = c :: r' -> f c = false) ->
  span f (h ++ r) = (h, r).
Proof.
  intros f h r; induction h as [|c h IH]; intros F N; cbn.
  - destruct r as [|c r]; auto. cbn. rewrite (N _ _ eq_refl). auto.
  - inversion F; subst. rewrite H1, IH; auto.
Qed.
Lemma span_spec : forall f s a r, span f s = (a, r) ->
  s = a ++ r /\ Forall (fun c => f c = true) a /\ (forall c r', r = c :: r' -> f c = false).
Proof.
  intros f s; induction s as [|c s IH]; intros a r H; cbn in H.
  - injection H as <- <-. repeat split; auto. discriminate.
  - destruct (f c) eqn:E.
    + destruct (span f s) as [a' r'] eqn:S. injection H as <- <-.
      destruct (IH _ _ eq_refl) as (-> & F & N). repeat split; auto.
    + injection H as <- <-. repeat split; auto. intros c' r' X. injection X as <- _. auto.
Qed.
Lemma split_shorter : forall s h t, split s = Some (h, t) -> (length t < length s)%nat.
Proof.
  intros s h t H. unfold split in H. destruct (span _ s) as [a r] eqn:S.
  apply span_spec in S as (-> & _ & _). destruct a as [|c [|d a]]; try discriminate.
  destruct (is_word c); [|discriminate].
  set (tail := match r with "," :: r => skip_spaces r | _ => r end%char) in H.
  assert (T : (length tail <= length r)%nat).
  { subst tail. destruct r as [|x r]; auto.
    destruct (skip_spaces_spec r) as (w & E & _ & _).
    assert (length (skip_spaces r) <= length r)%nat by (rewrite E at 2; rewrite app_length; lia).
    destruct x as [[] [] [] [] [] [] [] []]; cbn; lia. }
  destruct (existsb is_newline tail); [discriminate|]. injection H as <- <-.
  rewrite app_length. cbn. lia.
Qed.
Lemma light_set_fuel : forall co so ho fuel s l, (length s <= fuel)%nat -> light_set co so ho fuel l s <> NoFuel.
Proof.
  intros co so ho; induction fuel as [|fuel IH]; intros s l L; destruct s as [|c s]; cbn [light_set]; try discriminate.
  - cbn in L; lia.
  - destruct (split (c :: s)) as [[h t]|] eqn:S; [|discriminate].
    destruct (bulb_make co so ho h); [|discriminate]. apply IH.
    apply split_shorter in S. cbn in *. lia.
Qed.
Lemma light_set_enough : forall co so ho fuel s l, (length s <= fuel)%nat ->
  light_set co so ho fuel l s = set_state co so ho l s.
Proof.
  intros co so ho. unfold set_state.
  assert (G : forall n fuel s l, (length s <= n)%nat -> (length s <= fuel)%nat ->
    light_set co so ho fuel l s = light_set co so ho (length s) l s).
  { induction n as [|n IH]; intros fuel s l L F.
    - destruct s; [|cbn in L; lia]. destruct fuel; reflexivity.
    - destruct s as [|c s]; [destruct fuel; reflexivity|]. destruct fuel as [|fuel]; [cbn in F; lia|].
      cbn [length light_set]. destruct (split (c :: s)) as [[h t]|] eqn:S; auto.
      destruct (bulb_make co so ho h); auto. apply split_shorter in S. cbn in *.
      rewrite (IH fuel t), (IH (length s) t); auto; lia. }
  intros fuel s l L. apply (G (length s)); auto.
Qed.
Lemma set_state_cons : forall co so ho l s, s <> [] -> set_state co so ho l s =
  match split s with
  | None => Set_error l
  | Some (h, t) => match bulb_make co so ho h with
                   | None => Set_error l
                   | Some b => set_state co so ho (emplace b l) t
                   end
  end.
Proof.
  intros co so ho l s N. destruct s as [|c s]; [congruence|]. unfold set_state at 1. cbn [length light_set].
  destruct (split (c :: s)) as [[h t]|] eqn:S; auto. destruct (bulb_make co so ho h); auto.
  apply light_set_enough. apply split_shorter in S. cbn in S. lia.
Qed.
