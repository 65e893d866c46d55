(** * Properties C25 and C53: the preprocessor. *)
From Coq Require Import Ascii String List Bool Arith ZArith Lia.
From Verif Require Import M_Scope M_Preprocessor S_Preprocessor P_Parameter.
Import ListNotations.
Local Open Scope list_scope.

Lemma path_eqb_refl : forall p, path_eqb p p = true.
Proof. intros. unfold path_eqb. rewrite !str_eqb_refl. auto. Qed.
Lemma path_eqb_eq : forall p q, path_eqb p q = true <-> p = q.
Proof.
  intros [a b] [c d]. unfold path_eqb. simpl. rewrite andb_true_iff, !str_eqb_spec.
  split; [intros [-> ->]|intros H; injection H]; auto.
Qed.
Lemma write_other : forall f p d q, p <> q -> write f p d q = f q.
Proof.
  intros. unfold write. destruct (path_eqb p q) eqn:E; auto. apply path_eqb_eq in E. contradiction.
Qed.
Lemma write_same : forall f p d, write f p d p = d.
Proof. intros. unfold write. rewrite path_eqb_refl. auto. Qed.
Lemma raw_differs : forall p, raw p <> p.
Proof.
  intros [d n] H. unfold raw in H. simpl in H. injection H as H.
  apply (f_equal (@List.length ascii)) in H. rewrite app_length in H. simpl in H. lia.
Qed.

Lemma preprocess_result : forall s p rate i f l,
  preprocess s p rate i = (f, l) -> l = None \/ l = Some [(p, rate)].
Proof.
  intros s p rate i f l H. unfold preprocess in H.
  destruct (validate (fs s) p); [|injection H as <- <-; auto].
  destruct (fs s p) as [d|] eqn:E; [|injection H as <- <-; auto].
  destruct (constructs d) eqn:C; [|injection H as <- <-; auto].
  unfold constructs in C. destruct (kind_of d) as [b|l0 r] eqn:K; [discriminate|].
  destruct i; injection H as <- <-; auto.
Qed.

(** What goes in comes out, in order. *)
Lemma conservation : forall rs s s' tr,
  serve_all s rs = (s', tr) -> Forall (fun x => ~ fails x) tr ->
  queue s ++ loaded tr = derived tr ++ queue s'.
Proof.
  induction rs as [|r rs IH]; intros s s' tr H F; simpl in H.
  - injection H as <- <-. simpl. rewrite app_nil_r. auto.
  - destruct (serve s r) as [s1 a] eqn:S. destruct (serve_all s1 rs) as [s2 l] eqn:R.
    injection H as <- <-. inversion F as [|x y F1 F2]; subst.
    pose proof (IH _ _ _ R F2) as E.
    destruct r; simpl in S.
    + destruct (preprocess s p rate i) as [f q] eqn:P.
      destruct (preprocess_result _ _ _ _ _ _ P) as [-> | ->]; injection S as <- <-.
      * destruct F1. reflexivity.
      * simpl in *. rewrite <- app_assoc in E. exact E.
    + destruct (queue s) eqn:Q; injection S as <- <-; simpl.
      * rewrite Q in E. exact E.
      * simpl in E. f_equal. exact E.
    + injection S as <- <-. simpl. exact E.
    + injection S as <- <-. simpl in *. exact E.
Qed.

Lemma serve_all_app : forall rs1 rs2 s,
  serve_all s (rs1 ++ rs2) =
  (let '(s1, l1) := serve_all s rs1 in let '(s2, l2) := serve_all s1 rs2 in (s2, l1 ++ l2)).
Proof.
  induction rs1 as [|r rs1 IH]; intros rs2 s; simpl.
  - destruct (serve_all s rs2); auto.
  - destruct (serve s r). rewrite IH. destruct (serve_all s0 rs1).
    destruct (serve_all s1 rs2). reflexivity.
Qed.

Definition starts_with {A} (l p : list A) : Prop := exists r, l = p ++ r.

(** ** C25 *)
Definition C25_claim : Prop := forall f rs s tr,
  serve_all (start f) rs = (s, tr) -> starts_with (loaded tr) (derived tr) /\
  snd (serve s Check) = Remains (negb (Nat.eqb (length (loaded tr)) (length (derived tr)))) /\
  (length (derived tr) = length (loaded tr) -> serve s Derive = (s, Derived None)) /\
  (forall x rest, loaded tr = derived tr ++ x :: rest -> snd (serve s Derive) = Derived (Some x)).

(** As long as no load fails: scenarios are derived in the order they were loaded, each once; Check tells whether one is left; with none left Derive
    says so and changes nothing; otherwise it gives the oldest one not derived yet. *)
Theorem C25_first_in_first_out : forall f rs s tr,
  serve_all (start f) rs = (s, tr) -> Forall (fun x => ~ fails x) tr ->
  starts_with (loaded tr) (derived tr) /\
  snd (serve s Check) = Remains (negb (Nat.eqb (length (loaded tr)) (length (derived tr)))) /\
  (length (derived tr) = length (loaded tr) -> serve s Derive = (s, Derived None)) /\
  (forall x rest, loaded tr = derived tr ++ x :: rest -> snd (serve s Derive) = Derived (Some x)).
Proof.
  intros f rs s tr H F. pose proof (conservation rs (start f) s tr H F) as E. simpl in E.
  split; [exists (queue s); auto|]. rewrite E. split; [|split].
  - rewrite app_length. simpl. destruct (queue s) as [|x q]; simpl.
    + rewrite Nat.add_0_r, Nat.eqb_refl. auto.
    + destruct (Nat.eqb_spec (length (derived tr) + S (length q)) (length (derived tr))); [lia|auto].
  - rewrite app_length. intros L. simpl. destruct (queue s); auto. simpl in L. lia.
  - intros x rest X. apply app_inv_head in X. simpl. rewrite X. auto.
Qed.

(** In general (any earlier failures), the same from the latest failure on. *)
Theorem C25_after_a_failure : forall f rs1 rs2 s1 tr1 p rate i s2 s tr,
  serve_all (start f) rs1 = (s1, tr1) ->
  serve s1 (Load p rate i) = (s2, Loaded false) ->
  serve_all s2 rs2 = (s, tr) -> Forall (fun x => ~ fails x) tr ->
  starts_with (loaded tr) (derived tr).
Proof.
  intros f rs1 rs2 s1 tr1 p rate i s2 s tr H1 H2 H F. simpl in H2.
  destruct (preprocess s1 p rate i) as [g q] eqn:P.
  destruct q; [discriminate|]. injection H2 as <-.
  pose proof (conservation rs2 _ s tr H F) as E. simpl in E. exists (queue s). auto.
Qed.

(** Any history, failures included: every answer is that of a first-in first-out queue which a failing
    load empties. *)
Lemma serve_queue : forall s r s' a, serve s r = (s', a) -> queue s' = waiting (queue s) [(r, a)].
Proof.
  intros s r s' a H. destruct r; simpl in H.
  - destruct (preprocess s p rate i) as [f q] eqn:P.
    destruct (preprocess_result _ _ _ _ _ _ P) as [-> | ->]; injection H as <- <-; auto.
  - destruct (queue s) eqn:Q; injection H as <- <-; auto.
  - injection H as <- <-; auto.
  - injection H as <- <-; auto.
Qed.
Lemma waiting_cons : forall b x tr, waiting b (x :: tr) = waiting (waiting b [x]) tr.
Proof. intros b [r a] tr. destruct r; simpl; auto. destruct a as [[]| | |]; auto. Qed.
Lemma serve_all_queue : forall rs s s' tr, serve_all s rs = (s', tr) -> queue s' = waiting (queue s) tr.
Proof.
  induction rs as [|r rs IH]; intros s s' tr H; simpl in H; [injection H as <- <-; auto|].
  destruct (serve s r) as [s1 a] eqn:S. destruct (serve_all s1 rs) as [s2 l] eqn:R. injection H as <- <-.
  rewrite waiting_cons, <- (serve_queue _ _ _ _ S). exact (IH _ _ _ R).
Qed.
Theorem C25_answers_of_a_queue : forall f rs s tr, serve_all (start f) rs = (s, tr) ->
  (forall tr1 a tr2, tr = tr1 ++ (Derive, a) :: tr2 -> a = Derived (hd_error (waiting [] tr1))) /\
  (forall tr1 a tr2, tr = tr1 ++ (Check, a) :: tr2 ->
     a = Remains true /\ waiting [] tr1 <> [] \/ a = Remains false /\ waiting [] tr1 = []) /\
  (waiting [] tr = [] -> serve s Derive = (s, Derived None)).
Proof.
  intros f rs s tr H.
  assert (G : forall tr1 r a tr2, tr = tr1 ++ (r, a) :: tr2 -> exists s1, queue s1 = waiting [] tr1 /\ a = snd (serve s1 r)).
  { assert (X : forall tr1 rs s0 s r a tr2, serve_all s0 rs = (s, tr1 ++ (r, a) :: tr2) ->
       exists s1, queue s1 = waiting (queue s0) tr1 /\ a = snd (serve s1 r)).
    { induction tr1 as [|x tr1 IH]; intros rs0 s0 s' r a tr2 E; destruct rs0 as [|r0 rs0]; simpl in E; try discriminate E;
        destruct (serve s0 r0) as [s1 a1] eqn:S; destruct (serve_all s1 rs0) as [s2 l] eqn:R; injection E as E1 E2.
      - intros; subst. exists s0. rewrite S. auto.
      - intros; subst. pose proof (serve_queue _ _ _ _ S) as Q1.
        destruct (IH _ _ _ _ _ _ R) as (s3 & A & B). exists s3. rewrite waiting_cons, <- Q1. auto. }
    intros tr1 r a tr2 ->. apply (X tr1 rs (start f) s r a tr2 H). }
  split; [|split].
  - intros tr1 a tr2 E. destruct (G _ _ _ _ E) as (s1 & Q & ->). rewrite <- Q. simpl. destruct (queue s1); auto.
  - intros tr1 a tr2 E. destruct (G _ _ _ _ E) as (s1 & Q & ->). rewrite <- Q. simpl.
    destruct (queue s1); [right; auto|left; split; [auto|discriminate]].
  - intros E. pose proof (serve_all_queue rs (start f) s tr H) as Q. simpl in Q. rewrite E in Q.
    simpl. rewrite Q. auto.
Qed.

(** A load succeeds exactly if the file exists, is a valid document that can be parsed, not a parameter
    distribution, and can be moved and written. *)
Theorem C25_load_succeeds_iff : forall s p rate i, snd (serve s (Load p rate i)) = Loaded true <->
  exists d, fs s p = Some d /\ valid d = true /\ loadable d = true /\ ~ is_distribution d /\ i = Works.
Proof.
  intros s p rate i. simpl. unfold preprocess, validate, constructs.
  destruct (fs s p) as [d|] eqn:E; [|split; [discriminate|intros (d & X & _); discriminate X]].
  destruct (valid d) eqn:V; [|split; [discriminate|intros (d' & X & X2 & _); injection X as <-; congruence]].
  destruct (kind_of d) as [b|l r] eqn:K.
  - split; [discriminate|]. intros (d' & X & _ & _ & N & _). injection X as <-. destruct N. exists b. exact K.
  - destruct (loadable d) eqn:L; [|split; [discriminate|intros (d' & X & _ & X2 & _); injection X as <-; congruence]].
    destruct i; split; intros X; try discriminate X; auto;
      try (destruct X as (d0 & _ & _ & _ & _ & X); discriminate X).
    exists d. repeat split; auto. intros (b & B). congruence.
Qed.

Definition p1 : path := (list_ascii_of_string "/tmp", list_ascii_of_string "a.xosc").
Definition p2 : path := (list_ascii_of_string "/tmp", list_ascii_of_string "b.xosc").
Definition plain : document := {| valid := true; loadable := true; kind_of := Ordinary [] 0 |}.
Definition disk : filesystem := fun q => if path_eqb p1 q then Some plain else None.
(** Loading a missing file forgets the scenario loaded before it. *)
Theorem C25_failing_load_keeps_scenarios_refuted : exists f rs s tr,
  serve_all (start f) rs = (s, tr) /\
  loaded tr = [(p1, 30%Z)] /\ derived tr = [] /\
  snd (serve s Derive) = Derived None.
Proof.
  exists disk, [Load p1 30 Works; Load p2 30 Works].
  eexists. eexists. split; [reflexivity|]. repeat split.
Qed.
(** Loading a valid parameter distribution of a valid scenario that is there fails, whatever happened
    before, and what was loaded before is forgotten. *)
Theorem C25_distribution_refuted : forall s p rate i base d d',
  fs s p = Some d -> valid d = true -> kind_of d = Distribution base ->
  fs s base = Some d' -> valid d' = true -> loadable d' = true ->
  exists s', serve s (Load p rate i) = (s', Loaded false) /\ snd (serve s' Derive) = Derived None.
Proof.
  intros s p rate i base d d' E V K _ _ _. simpl. unfold preprocess, validate, constructs. rewrite E, V, K.
  eexists. split; reflexivity.
Qed.
Example C25_distribution_example :
  let f := write disk p2 (Some {| valid := true; loadable := true; kind_of := Distribution p1 |}) in
  map snd (snd (serve_all (start f) [Load p1 30 Works; Load p2 30 Works; Derive]))
  = [Loaded true; Loaded false; Derived None].
Proof. vm_compute. reflexivity. Qed.
Theorem C25_first_in_first_out_refuted : ~ C25_claim.
Proof.
  intros C. destruct C25_failing_load_keeps_scenarios_refuted as (f & rs & s & tr & H & L & D & E).
  destruct (C f rs s tr H) as (_ & _ & _ & X). rewrite L, D in X.
  specialize (X (p1, 30%Z) [] eq_refl). rewrite E in X. discriminate.
Qed.
Example C25_example :
  let '(s, tr) := serve_all (start (write disk p2 (Some plain)))
    [Load p1 10 Works; Check; Load p2 20 Works; Derive; Derive; Derive; Check] in
  map snd tr = [Loaded true; Remains true; Loaded true; Derived (Some (p1, 10%Z));
                Derived (Some (p2, 20%Z)); Derived None; Remains false].
Proof. vm_compute. reflexivity. Qed.

(** ** C53. Parameters set at the preprocessor override those declared, and nothing else changes. *)

Lemma value_of_set_same : forall l n v, value_of l n <> None -> value_of (set_declared l n v) n = Some v.
Proof.
  induction l as [|[m w] l IH]; intros n v H; simpl in *; [congruence|].
  destruct (str_eqb m n) eqn:E; simpl; rewrite E; auto.
Qed.
Lemma value_of_set_other : forall l n v k, n <> k -> value_of (set_declared l n v) k = value_of l k.
Proof.
  induction l as [|[m w] l IH]; intros n v k D; simpl; auto.
  destruct (str_eqb m n) eqn:E; simpl.
  - apply str_eqb_spec in E. subst. destruct (str_eqb n k) eqn:F; auto.
    apply str_eqb_spec in F. contradiction.
  - rewrite IH; auto.
Qed.
Lemma value_of_set_none : forall l n v k, value_of (set_declared l n v) k = None <-> value_of l k = None.
Proof.
  induction l as [|[m w] l IH]; intros n v k; simpl; [tauto|].
  destruct (str_eqb m n) eqn:E; simpl; destruct (str_eqb m k) eqn:F; try apply IH; try tauto;
    split; discriminate.
Qed.
Lemma apply_overrides_value : forall os l n,
  NoDup (map fst os) ->
  value_of (apply_overrides os l) n =
  match value_of l n with
  | None => None
  | Some v => Some (match value_of os n with Some w => w | None => v end)
  end.
Proof.
  unfold apply_overrides.
  induction os as [|[m w] os IH]; intros l n D; simpl.
  - destruct (value_of l n); auto.
  - inversion D as [|x y D1 D2]; subst. rewrite IH by auto.
    destruct (str_eqb m n) eqn:E.
    + apply str_eqb_spec in E. subst.
      assert (O : value_of os n = None).
      { clear - D1. induction os as [|[k u] os IH]; simpl in *; auto.
        destruct (str_eqb k n) eqn:E; [|tauto]. apply str_eqb_spec in E. tauto. }
      rewrite O. destruct (value_of l n) as [v|] eqn:V.
      * rewrite value_of_set_same by congruence. auto.
      * rewrite (proj2 (value_of_set_none l n w n) V). auto.
    + rewrite value_of_set_other; auto. apply str_eqb_neq; auto.
Qed.
Lemma apply_overrides_names : forall os l, map fst (apply_overrides os l) = map fst l.
Proof.
  unfold apply_overrides. induction os as [|[m w] os IH]; intros l; simpl; auto. rewrite IH.
  clear IH. induction l as [|[k u] l IH]; simpl; auto. destruct (str_eqb k m); simpl; f_equal; auto.
Qed.
Lemma put_keys : forall l n v k, In k (map fst (put l n v)) <-> In k (map fst l) \/ k = n.
Proof.
  induction l as [|[m w] l IH]; intros n v k; simpl.
  - intuition.
  - destruct (str_eqb m n) eqn:E; simpl.
    + apply str_eqb_spec in E. subst. intuition.
    + rewrite IH. intuition.
Qed.
Lemma put_nodup : forall l n v, NoDup (map fst l) -> NoDup (map fst (put l n v)).
Proof.
  induction l as [|[m w] l IH]; intros n v D; simpl.
  - constructor; auto.
  - inversion D as [|x y D1 D2]; subst. destruct (str_eqb m n) eqn:E; simpl; constructor; auto.
    rewrite put_keys. intros [C|C]; auto. subst. rewrite str_eqb_refl in E. discriminate.
Qed.
Lemma value_of_put : forall l n v k,
  value_of (put l n v) k = if str_eqb n k then Some v else value_of l k.
Proof.
  induction l as [|[m w] l IH]; intros n v k; simpl; auto.
  destruct (str_eqb m n) eqn:E; simpl.
  - apply str_eqb_spec in E. subst. destruct (str_eqb n k); auto.
  - rewrite IH. destruct (str_eqb m k) eqn:F; auto. apply str_eqb_spec in F. subst.
    destruct (str_eqb n k) eqn:G; auto. apply str_eqb_spec in G. subst.
    rewrite str_eqb_refl in E. discriminate.
Qed.
Lemma overrides_last_set : forall rs s s' tr,
  serve_all s rs = (s', tr) -> NoDup (map fst (overrides s)) ->
  NoDup (map fst (overrides s')) /\
  forall n, value_of (overrides s') n =
            match last_set rs n with Some v => Some v | None => value_of (overrides s) n end.
Proof.
  induction rs as [|r rs IH]; intros s s' tr H D; simpl in H.
  - injection H as <- <-. auto.
  - destruct (serve s r) as [s1 a] eqn:S. destruct (serve_all s1 rs) as [s2 l] eqn:R.
    injection H as <- <-.
    destruct r; simpl in S.
    + assert (O : overrides s1 = overrides s).
      { destruct (preprocess s p rate i) as [f [q|]]; injection S as <- <-; auto. }
      rewrite <- O in *. destruct (IH _ _ _ R D) as [A B]. split; auto.
    + assert (O : overrides s1 = overrides s) by (destruct (queue s); injection S as <- <-; auto).
      rewrite <- O in *. destruct (IH _ _ _ R D) as [A B]. split; auto.
    + injection S as <- <-. destruct (IH _ _ _ R D) as [A B]. split; auto.
    + injection S as <- <-. destruct (IH _ _ _ R) as [A B]; [apply put_nodup; auto|]. split; auto.
      intros k. rewrite B. simpl. destruct (last_set rs k); auto. rewrite value_of_put. destruct (str_eqb n k); auto.
Qed.

(** After any history, successfully loading an ordinary scenario leaves at its path the same
    document, except that the declared parameters have the values most recently set (each in the
    first declaration of its name); the original is kept in the directory raw, and no other file
    is touched. *)
Theorem C53_overrides_applied : forall f rs s tr p rate i s' d l r,
  serve_all (start f) rs = (s, tr) ->
  fs s p = Some d -> kind_of d = Ordinary l r ->
  serve s (Load p rate i) = (s', Loaded true) ->
  fs s' (raw p) = Some d /\
  (forall q, q <> p -> q <> raw p -> fs s' q = fs s q) /\
  exists d' l', fs s' p = Some d' /\ kind_of d' = Ordinary l' r /\ map fst l' = map fst l /\
    forall n, value_of l' n =
      match value_of l n, last_set rs n with
      | None, _ => None
      | Some _, Some w => Some w
      | Some v, None => Some v
      end.
Proof.
  intros f rs s tr p rate i s' d l r H P K L.
  destruct (overrides_last_set rs (start f) s tr H) as [D O]; [constructor|].
  simpl in L. unfold preprocess in L. rewrite P in L. unfold validate in L. rewrite P in L.
  destruct (valid d); [|discriminate]. unfold constructs in L. rewrite K in L.
  destruct (loadable d) eqn:Ld; [|discriminate].
  destruct i; try discriminate. injection L as <-. simpl.
  pose proof (raw_differs p) as RD.
  split; [|split].
  - rewrite write_other by auto. apply write_same.
  - intros q A B. rewrite !write_other; auto.
  - eexists. eexists. rewrite write_same. split; [reflexivity|]. split; [reflexivity|].
    split; [apply apply_overrides_names|]. intros n. rewrite apply_overrides_value by auto.
    rewrite O. simpl. destruct (value_of l n); auto. destruct (last_set rs n); auto.
Qed.
Definition with_v (v : string) : document :=
  {| valid := true; loadable := true;
     kind_of := Ordinary [(list_ascii_of_string "v", list_ascii_of_string v)] 7 |}.
Example C53_example :
  let '(s, _) := serve_all (start (fun q => if path_eqb p1 q then Some (with_v "1") else None))
    [SetParameter (list_ascii_of_string "v") (list_ascii_of_string "2");
     SetParameter (list_ascii_of_string "w") (list_ascii_of_string "3"); Load p1 10 Works] in
  fs s p1 = Some (with_v "2") /\ fs s (raw p1) = Some (with_v "1").
Proof. vm_compute. auto. Qed.

(** The file behind a loaded scenario can change before it is derived: loading it again with other
    parameters overwrites it, so both derivations give the second variant. *)
Definition C53_claim : Prop := forall f rs1 s1 tr1 p rate s2 rs2 s3 tr2,
  serve_all (start f) rs1 = (s1, tr1) -> serve s1 (Load p rate Works) = (s2, Loaded true) ->
  serve_all s2 rs2 = (s3, tr2) -> Forall (fun x => ~ fails x) tr2 -> In (p, rate) (queue s3) ->
  fs s3 p = fs s2 p.
Theorem C53_variants_kept_apart_refuted : ~ C53_claim.
Proof.
  intros C.
  specialize (C (fun q => if path_eqb p1 q then Some (with_v "1") else None) []
    _ _ p1 10%Z _
    [SetParameter (list_ascii_of_string "v") (list_ascii_of_string "2"); Load p1 10 Works]
    _ _ eq_refl eq_refl eq_refl).
  assert (E : Some (with_v "2") = Some (with_v "1")).
  { apply C.
    - repeat constructor; intros H; discriminate H.
    - left. reflexivity. }
  discriminate E.
Qed.

Print Assumptions C25_first_in_first_out.
Print Assumptions C25_after_a_failure.
Print Assumptions C25_failing_load_keeps_scenarios_refuted.
Print Assumptions C25_distribution_refuted.
Print Assumptions C25_first_in_first_out_refuted.
Print Assumptions C53_overrides_applied.
Print Assumptions C53_variants_kept_apart_refuted.

Print Assumptions C25_answers_of_a_queue.
Print Assumptions C25_load_succeeds_iff.
