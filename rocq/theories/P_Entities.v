(** Proofs about declarations, selections and triggering entities. *)
From Coq Require Import ZArith QArith List Bool Arith Lia.
From Verif Require Import M_Condition M_Entities S_Entities.
Import ListNotations.
Local Close Scope Q_scope.

Lemma Forall2_impl {A B} (P Q : A -> B -> Prop) l k :
  (forall a b, P a b -> Q a b) -> Forall2 P l k -> Forall2 Q l k.
Proof. intros H F. induction F; constructor; auto. Qed.

(** ** Induction on objects *)
Section ObjectInd.
  Variable P : object -> Prop.
  Hypothesis HO : forall n ty, P (Obj n ty).
  Hypothesis HS : forall n os tys, Forall P os -> P (Sel n os tys).
  Fixpoint object_ind' (o : object) : P o :=
    match o with
    | Obj n ty => HO n ty
    | Sel n os tys =>
        HS n os tys ((fix go l : Forall P l :=
                        match l with
                        | [] => Forall_nil P
                        | x :: l' => Forall_cons x (object_ind' x) (go l')
                        end) os)
    end.
End ObjectInd.

(** ** Tables *)

Lemma find_app t u n : find (t ++ u) n = match find t n with Some o => Some o | None => find u n end.
Proof.
  induction t as [|[m o] t IH]; cbn [find app]; [reflexivity|].
  destruct (m =? n); auto.
Qed.

Lemma find_emplace t m o n :
  find (emplace t m o) n =
  match find t n with Some o' => Some o' | None => if m =? n then Some o else None end.
Proof.
  unfold emplace. destruct (find t m) as [o'|] eqn:E.
  - destruct (find t n) eqn:En; [reflexivity|]. destruct (Nat.eqb_spec m n); [congruence|reflexivity].
  - rewrite find_app. cbn [find]. reflexivity.
Qed.

Lemma find_In t n o : find t n = Some o -> In (n, o) t.
Proof.
  induction t as [|[m o'] t IH]; cbn [find]; [discriminate|].
  destruct (Nat.eqb_spec m n) as [->|]; intros H; [inversion H; now left|right; auto].
Qed.

Lemma In_find t n o : NoDup (map fst t) -> In (n, o) t -> find t n = Some o.
Proof.
  induction t as [|[m o'] t IH]; cbn [find map fst]; intros D H; [contradiction|].
  inversion D as [|? ? D1 D2]; subst. destruct H as [H|H].
  - inversion H; subst. now rewrite Nat.eqb_refl.
  - destruct (Nat.eqb_spec m n) as [->|]; [|auto].
    exfalso. apply D1. change n with (fst (n, o)). now apply in_map.
Qed.

Lemma find_none_notin t n : find t n = None -> ~ In n (map fst t).
Proof.
  induction t as [|[m o'] t IH]; cbn [find map fst]; [intros _ []|].
  destruct (Nat.eqb_spec m n) as [->|]; [discriminate|]. intros H [H'|H']; [contradiction|].
  now apply IH.
Qed.

Lemma emplace_nodup t m o : NoDup (map fst t) -> NoDup (map fst (emplace t m o)).
Proof.
  intros D. unfold emplace. destruct (find t m) eqn:E; [exact D|].
  rewrite map_app. cbn [map fst].
  apply find_none_notin in E. revert E D. generalize (map fst t) as l. clear.
  induction l as [|x l IH]; cbn [app]; intros N D; [constructor; [intros []|constructor]|].
  inversion D; subst. constructor.
  - rewrite in_app_iff. intros [H|[H|[]]]; [contradiction|subst; apply N; now left].
  - apply IH; [|assumption]. intros H; apply N; now right.
Qed.

(** ** Building *)

Lemma build_objects_spec ds : forall t,
  NoDup (map fst t) ->
  NoDup (map fst (build_objects t ds)) /\
  forall n, find (build_objects t ds) n =
    match find t n with Some o => Some o | None => option_map (Obj n) (first_object ds n) end.
Proof.
  induction ds as [|[m ty|m rs tys] ds IH]; intros t D; cbn [build_objects first_object option_map].
  - split; [exact D|]. intros n. now destruct (find t n).
  - destruct (IH (emplace t m (Obj m ty)) (emplace_nodup _ _ _ D)) as [D' F]. split; [exact D'|].
    intros n. rewrite F, find_emplace. destruct (find t n); [reflexivity|].
    destruct (Nat.eqb_spec m n) as [->|]; reflexivity.
  - apply IH, D.
Qed.

Lemma refs_ok t l os : refs t l = Ok os <-> Forall2 (fun r o => find t r = Some o) l os.
Proof.
  revert os. induction l as [|r l IH]; intros os; cbn [refs].
  - split; intros H; inversion H; [constructor|reflexivity].
  - unfold ref, bind. destruct (find t r) as [o|] eqn:E.
    + destruct (refs t l) as [os'|] eqn:E'.
      * split; intros H.
        -- inversion H; subst. constructor; [exact E|]. now apply IH.
        -- inversion H; subst. assert (y = o) by congruence. subst.
           match goal with K : Forall2 _ _ _ |- _ => apply IH in K end. congruence.
      * split; intros H; [discriminate|]. inversion H; subst.
        match goal with K : Forall2 _ _ _ |- _ => apply IH in K end. discriminate.
    + split; intros H; [discriminate|]. inversion H; subst. congruence.
Qed.

Lemma refs_throw t l : refs t l = Throw <-> exists r, In r l /\ find t r = None.
Proof.
  induction l as [|r l IH]; cbn [refs].
  - split; [discriminate|]. intros (r & [] & _).
  - unfold ref, bind. destruct (find t r) as [o|] eqn:E.
    + destruct (refs t l) as [os|].
      * split; [discriminate|]. intros (r' & [->|H] & N); [congruence|].
        assert (@Ok (list object) os = Throw) by (apply IH; eauto). discriminate.
      * split; [|reflexivity]. intros _. destruct (proj1 IH eq_refl) as (r' & H & N).
        exists r'. split; [now right|exact N].
    + split; [|reflexivity]. intros _. exists r. split; [now left|exact E].
Qed.

(** The entries of a table that has taken up the selections of [pre]. *)
Definition denotes (ds pre : list decl) (t : table) (n : name) (o : object) : Prop :=
  match first_object ds n with
  | Some ty => o = Obj n ty
  | None =>
      match first_selection pre n with
      | Some (rs, tys) =>
          exists os, o = Sel n os tys /\ Forall2 (fun r o => find t r = Some o) rs os
      | None => False
      end
  end.
Definition inv (ds pre : list decl) (t : table) : Prop :=
  NoDup (map fst t) /\
  forall n, (forall o, find t n = Some o -> denotes ds pre t n o) /\
            (find t n = None -> first_object ds n = None /\ first_selection pre n = None).

Lemma first_object_app a b n :
  first_object (a ++ b) n =
  match first_object a n with Some ty => Some ty | None => first_object b n end.
Proof.
  induction a as [|[m ty|m rs tys] a IH]; cbn [first_object app]; auto. destruct (m =? n); auto.
Qed.
Lemma first_selection_app a b n :
  first_selection (a ++ b) n =
  match first_selection a n with Some x => Some x | None => first_selection b n end.
Proof.
  induction a as [|[m ty|m rs tys] a IH]; cbn [first_selection app]; auto. destruct (m =? n); auto.
Qed.

Lemma first_object_In ds n : (exists ty, first_object ds n = Some ty) <-> exists ty, In (DObject n ty) ds.
Proof.
  induction ds as [|[m ty|m rs tys] ds IH]; cbn [first_object In].
  - split; intros [ty H]; [discriminate|contradiction].
  - destruct (Nat.eqb_spec m n) as [->|N].
    + split; intros _; [exists ty; now left|eauto].
    + rewrite IH. split; intros [ty' H]; [exists ty'; now right|].
      destruct H as [H|H]; [inversion H; congruence|eauto].
  - rewrite IH. split; intros [ty H]; [exists ty; now right|].
    destruct H as [H|H]; [discriminate|eauto].
Qed.
Lemma first_selection_In ds n :
  (exists x, first_selection ds n = Some x) <-> exists rs tys, In (DSelection n rs tys) ds.
Proof.
  induction ds as [|[m ty|m rs tys] ds IH]; cbn [first_selection In].
  - split; [intros [x H]; discriminate|intros (? & ? & [])].
  - rewrite IH. split; intros (rs & tys & H); exists rs, tys; [now right|].
    destruct H as [H|H]; [discriminate|exact H].
  - destruct (Nat.eqb_spec m n) as [->|N].
    + split; intros _; [exists rs, tys; now left|eauto].
    + rewrite IH. split; intros (rs' & tys' & H); exists rs', tys'; [now right|].
      destruct H as [H|H]; [inversion H; congruence|exact H].
Qed.

Lemma inv_find ds pre t n :
  inv ds pre t ->
  ((exists o, find t n = Some o) <->
   (exists ty, In (DObject n ty) ds) \/ (exists rs tys, In (DSelection n rs tys) pre)).
Proof.
  intros [_ I]. destruct (I n) as [A B]. rewrite <- first_object_In, <- first_selection_In. split.
  - intros [o E]. specialize (A o E). unfold denotes in A.
    destruct (first_object ds n) as [ty|]; [left; eauto|].
    destruct (first_selection pre n) as [x|]; [right; eauto|contradiction].
  - intros H. destruct (find t n) as [o|] eqn:E; [eauto|]. destruct (B eq_refl) as [B1 B2].
    destruct H as [[? H]|[? H]]; congruence.
Qed.

Lemma find_emplace_mono t m o n o' : find t n = Some o' -> find (emplace t m o) n = Some o'.
Proof. intros H. rewrite find_emplace, H. reflexivity. Qed.

Lemma inv_step ds pre t n rs tys os :
  inv ds pre t -> Forall2 (fun r o => find t r = Some o) rs os ->
  inv ds (pre ++ [DSelection n rs tys]) (emplace t n (Sel n os tys)).
Proof.
  intros [D I] F. split; [now apply emplace_nodup|]. intros m. destruct (I m) as [A B].
  rewrite find_emplace, first_selection_app. cbn [first_selection]. split.
  - intros o. unfold denotes. rewrite first_selection_app. cbn [first_selection].
    destruct (find t m) as [o'|] eqn:E.
    + intros H. inversion H; subst. specialize (A o eq_refl). unfold denotes in A.
      destruct (first_object ds m); [exact A|].
      destruct (first_selection pre m) as [[rs' tys']|]; [|contradiction].
      destruct A as (os' & -> & F'). exists os'. split; [reflexivity|].
      eapply Forall2_impl; [|exact F']. cbn. intros a b Hab. now apply find_emplace_mono.
    + destruct (B eq_refl) as [B1 B2]. rewrite B1, B2.
      destruct (Nat.eqb_spec n m) as [->|]; [|discriminate]. intros H. inversion H; subst.
      exists os. split; [reflexivity|]. eapply Forall2_impl; [|exact F]. cbn. intros a b Hab.
      now apply find_emplace_mono.
  - destruct (find t m) eqn:E; [discriminate|]. destruct (B eq_refl) as [B1 B2]. rewrite B1, B2.
    destruct (n =? m); [discriminate|auto].
Qed.

Lemma inv_object ds pre t n ty : inv ds pre t -> inv ds (pre ++ [DObject n ty]) t.
Proof.
  intros [D I]. split; [exact D|]. intros m. destruct (I m) as [A B]. split.
  - intros o H. specialize (A o H). unfold denotes in *. rewrite first_selection_app.
    cbn [first_selection]. destruct (first_object ds m); [exact A|].
    destruct (first_selection pre m); [exact A|contradiction].
  - intros H. rewrite first_selection_app. cbn [first_selection]. destruct (B H) as [-> ->]. auto.
Qed.

Lemma choice_ok_spec rs tys :
  choice_ok rs tys = true <-> (rs <> [] /\ tys = [] \/ rs = [] /\ tys <> []).
Proof.
  destruct rs, tys; cbn; split; intros H; try discriminate; try reflexivity.
  - destruct H as [[H _]|[_ H]]; congruence.
  - right. split; [reflexivity|discriminate].
  - left. split; [discriminate|reflexivity].
  - destruct H as [[_ H]|[H _]]; discriminate.
Qed.

(** What each remaining selection needs. *)
Definition needs (ds pre todo : list decl) : Prop :=
  forall a n rs tys b,
    todo = a ++ DSelection n rs tys :: b ->
    (rs <> [] /\ tys = [] \/ rs = [] /\ tys <> []) /\
    forall r, In r rs ->
      (exists ty, In (DObject r ty) ds) \/ (exists rs' tys', In (DSelection r rs' tys') (pre ++ a)).

Lemma build_selections_spec ds : forall todo pre t,
  inv ds pre t ->
  (forall t', build_selections t todo = Ok t' -> inv ds (pre ++ todo) t') /\
  ((exists t', build_selections t todo = Ok t') <-> needs ds pre todo).
Proof.
  induction todo as [|d todo IH]; intros pre t I; cbn [build_selections].
  - split.
    + intros t' H. inversion H; subst. now rewrite app_nil_r.
    + split; [|eauto]. intros _ a n rs tys b H. destruct a; discriminate.
  - destruct d as [n ty|n rs tys].
    + destruct (IH (pre ++ [DObject n ty]) t (inv_object _ _ _ n ty I)) as [A B].
      rewrite <- app_assoc in A. split; [exact A|]. rewrite B. split; intros H a m rs tys b E.
      * destruct a as [|d a]; [discriminate|]. inversion E; subst.
        destruct (H a m rs tys b eq_refl) as [H1 H2]. split; [exact H1|]. intros r Hr.
        destruct (H2 r Hr) as [X|(rs' & tys' & X)]; [now left|right].
        exists rs', tys'. now rewrite <- app_assoc in X.
      * destruct (H (DObject n ty :: a) m rs tys b) as [H1 H2]; [cbn; now rewrite E|].
        split; [exact H1|]. intros r Hr.
        destruct (H2 r Hr) as [X|(rs' & tys' & X)]; [now left|right].
        exists rs', tys'. now rewrite <- app_assoc.
    + destruct (refs t rs) as [os|] eqn:R; cbn [bind].
      * destruct (choice_ok rs tys) eqn:C.
        -- assert (F := proj1 (refs_ok _ _ _) R).
           destruct (IH (pre ++ [DSelection n rs tys]) _ (inv_step _ _ _ n rs tys os I F)) as [A B].
           rewrite <- app_assoc in A. split; [exact A|]. rewrite B.
           split; intros H a m rs' tys' b E.
           ++ destruct a as [|d a].
              ** inversion E; subst. split; [now apply choice_ok_spec|]. intros r Hr.
                 rewrite app_nil_r. apply (inv_find ds pre t r I).
                 clear -F Hr. induction F; [contradiction|]. destruct Hr as [->|Hr]; eauto.
              ** inversion E; subst. destruct (H a m rs' tys' b eq_refl) as [H1 H2].
                 split; [exact H1|]. intros r Hr.
                 destruct (H2 r Hr) as [X|(x & y & X)]; [now left|right].
                 exists x, y. now rewrite <- app_assoc in X.
           ++ destruct (H (DSelection n rs tys :: a) m rs' tys' b) as [H1 H2]; [cbn; now rewrite E|].
              split; [exact H1|]. intros r Hr.
              destruct (H2 r Hr) as [X|(x & y & X)]; [now left|right].
              exists x, y. now rewrite <- app_assoc.
        -- split; [discriminate|]. split; [intros [? ?]; discriminate|]. intros H.
           destruct (H [] n rs tys todo eq_refl) as [H1 _]. apply choice_ok_spec in H1. congruence.
      * split; [discriminate|]. split; [intros [? ?]; discriminate|]. intros H.
        destruct (H [] n rs tys todo eq_refl) as [_ H2].
        destruct (proj1 (refs_throw t rs) R) as (r & Hr & N). specialize (H2 r Hr).
        rewrite app_nil_r in H2. apply (inv_find ds pre t r I) in H2. destruct H2; congruence.
Qed.

Lemma inv_initial ds : inv ds [] (build_objects [] ds).
Proof.
  destruct (build_objects_spec ds [] (NoDup_nil _)) as [D F]. split; [exact D|]. intros n.
  specialize (F n). cbn [find] in F. rewrite F. unfold denotes. cbn [first_selection].
  destruct (first_object ds n) as [ty|]; cbn [option_map]; split; try discriminate; auto.
  intros o H. now inversion H.
Qed.

Lemma build_inv ds t : build ds = Ok t -> inv ds ds t.
Proof. intros H. exact (proj1 (build_selections_spec ds ds [] _ (inv_initial ds)) t H). Qed.

Lemma build_ok ds : (exists t, build ds = Ok t) <-> well_declared ds.
Proof. exact (proj2 (build_selections_spec ds ds [] _ (inv_initial ds))). Qed.

(** ** Objects of an entity *)

Lemma type_eqb_eq a b : type_eqb a b = true <-> a = b.
Proof. destruct a, b; cbn; split; congruence. Qed.

Lemma of_types_In p t x :
  In x (of_types p t) <-> exists n ty, In (x, Obj n ty) t /\ p ty = true.
Proof.
  induction t as [|[m [n ty|n os tys]] t IH]; cbn [of_types].
  - split; [contradiction|]. intros (? & ? & [] & _).
  - destruct (p ty) eqn:E; cbn [In].
    + split.
      * intros [->|H]; [exists n, ty; auto|]. apply IH in H. destruct H as (n' & ty' & H & P).
        exists n', ty'; auto.
      * intros (n' & ty' & [H|H] & P); [inversion H; now left|]. right. apply IH. eauto.
    + rewrite IH. split.
      * intros (n' & ty' & H & P). exists n', ty'; auto.
      * intros (n' & ty' & [H|H] & P); [inversion H; congruence|eauto].
  - rewrite IH. cbn [In]. split.
    + intros (n' & ty' & H & P). exists n', ty'; auto.
    + intros (n' & ty' & [H|H] & P); [discriminate|eauto].
Qed.

Lemma of_types_spec ds t p x :
  inv ds ds t ->
  (In x (of_types p t) <-> exists ty, first_object ds x = Some ty /\ p ty = true).
Proof.
  intros [D I]. rewrite of_types_In. destruct (I x) as [A B]. split.
  - intros (n & ty & H & P). apply (In_find _ _ _ D) in H. specialize (A _ H). unfold denotes in A.
    destruct (first_object ds x) as [ty'|] eqn:E.
    + inversion A; subst. eauto.
    + destruct (first_selection ds x) as [[rs tys]|]; [|contradiction].
      destruct A as (os & A & _). discriminate.
  - intros (ty & E & P). destruct (find t x) as [o|] eqn:F.
    + specialize (A _ eq_refl). unfold denotes in A. rewrite E in A. subst. exists x, ty.
      split; [now apply find_In|exact P].
    + destruct (B eq_refl). congruence.
Qed.

Lemma objects_member ds t : build ds = Ok t ->
  forall o n, find t n = Some o -> forall m, In m (objects t o) <-> member ds n m.
Proof.
  intros Hb. assert (I := build_inv _ _ Hb). assert (I' := I). destruct I' as [D I0].
  induction o as [n0 ty|n0 os tys IH] using object_ind'; intros n Hf m;
    destruct (I0 n) as [A _]; specialize (A _ Hf); unfold denotes in A.
  - destruct (first_object ds n) as [ty'|] eqn:E.
    + inversion A; subst. cbn [objects In]. split.
      * intros [->|[]]. now apply (member_self ds m ty').
      * intros H. inversion H; subst; [now left|congruence|congruence].
    + destruct (first_selection ds n) as [[rs tys]|]; [|contradiction].
      destruct A as (os & A & _). discriminate.
  - destruct (first_object ds n) as [ty'|] eqn:E; [discriminate|].
    destruct (first_selection ds n) as [[rs tys']|] eqn:S; [|contradiction].
    destruct A as (os' & A & F). inversion A; subst os' tys' n0. clear A.
    destruct os as [|o os].
    + inversion F; subst. cbn [objects]. rewrite (of_types_spec ds t _ m I). split.
      * intros (ty & E1 & P). apply existsb_exists in P. destruct P as (ty' & P1 & P2).
        apply type_eqb_eq in P2. subst. eapply member_type; eauto.
      * intros H. inversion H as [|? rs' tys' r ? X1 X2 X3|? tys' ? ty' X1 X2 X3 X4]; subst.
        -- congruence.
        -- rewrite S in X2. inversion X2; subst. contradiction.
        -- rewrite S in X2. inversion X2; subst. exists ty'. split; [exact X3|].
           apply existsb_exists. exists ty'. split; [exact X4|]. now apply type_eqb_eq.
    + change (objects t (Sel n (o :: os) tys)) with (flat_map (objects t) (o :: os)).
      rewrite in_flat_map. split.
      * intros (o' & Ho & Hm).
        assert (exists r, In r rs /\ find t r = Some o') as (r & Hr & Fr).
        { clear -F Ho. induction F as [|r x l k Hr Hl IHl]; [contradiction|].
          destruct Ho as [->|Ho]; [exists r; split; [now left|exact Hr]|].
          destruct (IHl Ho) as (r' & ? & ?). exists r'. split; [now right|assumption]. }
        rewrite Forall_forall in IH. apply (IH o' Ho r Fr) in Hm. eapply member_ref; eauto.
      * intros H. inversion H as [|? rs' tys' r ? X1 X2 X3 X4|? tys' ? ty' X1 X2 X3 X4]; subst.
        -- congruence.
        -- rewrite S in X2. inversion X2; subst.
           assert (exists o', In o' (o :: os) /\ find t r = Some o') as (o' & Ho & Fo).
           { clear -F X3. induction F as [|r' x l k Hr Hl IHl]; [contradiction|].
             destruct X3 as [->|X3]; [exists x; split; [now left|exact Hr]|].
             destruct (IHl X3) as (o' & ? & ?). exists o'. split; [now right|assumption]. }
           exists o'. split; [exact Ho|]. rewrite Forall_forall in IH. now apply (IH o' Ho r Fo).
        -- rewrite S in X2. inversion X2; subst. inversion F.
Qed.

Lemma triggering_ok t ns es :
  triggering t ns = Ok es -> ns <> [] /\ Forall2 (fun r o => find t r = Some o) ns es.
Proof.
  unfold triggering. destruct ns as [|n ns]; [discriminate|]. intros H. split; [discriminate|].
  now apply refs_ok.
Qed.

(** ** Quantifiers *)

Lemma traverse_ok {A} (f : name -> res A) l vs :
  traverse f l = Ok vs <-> Forall2 (fun n v => f n = Ok v) l vs.
Proof.
  revert vs. induction l as [|n l IH]; intros vs; cbn [traverse].
  - split; intros H; inversion H; [constructor|reflexivity].
  - unfold bind at 1. destruct (f n) as [a|] eqn:E.
    + destruct (traverse f l) as [r|] eqn:E'; cbn [bind].
      * split; intros H.
        -- inversion H; subst. constructor; [exact E|]. now apply IH.
        -- inversion H; subst. assert (y = a) by congruence. subst.
           match goal with K : Forall2 _ _ _ |- _ => apply IH in K end. congruence.
      * split; intros H; [discriminate|]. inversion H; subst.
        match goal with K : Forall2 _ _ _ |- _ => apply IH in K end. discriminate.
    + split; intros H; [discriminate|]. inversion H; subst. congruence.
Qed.

Lemma traverse_throw {A} (f : name -> res A) l :
  traverse f l = Throw <-> exists n, In n l /\ f n = Throw.
Proof.
  induction l as [|n l IH]; cbn [traverse].
  - split; [discriminate|]. intros (? & [] & _).
  - unfold bind at 1. destruct (f n) as [a|] eqn:E.
    + destruct (traverse f l) as [r|]; cbn [bind].
      * split; [discriminate|]. intros (m & [->|H] & N); [congruence|].
        assert (@Ok (list A) r = Throw) by (apply IH; eauto). discriminate.
      * split; [|reflexivity]. intros _. destruct (proj1 IH eq_refl) as (m & H & N).
        exists m. split; [now right|exact N].
    + split; [|reflexivity]. intros _. exists n. split; [now left|exact E].
Qed.

Lemma all_res_true {A} (f : A -> res bool) l :
  all_res f l = Ok true <-> forall x, In x l -> f x = Ok true.
Proof.
  induction l as [|x l IH]; cbn [all_res In].
  - split; [intros _ x []|reflexivity].
  - unfold bind. destruct (f x) as [[]|] eqn:E.
    + rewrite IH. split; intros H; [intros y [->|Hy]; auto|intros y Hy; auto].
    + split; [discriminate|]. intros H. specialize (H x (or_introl eq_refl)). congruence.
    + split; [discriminate|]. intros H. specialize (H x (or_introl eq_refl)). congruence.
Qed.

Lemma any_res_spec {A} (f : A -> res bool) l b :
  any_res f l = Ok b <->
  (b = true /\ (exists pre x post, l = pre ++ x :: post /\ f x = Ok true /\
                  forall y, In y pre -> f y = Ok false) \/
   b = false /\ forall x, In x l -> f x = Ok false).
Proof.
  induction l as [|x l IH]; cbn [any_res].
  - split.
    + intros H. inversion H. right. split; [reflexivity|intros x []].
    + intros [(-> & pre & x & post & H & _)|[-> _]]; [destruct pre; discriminate|reflexivity].
  - unfold bind. destruct (f x) as [[]|] eqn:E.
    + split.
      * intros H. inversion H. left. split; [reflexivity|]. exists [], x, l.
        split; [reflexivity|]. split; [exact E|intros y []].
      * intros [(-> & _)|[-> H]]; [reflexivity|]. specialize (H x (or_introl eq_refl)). congruence.
    + rewrite IH. split.
      * intros [(-> & pre & y & post & -> & Hy & Hp)|[-> H]].
        -- left. split; [reflexivity|]. exists (x :: pre), y, post. split; [reflexivity|].
           split; [exact Hy|]. intros z [->|Hz]; auto.
        -- right. split; [reflexivity|]. intros z [->|Hz]; auto.
      * intros [(-> & pre & y & post & H & Hy & Hp)|[-> H]].
        -- left. split; [reflexivity|]. destruct pre as [|z pre]; inversion H; subst; [congruence|].
           exists pre, y, post. split; [reflexivity|]. split; [exact Hy|].
           intros w Hw. apply Hp. now right.
        -- right. split; [reflexivity|]. intros z Hz. apply H. now right.
    + split; [discriminate|]. intros [(-> & pre & y & post & H & Hy & Hp)|[-> H]].
      * destruct pre as [|z pre]; inversion H; subst; [congruence|].
        specialize (Hp z (or_introl eq_refl)). congruence.
      * specialize (H x (or_introl eq_refl)). congruence.
Qed.

Lemma all_res_spec {A} (f : A -> res bool) l b :
  all_res f l = Ok b <->
  (b = false /\ (exists pre x post, l = pre ++ x :: post /\ f x = Ok false /\
                  forall y, In y pre -> f y = Ok true) \/
   b = true /\ forall x, In x l -> f x = Ok true).
Proof.
  induction l as [|x l IH]; cbn [all_res].
  - split.
    + intros H. inversion H. right. split; [reflexivity|intros x []].
    + intros [(-> & pre & x & post & H & _)|[-> _]]; [destruct pre; discriminate|reflexivity].
  - unfold bind. destruct (f x) as [[]|] eqn:E.
    + rewrite IH. split.
      * intros [(-> & pre & y & post & -> & Hy & Hp)|[-> H]].
        -- left. split; [reflexivity|]. exists (x :: pre), y, post. split; [reflexivity|].
           split; [exact Hy|]. intros z [->|Hz]; auto.
        -- right. split; [reflexivity|]. intros z [->|Hz]; auto.
      * intros [(-> & pre & y & post & H & Hy & Hp)|[-> H]].
        -- left. split; [reflexivity|]. destruct pre as [|z pre]; inversion H; subst; [congruence|].
           exists pre, y, post. split; [reflexivity|]. split; [exact Hy|].
           intros w Hw. apply Hp. now right.
        -- right. split; [reflexivity|]. intros z Hz. apply H. now right.
    + split.
      * intros H. inversion H. left. split; [reflexivity|]. exists [], x, l.
        split; [reflexivity|]. split; [exact E|intros y []].
      * intros [(-> & _)|[-> H]]; [reflexivity|]. specialize (H x (or_introl eq_refl)). congruence.
    + split; [discriminate|]. intros [(-> & pre & y & post & H & Hy & Hp)|[-> H]].
      * destruct pre as [|z pre]; inversion H; subst; [congruence|].
        specialize (Hp z (or_introl eq_refl)). congruence.
      * specialize (H x (or_introl eq_refl)). congruence.
Qed.

(** One triggering entity, tested by a truth value per object. *)
Definition each (t : table) (check : name -> res bool) (o : object) : res bool :=
  bind (apply t check o) (fun bs => Ok (forallb (fun b => b) bs)).

Lemma each_true t check o :
  each t check o = Ok true <-> forall m, In m (objects t o) -> check m = Ok true.
Proof.
  unfold each, apply, bind. destruct (traverse check (objects t o)) as [bs|] eqn:E.
  - apply traverse_ok in E. induction E as [|n b l bs Hn Hl IH].
    + split; [intros _ m []|reflexivity].
    + cbn [forallb]. rewrite Bool.andb_comm. destruct (forallb (fun b => b) bs); cbn [andb].
      * split.
        -- intros H. inversion H; subst. destruct IH as [IH _]. intros m [->|Hm]; auto.
        -- intros H. rewrite <- Hn. symmetry. symmetry. apply H. now left.
      * split; [discriminate|]. intros H. apply IH. intros m Hm. apply H. now right.
  - split; [discriminate|]. intros H. apply traverse_throw in E. destruct E as (n & Hn & N).
    rewrite (H n Hn) in N. discriminate.
Qed.

Lemma each_false t check o :
  each t check o = Ok false <->
  (forall m, In m (objects t o) -> check m <> Throw) /\
  exists m, In m (objects t o) /\ check m = Ok false.
Proof.
  unfold each, apply, bind. destruct (traverse check (objects t o)) as [bs|] eqn:E.
  - assert (N : forall m, In m (objects t o) -> check m <> Throw).
    { intros m Hm H. assert (traverse check (objects t o) = Throw)
        by (apply traverse_throw; eauto). congruence. }
    transitivity (exists m, In m (objects t o) /\ check m = Ok false); [|tauto].
    apply traverse_ok in E. clear N. induction E as [|n b l bs Hn Hl IH].
    + split; [discriminate|]. intros (m & [] & _).
    + cbn [forallb]. destruct b; cbn [andb].
      * rewrite IH. split.
        -- intros (m & Hm & H). exists m. split; [now right|exact H].
        -- intros (m & [->|Hm] & H); [congruence|eauto].
      * split; [|reflexivity]. intros _. exists n. split; [now left|exact Hn].
  - split; [discriminate|]. intros (H & _). apply traverse_throw in E. destruct E as (n & Hn & N).
    exfalso. exact (H n Hn N).
Qed.

Lemma each_throw t check o :
  each t check o = Throw <-> exists m, In m (objects t o) /\ check m = Throw.
Proof.
  unfold each, apply, bind. destruct (traverse check (objects t o)) as [bs|] eqn:E.
  - split; [discriminate|]. intros H. apply traverse_throw in H. congruence.
  - split; [|reflexivity]. intros _. now apply traverse_throw.
Qed.

Lemma bool_condition_each t te check es : bool_condition t te check es = te_res te (each t check) es.
Proof. reflexivity. Qed.

(** Comparing values is testing truth values. *)
Definition compare (r : rule) (th : num) (value : name -> res num) (n : name) : res bool :=
  bind (value n) (fun v => Ok (apply_rule true r v th)).

Lemma te_res_ext {A} (te : te_rule) (f g : A -> res bool) l :
  (forall x, f x = g x) -> te_res te f l = te_res te g l.
Proof.
  intros H. assert (all_res f l = all_res g l) as E1.
  { induction l as [|x l IH]; cbn [all_res]; [reflexivity|]. now rewrite H, IH. }
  assert (any_res f l = any_res g l) as E2.
  { clear E1. induction l as [|x l IH]; cbn [any_res]; [reflexivity|]. now rewrite H, IH. }
  destruct te; cbn [te_res]; now rewrite ?E1, ?E2.
Qed.

Lemma value_condition_each t te r th value es :
  value_condition t te r th value es = te_res te (each t (compare r th value)) es.
Proof.
  unfold value_condition. apply te_res_ext. intros o. unfold each, apply.
  induction (objects t o) as [|n l IH]; [reflexivity|]. cbn [traverse]. unfold compare at 1.
  destruct (value n) as [v|]; cbn [bind]; [|reflexivity].
  destruct (traverse value l) as [vs|] eqn:E1, (traverse (compare r th value) l) as [bs|] eqn:E2;
    cbn [bind] in IH |- *; try reflexivity; try discriminate.
  inversion IH as [IH']. unfold entity_predicate in *. cbn [forallb].
  destruct vs; [|now rewrite IH'].
  destruct (forallb (fun b => b) bs); [reflexivity|discriminate].
Qed.
