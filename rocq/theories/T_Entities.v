(** * C89-C91: triggering entities, entity selections, absent entities. *)
From Coq Require Import ZArith QArith List Bool Arith Lia.
From Verif Require Import M_Condition M_Entities M_EntityCondition S_Entities P_Entities.
Import ListNotations.
Local Close Scope Q_scope.

(** ** C89 *)

(** Scenario object [m] satisfies condition [x]. *)
Definition satisfies (t : table) (added : name -> bool) (c : core) (x : condition) (m : name)
  : Prop :=
  exists v, value_of t added c x m = Ok v /\ apply_rule true (rule_of x) v (threshold_of x) = true.

(** Looking at [m] is an error. *)
Definition fails (t : table) (added : name -> bool) (c : core) (x : condition) (m : name) : Prop :=
  value_of t added c x m = Throw.

Lemma compare_true t a c x m :
  compare (rule_of x) (threshold_of x) (value_of t a c x) m = Ok true <-> satisfies t a c x m.
Proof.
  unfold compare, satisfies, bind. destruct (value_of t a c x m) as [v|]; split; intros H.
  - inversion H as [H']. rewrite H'. eauto.
  - destruct H as (v' & E & H). inversion E; subst. now rewrite H.
  - discriminate.
  - destruct H as (v' & E & H). discriminate.
Qed.
Lemma compare_throw t a c x m :
  compare (rule_of x) (threshold_of x) (value_of t a c x) m = Throw <-> fails t a c x m.
Proof.
  unfold compare, fails, bind. destruct (value_of t a c x m); split; congruence.
Qed.
Lemma compare_false t a c x m :
  compare (rule_of x) (threshold_of x) (value_of t a c x) m = Ok false <->
  ~ fails t a c x m /\ ~ satisfies t a c x m.
Proof.
  rewrite <- compare_true, <- compare_throw.
  destruct (compare (rule_of x) (threshold_of x) (value_of t a c x) m) as [[]|];
    intuition congruence.
Qed.

Lemma named_all ds t ns es (Hb : build ds = Ok t)
  (F : Forall2 (fun r o => find t r = Some o) ns es) (Q : name -> Prop) :
  (forall o, In o es -> forall m, In m (objects t o) -> Q m) <->
  (forall n, In n ns -> forall m, member ds n m -> Q m).
Proof.
  induction F as [|n o l k Hn Hl IH]; [split; intros _ ? []|].
  cbn [In]. split; intros H x Hx m Hm.
  - destruct Hx as [->|Hx].
    + apply (H o); [now left|]. now apply (objects_member ds t Hb o x Hn).
    + revert x Hx m Hm. apply IH. intros o' Ho'. apply H. now right.
  - destruct Hx as [->|Hx].
    + apply (H n); [now left|]. now apply (objects_member ds t Hb x n Hn).
    + revert x Hx m Hm. apply IH. intros n' Hn'. apply H. now right.
Qed.

Lemma named_split t ns es
  (F : Forall2 (fun r o => find t r = Some o) ns es) (P : object -> Prop) (R : name -> Prop) :
  (forall n o, find t n = Some o -> (P o <-> R n)) ->
  forall (P0 : object -> Prop) (R0 : name -> Prop),
  (forall n o, find t n = Some o -> (P0 o <-> R0 n)) ->
  ((exists pre o post, es = pre ++ o :: post /\ P o /\ forall y, In y pre -> P0 y) <->
   (exists pre n post, ns = pre ++ n :: post /\ R n /\ forall y, In y pre -> R0 y)).
Proof.
  intros HP P0 R0 HP0.
  induction F as [|n o l k Hn Hl IH].
  - split; intros (pre & x & post & E & _); destruct pre; discriminate.
  - split; intros (pre & x & post & E & Hx & Hp).
    + destruct pre as [|y pre]; inversion E; subst.
      * exists [], n, l. split; [reflexivity|]. split; [now apply (HP n x Hn)|intros y []].
      * destruct (proj1 IH) as (pre' & x' & post' & -> & Hx' & Hp').
        { exists pre, x, post. split; [reflexivity|]. split; [exact Hx|].
          intros z Hz. apply Hp. now right. }
        exists (n :: pre'), x', post'. split; [reflexivity|]. split; [exact Hx'|].
        intros z [->|Hz]; [|auto]. apply (HP0 z y Hn), Hp. now left.
    + destruct pre as [|y pre]; inversion E; subst.
      * exists [], o, k. split; [reflexivity|]. split; [now apply (HP x o Hn)|intros y []].
      * destruct (proj2 IH) as (pre' & x' & post' & -> & Hx' & Hp').
        { exists pre, x, post. split; [reflexivity|]. split; [exact Hx|].
          intros z Hz. apply Hp. now right. }
        exists (o :: pre'), x', post'. split; [reflexivity|]. split; [exact Hx'|].
        intros z [->|Hz]; [|auto]. apply (HP0 y z Hn), Hp. now left.
Qed.
(** all: every scenario object that the listed names stand for satisfies the condition. No error can
    make this true. *)
Theorem C89_all : forall ds t ns es added c x,
  build ds = Ok t -> triggering t ns = Ok es ->
  (evaluate t added c All es x = Ok true <->
   forall n, In n ns -> forall m, member ds n m -> satisfies t added c x m).
Proof.
  intros ds t ns es added c x Hb Ht. unfold evaluate. rewrite value_condition_each.
  cbn [te_res]. rewrite all_res_true, <- (named_all ds t ns es Hb (proj2 (triggering_ok t ns es Ht)) (satisfies t added c x)).
  split; intros H o Ho; specialize (H o Ho).
  - intros m Hm. apply compare_true. now apply (proj1 (each_true _ _ _) H).
  - apply each_true. intros m Hm. now apply compare_true, H.
Qed.

(** all answers false at the first listed name that stands for an object not satisfying the
    condition, provided looking at the objects up to there is no error; ... *)
Theorem C89_all_false : forall ds t ns es added c x,
  build ds = Ok t -> triggering t ns = Ok es ->
  (evaluate t added c All es x = Ok false <->
   exists pre n post, ns = pre ++ n :: post /\
     (forall p, In p pre -> forall m, member ds p m -> satisfies t added c x m) /\
     (forall m, member ds n m -> ~ fails t added c x m) /\
     (exists m, member ds n m /\ ~ satisfies t added c x m)).
Proof.
  intros ds t ns es added c x Hb Ht. unfold evaluate. rewrite value_condition_each.
  cbn [te_res]. rewrite all_res_spec.
  rewrite (named_split t ns es (proj2 (triggering_ok t ns es Ht))
             (fun o => each t (compare (rule_of x) (threshold_of x) (value_of t added c x)) o = Ok false)
             (fun n => (forall m, member ds n m -> ~ fails t added c x m) /\
                       exists m, member ds n m /\ ~ satisfies t added c x m)
             ) with (P0 := fun o => each t (compare (rule_of x) (threshold_of x) (value_of t added c x)) o = Ok true)
                    (R0 := fun n => forall m, member ds n m -> satisfies t added c x m).
  - split.
    + intros [(_ & pre & n & post & E & (H1 & H2) & H3)|[H _]]; [|discriminate].
      exists pre, n, post. auto.
    + intros (pre & n & post & E & H3 & H1 & H2). left. split; [reflexivity|].
      exists pre, n, post. auto.
  - intros n o Hf. rewrite each_false. split.
    + intros (A & m & Hm & B). split.
      * intros k Hk. apply (objects_member ds t Hb o n Hf) in Hk. specialize (A k Hk).
        now rewrite compare_throw in A.
      * exists m. split; [now apply (objects_member ds t Hb o n Hf)|]. now apply compare_false in B.
    + intros (A & m & Hm & B). split.
      * intros k Hk. apply (objects_member ds t Hb o n Hf) in Hk. specialize (A k Hk).
        now rewrite compare_throw.
      * exists m. split; [now apply (objects_member ds t Hb o n Hf)|]. apply compare_false. auto.
  - intros n o Hf. rewrite each_true. split; intros A m Hm.
    + apply compare_true, A. now apply (objects_member ds t Hb o n Hf).
    + apply compare_true, A. now apply (objects_member ds t Hb o n Hf).
Qed.

(** any: some listed name is such that all objects it stands for satisfy the condition, and looking
    at the objects of the names before it is no error. *)
Theorem C89_any : forall ds t ns es added c x,
  build ds = Ok t -> triggering t ns = Ok es ->
  (evaluate t added c Any es x = Ok true <->
   exists pre n post, ns = pre ++ n :: post /\
     (forall m, member ds n m -> satisfies t added c x m) /\
     (forall p, In p pre -> forall m, member ds p m -> ~ fails t added c x m) /\
     (forall p, In p pre -> exists m, member ds p m /\ ~ satisfies t added c x m)).
Proof.
  intros ds t ns es added c x Hb Ht. unfold evaluate. rewrite value_condition_each.
  cbn [te_res]. rewrite any_res_spec.
  rewrite (named_split t ns es (proj2 (triggering_ok t ns es Ht))
             (fun o => each t (compare (rule_of x) (threshold_of x) (value_of t added c x)) o = Ok true)
             (fun n => forall m, member ds n m -> satisfies t added c x m)
             ) with (P0 := fun o => each t (compare (rule_of x) (threshold_of x) (value_of t added c x)) o = Ok false)
                    (R0 := fun n => (forall m, member ds n m -> ~ fails t added c x m) /\
                       exists m, member ds n m /\ ~ satisfies t added c x m).
  - split.
    + intros [(_ & pre & n & post & E & H1 & H3)|[H _]]; [|discriminate].
      exists pre, n, post. split; [exact E|]. split; [exact H1|]. split; intros p Hp; now apply H3.
    + intros (pre & n & post & E & H1 & H2 & H3). left. split; [reflexivity|].
      exists pre, n, post. split; [exact E|]. split; [exact H1|]. intros p Hp. split; [exact (H2 p Hp)|exact (H3 p Hp)].
  - intros n o Hf. rewrite each_true. split; intros A m Hm.
    + apply compare_true, A. now apply (objects_member ds t Hb o n Hf).
    + apply compare_true, A. now apply (objects_member ds t Hb o n Hf).
  - intros n o Hf. rewrite each_false. split.
    + intros (A & m & Hm & B). split.
      * intros k Hk. apply (objects_member ds t Hb o n Hf) in Hk. specialize (A k Hk).
        now rewrite compare_throw in A.
      * exists m. split; [now apply (objects_member ds t Hb o n Hf)|]. now apply compare_false in B.
    + intros (A & m & Hm & B). split.
      * intros k Hk. apply (objects_member ds t Hb o n Hf) in Hk. specialize (A k Hk).
        now rewrite compare_throw.
      * exists m. split; [now apply (objects_member ds t Hb o n Hf)|]. apply compare_false. auto.
Qed.

(** Without errors, any and all are the plain quantifiers over the listed names and always answer. *)
Theorem C89_without_errors : forall ds t ns es added c x,
  build ds = Ok t -> triggering t ns = Ok es ->
  (forall n m, In n ns -> member ds n m -> ~ fails t added c x m) ->
  exists a b,
    evaluate t added c All es x = Ok a /\ evaluate t added c Any es x = Ok b /\
    (a = true <-> forall n, In n ns -> forall m, member ds n m -> satisfies t added c x m) /\
    (b = true <-> exists n, In n ns /\ forall m, member ds n m -> satisfies t added c x m).
Proof.
  intros ds t ns es added c x Hb Ht N.
  set (f := each t (compare (rule_of x) (threshold_of x) (value_of t added c x))).
  assert (Nf : forall o, In o es -> f o <> Throw).
  { intros o Ho H. apply each_throw in H. destruct H as (m & Hm & H). revert o Ho m Hm H.
    assert (A := proj2 (named_all ds t ns es Hb (proj2 (triggering_ok t ns es Ht)) (fun m => ~ fails t added c x m))
                   (fun n Hn m Hm => N n m Hn Hm)).
    intros o Ho m Hm H. apply compare_throw in H. exact (A o Ho m Hm H). }
  assert (exists a, all_res f es = Ok a) as [a Ha].
  { clear -Nf. induction es as [|o l IH]; cbn [all_res]; [eauto|].
    assert (H := Nf o (or_introl eq_refl)). destruct (f o) as [[]|]; cbn [bind]; eauto.
    - apply IH. intros o' Ho'. apply Nf. now right.
    - contradiction. }
  assert (exists b, any_res f es = Ok b) as [b Hbb].
  { clear -Nf. induction es as [|o l IH]; cbn [any_res]; [eauto|].
    assert (H := Nf o (or_introl eq_refl)). destruct (f o) as [[]|]; cbn [bind]; eauto.
    - apply IH. intros o' Ho'. apply Nf. now right.
    - contradiction. }
  exists a, b. unfold evaluate. rewrite !value_condition_each. cbn [te_res]. fold f.
  split; [exact Ha|]. split; [exact Hbb|]. split.
  - rewrite <- (C89_all ds t ns es added c x Hb Ht). unfold evaluate.
    rewrite value_condition_each. cbn [te_res]. fold f. rewrite Ha. split; [intros ->|]; congruence.
  - assert (F := proj2 (triggering_ok t ns es Ht)).
    assert (E : forall n o, find t n = Some o ->
                (f o = Ok true <-> forall m, member ds n m -> satisfies t added c x m)).
    { intros n o Hf. unfold f. rewrite each_true. split; intros A m Hm;
        apply compare_true, A; now apply (objects_member ds t Hb o n Hf). }
    transitivity (exists o, In o es /\ f o = Ok true).
    + destruct b.
      * split; [|reflexivity]. intros _. apply any_res_spec in Hbb.
        destruct Hbb as [(_ & pre & o & post & -> & Ho & _)|[H _]]; [|discriminate].
        exists o. split; [apply in_elt|exact Ho].
      * split; [discriminate|]. intros (o & Ho & H). apply any_res_spec in Hbb.
        destruct Hbb as [(H' & _)|[_ H']]; [discriminate|]. rewrite (H' o Ho) in H. discriminate.
    + clear -F E. induction F as [|n o l k Hn Hl IH].
      * split; intros (? & [] & _).
      * split.
        -- intros (o' & [->|Ho] & H).
           ++ exists n. split; [now left|]. now apply (E n o' Hn).
           ++ destruct (proj1 IH) as (n' & ? & ?); [eauto|]. exists n'. split; [now right|assumption].
        -- intros (n' & [->|Ho] & H).
           ++ exists o. split; [now left|]. now apply (E n' o Hn).
           ++ destruct (proj2 IH) as (o' & ? & ?); [eauto|]. exists o'. split; [now right|assumption].
Qed.

(** An error stops the evaluation exactly if a listed name that is looked at stands for an object
    whose value cannot be computed. *)
Theorem C89_error : forall ds t ns es added c x te,
  build ds = Ok t -> triggering t ns = Ok es -> te <> NoneOf ->
  (evaluate t added c te es x = Throw <->
   exists pre n post, ns = pre ++ n :: post /\
     (exists m, member ds n m /\ fails t added c x m) /\
     (forall p, In p pre -> forall m, member ds p m -> ~ fails t added c x m) /\
     (forall p, In p pre ->
        if match te with All => true | _ => false end
        then forall m, member ds p m -> satisfies t added c x m
        else exists m, member ds p m /\ ~ satisfies t added c x m)).
Proof.
  intros ds t ns es added c x te Hb Ht Hte. unfold evaluate. rewrite value_condition_each.
  set (f := each t (compare (rule_of x) (threshold_of x) (value_of t added c x))).
  set (go := match te with All => true | _ => false end).
  assert (G : te_res te f es = Throw <->
              exists pre o post, es = pre ++ o :: post /\ f o = Throw /\
                forall y, In y pre -> f y = Ok go).
  { transitivity ((if go then all_res f es else any_res f es) = Throw).
    { destruct te; cbn [te_res]; unfold go; [reflexivity|reflexivity|congruence]. }
    generalize go. intros g. clear. induction es as [|o l IH].
    - destruct g; cbn; split; try discriminate; intros (pre & ? & ? & H & _);
        destruct pre; discriminate.
    - assert (S : (exists pre o0 post, o :: l = pre ++ o0 :: post /\ f o0 = Throw /\
                     forall y, In y pre -> f y = Ok g) <->
                  f o = Throw \/ f o = Ok g /\
                    exists pre o0 post, l = pre ++ o0 :: post /\ f o0 = Throw /\
                     forall y, In y pre -> f y = Ok g).
      { split.
        - intros (pre & o' & post & E & H & Hp). destruct pre as [|y pre]; inversion E; subst;
            [now left|right]. split; [apply Hp; now left|]. exists pre, o', post.
          split; [reflexivity|]. split; [exact H|]. intros z Hz. apply Hp. now right.
        - intros [H|(H & pre & o' & post & -> & H' & Hp)].
          + exists [], o, l. split; [reflexivity|]. split; [exact H|intros y []].
          + exists (o :: pre), o', post. split; [reflexivity|]. split; [exact H'|].
            intros z [->|Hz]; auto. }
      rewrite S, <- IH. clear. destruct g; cbn [all_res any_res];
        destruct (f o) as [[]|]; cbn [bind]; split; intros H; try discriminate; auto;
        try (right; split; [reflexivity|exact H]);
        try (destruct H as [H|[H1 H2]]; [discriminate|]; auto; discriminate). }
  rewrite G. clear G.
  rewrite (named_split t ns es (proj2 (triggering_ok t ns es Ht)) (fun o => f o = Throw)
             (fun n => exists m, member ds n m /\ fails t added c x m))
    with (P0 := fun o => f o = Ok go)
         (R0 := fun n => (forall m, member ds n m -> ~ fails t added c x m) /\
           if go then forall m, member ds n m -> satisfies t added c x m
           else exists m, member ds n m /\ ~ satisfies t added c x m).
  - split; intros (pre & n & post & E & H1 & H2).
    + exists pre, n, post. split; [exact E|]. split; [exact H1|]. split; intros p Hp; now apply H2.
    + destruct H2 as [H2 H3]. exists pre, n, post. split; [exact E|]. split; [exact H1|].
      intros p Hp. split; [now apply H2|now apply H3].
  - intros n o Hf. unfold f. rewrite each_throw. split; intros (m & Hm & H); exists m;
      (split; [now apply (objects_member ds t Hb o n Hf)|now apply compare_throw]).
  - intros n o Hf. unfold f. destruct go.
    + rewrite each_true. split.
      * intros A. split; intros m Hm; apply (objects_member ds t Hb o n Hf) in Hm;
          specialize (A m Hm); [|now apply compare_true].
        apply compare_true in A. destruct A as (v & E & _). unfold fails. congruence.
      * intros [_ A] m Hm. apply compare_true, A. now apply (objects_member ds t Hb o n Hf).
    + rewrite each_false. split.
      * intros (A & m & Hm & B). split.
        -- intros k Hk. apply (objects_member ds t Hb o n Hf) in Hk. specialize (A k Hk).
           now rewrite compare_throw in A.
        -- exists m. split; [now apply (objects_member ds t Hb o n Hf)|].
           now apply compare_false in B.
      * intros (A & m & Hm & B). split.
        -- intros k Hk. apply (objects_member ds t Hb o n Hf) in Hk. specialize (A k Hk).
           now rewrite compare_throw.
        -- exists m. split; [now apply (objects_member ds t Hb o n Hf)|]. apply compare_false. auto.
Qed.

(** none is the negation of any. *)
Theorem C89_none : forall t es added c x b,
  evaluate t added c NoneOf es x = Ok b <-> evaluate t added c Any es x = Ok (negb b).
Proof.
  intros t es added c x b. unfold evaluate. rewrite !value_condition_each. cbn [te_res].
  destruct (any_res _ es) as [b'|]; cbn [bind]; split; intros H; try discriminate; inversion H; subst;
    now rewrite ?negb_involutive.
Qed.

(** A world for examples: entities 0, 1 and 2 drive along x with speeds 5, 20 and 30. *)
Definition demo_core : core := {|
  here := fun n => (n <? 3)%nat;
  place := fun n => V (inject_Z (10 * Z.of_nat n)) 0 0;
  axis_x := fun _ => V 1 0 0; axis_y := fun _ => V 0 1 0; axis_z := fun _ => V 0 0 1;
  twist := fun n => V (match n with O => 5 | S O => 20 | _ => 30 end) 0 0;
  accel := fun _ => 0%Q; still := fun _ => 0%Q; length := fun v => Qabs.Qabs (vx v);
  boxes := fun _ _ => None; lanes := fun _ _ _ _ => None; lane_count := fun _ _ => None;
  lane_heading := fun _ => None; overlap := fun _ _ => false
|}.
Definition demo_decls : list decl :=
  [DSelection 10 [0; 1; 2] []; DObject 0 Vehicle; DObject 1 Vehicle; DObject 2 Pedestrian;
   DSelection 11 [] [Vehicle]; DSelection 12 [11; 10] []; DSelection 13 [] [Miscellaneous]].
Definition demo_table : table :=
  match build demo_decls with Ok t => t | Throw => [] end.

Example C89_example :
  build demo_decls = Ok demo_table /\
  exists es, triggering demo_table [0; 10] = Ok es /\
    evaluate demo_table (fun _ => true) demo_core Any es (Speed false LessThan (Fin 10) None) = Ok true /\
    evaluate demo_table (fun _ => true) demo_core All es (Speed false LessThan (Fin 10) None) = Ok false.
Proof. split; [reflexivity|]. eexists. split; [reflexivity|]. split; reflexivity. Qed.

(** A selection counts as one triggering entity: with the rule any, one member that satisfies the
    condition is not enough ... *)
Theorem C89_any_member_refuted :
  ~ (forall ds t ns es added c x n m,
       build ds = Ok t -> triggering t ns = Ok es -> In n ns -> member ds n m ->
       satisfies t added c x m ->
       (forall n' m', In n' ns -> member ds n' m' -> ~ fails t added c x m') ->
       evaluate t added c Any es x = Ok true).
Proof.
  intros H.
  assert (X : evaluate demo_table (fun _ => true) demo_core Any
                [Sel 10 [Obj 0 Vehicle; Obj 1 Vehicle; Obj 2 Pedestrian] []]
                (Speed false LessThan (Fin 10) None) = Ok true).
  { apply (H demo_decls demo_table [10] _ _ _ _ 10 0); try reflexivity.
    - now left.
    - apply (member_ref demo_decls 10 [0; 1; 2] [] 0 0); [reflexivity|reflexivity|now left|].
      eapply (member_self demo_decls 0 Vehicle). reflexivity.
    - exists (Fin 5). split; reflexivity.
    - intros n' m' [<-|[]] Hm. unfold fails.
      assert (In m' [0; 1; 2]) as I.
      { apply (objects_member demo_decls demo_table eq_refl
                 (Sel 10 [Obj 0 Vehicle; Obj 1 Vehicle; Obj 2 Pedestrian] []) 10) in Hm;
          [exact Hm|reflexivity]. }
      destruct I as [<-|[<-|[<-|[]]]]; discriminate. }
  vm_compute in X. discriminate.
Qed.

(** ... and a selection standing for nothing satisfies every condition, also with the rule any. *)
Theorem C89_empty : forall ds t ns es added c x n,
  build ds = Ok t -> triggering t ns = Ok es -> In n ns ->
  (forall m, ~ member ds n m) ->
  (forall n' m, In n' ns -> member ds n' m -> ~ fails t added c x m) ->
  evaluate t added c Any es x = Ok true.
Proof.
  intros ds t ns es added c x n Hb Ht Hn N Nf.
  destruct (C89_without_errors ds t ns es added c x Hb Ht Nf) as (a & b & _ & E & _ & B).
  rewrite E. f_equal. apply B. exists n. split; [exact Hn|]. intros m Hm. exfalso. exact (N m Hm).
Qed.

Example C89_empty_example : forall m, ~ member demo_decls 13 m.
Proof.
  intros m H.
  apply (objects_member demo_decls demo_table eq_refl (Sel 13 [] [Miscellaneous]) 13 eq_refl) in H.
  exact H.
Qed.

(** ** C90 *)

(** The declarations are accepted exactly if they are well declared ... *)
Theorem C90_accepted : forall ds, (exists t, build ds = Ok t) <-> well_declared ds.
Proof. exact build_ok. Qed.

(** ... a reference is accepted exactly if the name is declared ... *)
Theorem C90_reference : forall ds t n,
  build ds = Ok t -> ((exists o, ref t n = Ok o) <-> declared ds n).
Proof.
  intros ds t n H. apply build_inv in H. unfold ref, declared.
  rewrite <- (inv_find ds ds t n H). destruct (find t n); split; intros [o' E]; eauto; discriminate.
Qed.

(** ... and so is a list of triggering entities, which must not be empty; it keeps its order ... *)
Theorem C90_triggering : forall ds t ns,
  build ds = Ok t ->
  ((exists es, triggering t ns = Ok es) <-> ns <> [] /\ forall n, In n ns -> declared ds n) /\
  (forall es, triggering t ns = Ok es -> Forall2 (fun n o => ref t n = Ok o) ns es).
Proof.
  intros ds t ns Hb. split.
  - split.
    + intros (es & H). apply triggering_ok in H. destruct H as [N F]. split; [exact N|].
      clear N. induction F as [|n o l k Hn Hl IH]; intros n' H; [contradiction|].
      destruct H as [<-|H]; [|auto]. apply (C90_reference ds t n Hb). exists o. unfold ref. now rewrite Hn.
    + intros [N D]. destruct ns as [|n0 ns0] eqn:E; [contradiction|]. rewrite <- E in *. clear N.
      assert (triggering t ns = refs t ns) as -> by (now subst). clear E.
      destruct (refs t ns) as [es|] eqn:R; [eauto|]. exfalso. apply refs_throw in R.
      destruct R as (r & I & F). destruct (proj2 (C90_reference ds t r Hb) (D r I)) as (o & O).
      unfold ref in O. rewrite F in O. discriminate.
  - intros es H. apply triggering_ok in H. destruct H as [_ F].
    eapply Forall2_impl; [|exact F]. intros a b E. unfold ref. now rewrite E.
Qed.

(** ... and the objects of a reference are the members of the declared name: looking them up ends
    however deeply selections are nested. *)
Theorem C90_objects : forall ds t n o m,
  build ds = Ok t -> ref t n = Ok o -> (In m (objects t o) <-> member ds n m).
Proof.
  intros ds t n o m H R. apply (objects_member ds t H o n).
  unfold ref in R. destruct (find t n); congruence.
Qed.

(** The members of every name are scenario objects, declared as such. *)
Theorem C90_members_are_objects : forall ds t n m,
  build ds = Ok t -> member ds n m -> exists ty, In (DObject m ty) ds.
Proof.
  intros ds t n m _ H. induction H as [n ty H|n rs tys r m H1 H2 H3 H4 IH|n tys m ty H1 H2 H3 H4].
  - apply first_object_In. eauto.
  - exact IH.
  - apply first_object_In. eauto.
Qed.

(** A selection may be listed under a name that a scenario object bears, and is then never used. *)
Theorem C90_object_wins : forall ds t n ty,
  build ds = Ok t -> In (DObject n ty) ds -> forall m, member ds n m <-> m = n.
Proof.
  intros ds t n ty H I m. destruct (proj2 (first_object_In ds n) (ex_intro _ ty I)) as [ty' E].
  split.
  - intros M. inversion M; subst; congruence.
  - intros ->. now apply (member_self ds n ty').
Qed.

(** The order of selections matters: a selection cannot refer to a later one. *)
Theorem C90_forward_reference_refuted :
  ~ (forall ds n rs tys r, In (DSelection n rs tys) ds -> In r rs -> tys = [] -> declared ds r ->
       (forall n' rs' tys', In (DSelection n' rs' tys') ds ->
          (rs' <> [] /\ tys' = [] \/ rs' = [] /\ tys' <> [])) ->
       exists t, build ds = Ok t).
Proof.
  intros H.
  destruct (H [DObject 0 Vehicle; DSelection 2 [1] []; DSelection 1 [0] []] 2 [1] [] 1) as [t E].
  - cbn; auto.
  - cbn; auto.
  - reflexivity.
  - right. exists [0], []. cbn; auto.
  - intros n' rs' tys' I. cbn in I. left. destruct I as [I|[I|[I|[]]]]; inversion I; split;
      congruence.
  - discriminate.
Qed.

Example C90_example :
  build demo_decls = Ok demo_table /\
  (forall m, member demo_decls 12 m <-> m = 0 \/ m = 1 \/ m = 2) /\
  (forall m, member demo_decls 11 m <-> m = 0 \/ m = 1).
Proof.
  split; [reflexivity|]. split; intros m.
  - rewrite <- (C90_objects demo_decls demo_table 12
      (Sel 12 [Sel 11 [] [Vehicle]; Sel 10 [Obj 0 Vehicle; Obj 1 Vehicle; Obj 2 Pedestrian] []] []) m
      eq_refl eq_refl). cbn. intuition.
  - rewrite <- (C90_objects demo_decls demo_table 11 (Sel 11 [] [Vehicle]) m eq_refl eq_refl).
    cbn. intuition.
Qed.

(** ** C91 *)

Lemma act_all_added a l : forall s s', act_all a s l = Ok s' ->
  forall n, added s' n = (match a with AddEntity => existsb (Nat.eqb n) l | DeleteEntity => false end
                          || added s n).
Proof.
  induction l as [|m l IH]; intros s s' H n; cbn [act_all] in H.
  - inversion H; subst. destruct a; reflexivity.
  - unfold bind in H. destruct (act a s m) as [s1|] eqn:E; [|discriminate].
    rewrite (IH _ _ H n). unfold act in E. destruct a.
    + destruct (added s m); [discriminate|]. destruct (present s m); [discriminate|].
      inversion E; subst. cbn [added existsb]. unfold set_flag.
      destruct (n =? m), (existsb (Nat.eqb n) l); cbn; auto using orb_true_r.
    + inversion E; subst. reflexivity.
Qed.

Lemma act_all_present a l : forall s s', act_all a s l = Ok s' ->
  forall n, present s' n = (if existsb (Nat.eqb n) l
                            then match a with AddEntity => true | DeleteEntity => false end
                            else present s n).
Proof.
  induction l as [|m l IH]; intros s s' H n; cbn [act_all] in H.
  - inversion H; subst. reflexivity.
  - unfold bind in H. destruct (act a s m) as [s1|] eqn:E; [|discriminate].
    rewrite (IH _ _ H n). cbn [existsb]. unfold act in E. destruct a.
    + destruct (added s m); [discriminate|]. destruct (present s m); [discriminate|].
      inversion E; subst. cbn [present]. unfold set_flag.
      destruct (n =? m), (existsb (Nat.eqb n) l); reflexivity.
    + inversion E; subst. cbn [present]. unfold set_flag.
      destruct (n =? m), (existsb (Nat.eqb n) l); reflexivity.
Qed.

Lemma act_all_add_throw l : forall s,
  act_all AddEntity s l = Throw <->
  (exists n, In n l /\ (added s n = true \/ present s n = true)) \/ ~ NoDup l.
Proof.
  induction l as [|m l IH]; intros s; cbn [act_all].
  - split; [discriminate|]. intros [(? & [] & _)|H]; []. exfalso. apply H. constructor.
  - unfold bind, act. destruct (added s m) eqn:A.
    { split; [|reflexivity]. intros _. left. exists m. split; [now left|auto]. }
    destruct (present s m) eqn:B.
    { split; [|reflexivity]. intros _. left. exists m. split; [now left|auto]. }
    rewrite IH. cbn [added present]. unfold set_flag. split.
    + intros [(n & Hn & H)|H].
      * destruct (Nat.eqb_spec n m) as [->|N].
        -- right. intros D. inversion D; contradiction.
        -- left. exists n. split; [now right|exact H].
      * right. intros D. apply H. now inversion D.
    + intros [(n & [->|Hn] & H)|H].
      * destruct H; congruence.
      * left. exists n. split; [exact Hn|]. destruct (n =? m); [now left|exact H].
      * destruct (in_dec Nat.eq_dec m l) as [I|I].
        -- left. exists m. split; [exact I|]. left. now rewrite Nat.eqb_refl.
        -- right. intros D. apply H. now constructor.
Qed.

Lemma existsb_In n l : existsb (Nat.eqb n) l = true <-> In n l.
Proof.
  rewrite existsb_exists. split.
  - intros (m & Hm & E). apply Nat.eqb_eq in E. now subst.
  - intros H. exists n. split; [exact H|apply Nat.eqb_refl].
Qed.

Lemma history_app t es es' s :
  history t s (es ++ es') = bind (history t s es) (fun s' => history t s' es').
Proof.
  revert s. induction es as [|e es IH]; intros s; cbn [history app]; [reflexivity|].
  destruct (step t s e); cbn [bind]; [apply IH|reflexivity].
Qed.

Lemma history_added_mono t es : forall s s', history t s es = Ok s' ->
  forall n, added s n = true -> added s' n = true.
Proof.
  induction es as [|e es IH]; intros s s' H n A; cbn [history] in H.
  - now inversion H; subst.
  - unfold bind in H. destruct (step t s e) as [s1|] eqn:E; [|discriminate].
    apply (IH _ _ H n). destruct e as [a o|m]; cbn [step] in E.
    + unfold start in E. rewrite (act_all_added _ _ _ _ E n), A. now rewrite orb_true_r.
    + inversion E; subst. exact A.
Qed.

(** Adding an entity: an error if one of its objects was ever added before, is present, or is listed
    twice; otherwise exactly its objects appear. *)
Theorem C91_add : forall t s o,
  (start t s AddEntity o = Throw <->
   (exists n, In n (objects t o) /\ (added s n = true \/ present s n = true)) \/
   ~ NoDup (objects t o)) /\
  (forall s', start t s AddEntity o = Ok s' ->
     forall n, (present s' n = true <-> In n (objects t o) \/ present s n = true) /\
               (added s' n = true <-> In n (objects t o) \/ added s n = true)).
Proof.
  intros t s o. unfold start. split; [apply act_all_add_throw|]. intros s' H n.
  rewrite (act_all_present _ _ _ _ H n), (act_all_added _ _ _ _ H n), orb_true_iff, <- existsb_In.
  destruct (existsb (Nat.eqb n) (objects t o)); intuition.
Qed.

(** Deleting an entity: never an error, and exactly its objects disappear. *)
Theorem C91_delete : forall t s o, exists s',
  start t s DeleteEntity o = Ok s' /\
  forall n, (present s' n = true <-> ~ In n (objects t o) /\ present s n = true) /\
            added s' n = added s n.
Proof.
  intros t s o. unfold start.
  assert (exists s', act_all DeleteEntity s (objects t o) = Ok s') as [s' H].
  { generalize (objects t o) as l. intros l. revert s. induction l as [|m l IH]; intros s;
      cbn [act_all]; [eauto|]. cbn [act bind]. apply IH. }
  exists s'. split; [exact H|]. intros n.
  rewrite (act_all_present _ _ _ _ H n), (act_all_added _ _ _ _ H n), <- existsb_In.
  destruct (existsb (Nat.eqb n) (objects t o)); split; auto; split.
  - discriminate.
  - intros [C _]. exfalso. now apply C.
  - intros A. split; [discriminate|exact A].
  - tauto.
Qed.

(** In every history from the start, what is present has been added. *)
Theorem C91_present_added : forall t es s,
  history t initial es = Ok s -> forall n, present s n = true -> added s n = true.
Proof.
  intros t es. enough (G : forall s s', (forall n, present s n = true -> added s n = true) ->
    history t s es = Ok s' -> forall n, present s' n = true -> added s' n = true).
  { intros s. apply G. discriminate. }
  induction es as [|e es IH]; intros s s' I H; cbn [history] in H.
  - now inversion H; subst.
  - unfold bind in H. destruct (step t s e) as [s1|] eqn:E; [|discriminate].
    apply (IH s1 s'); [|exact H]. intros n P. destruct e as [a o|m]; cbn [step] in E.
    + unfold start in E. rewrite (act_all_added _ _ _ _ E n).
      rewrite (act_all_present _ _ _ _ E n) in P.
      destruct a, (existsb (Nat.eqb n) (objects t o)); cbn [orb]; auto. discriminate.
    + inversion E; subst. cbn [added present] in *. unfold set_flag in P.
      destruct (n =? m); [discriminate|auto].
Qed.

(** An entity that was added once can never be added again, not even after it was deleted or removed
    (the expectation that deleting makes room is refuted): such a history ends in an error. *)
Theorem C91_add_once_refuted : forall t es es' s0 o o' n,
  In n (objects t o) -> In n (objects t o') ->
  history t s0 (es ++ Start AddEntity o :: es' ++ [Start AddEntity o']) = Throw.
Proof.
  intros t es es' s0 o o' n Ho Ho'. rewrite history_app.
  destruct (history t s0 es) as [s1|]; [|reflexivity]. cbn [bind history step].
  destruct (start t s1 AddEntity o) as [s2|] eqn:E; [|reflexivity]. cbn [bind].
  rewrite history_app. destruct (history t s2 es') as [s3|] eqn:H; [|reflexivity].
  cbn [bind history step]. enough (start t s3 AddEntity o' = Throw) as -> by reflexivity.
  apply (proj1 (C91_add t s3 o')). left. exists n. split; [exact Ho'|]. left.
  apply (history_added_mono t es' s2 s3 H). apply (proj2 (proj2 (C91_add t s1 o) s2 E n)). now left.
Qed.

Definition nan_free (x : condition) : Prop :=
  match x with
  | Acceleration _ _ | StandStill _ => False
  | TimeHeadway _ _ o => match o with Obj _ _ => True | Sel _ _ _ => False end
  | _ => True
  end.

Lemma nan_rule r th : apply_rule true r NaN th = true <-> r = NotEqualTo.
Proof. destruct r, th; cbn; split; congruence. Qed.

Lemma of_option_none {A} (f : A -> Q) : of_option (option_map f None) = NaN.
Proof. reflexivity. Qed.

(** An entity that was not added satisfies no condition, except that notEqualTo is always satisfied;
    acceleration and standstill conditions on an absent entity are errors. *)
Theorem C91_not_added : forall t added c x n,
  added n = false -> here c n = false ->
  (nan_free x -> ~ fails t added c x n /\ (satisfies t added c x n <-> rule_of x = NotEqualTo)) /\
  (~ nan_free x -> fails t added c x n).
Proof.
  intros t added c x n A H.
  assert (G : value_of t added c x n = Ok NaN ->
              ~ fails t added c x n /\ (satisfies t added c x n <-> rule_of x = NotEqualTo)).
  { intros E. unfold fails, satisfies. split; [congruence|]. split.
    - intros (v & E' & P). rewrite E in E'. inversion E'; subst. now apply nan_rule in P.
    - intros R. exists NaN. split; [exact E|]. now apply nan_rule. }
  split.
  - intros N. apply G. destruct x; cbn [value_of nan_free] in *; try contradiction.
    + unfold speed_of, speed_vector. now rewrite A.
    + unfold relative_speed_of. now rewrite A.
    + unfold distance_of. now rewrite A.
    + unfold relative_distance_of. now rewrite A.
    + unfold reach_of, world_pos. now rewrite H.
    + destruct tg; cbn [time_to_collision].
      * unfold relative_distance_of. rewrite A. reflexivity.
      * unfold distance_of, speed_of, speed_vector. rewrite A. reflexivity.
    + destruct reference as [m ty|]; [|contradiction]. unfold headway_of. cbn [as_ref bind].
      unfold time_headway, world. rewrite H, andb_false_r. reflexivity.
  - intros N. unfold fails. destruct x; cbn [value_of nan_free] in *; try (exfalso; now apply N).
    + unfold acceleration_of, get. now rewrite H.
    + unfold still_of, get. now rewrite H.
    + destruct reference; [exfalso; now apply N|]. reflexivity.
Qed.

(** After an entity was deleted, conditions that compare its speed are errors. Relative speeds and
    distances are satisfied only by notEqualTo. *)
Theorem C91_deleted : forall t es s c o n,
  history t initial (es ++ [Start DeleteEntity o]) = Ok s ->
  In n (objects t o) -> added s n = true -> here c n = present s n ->
  (forall standard r v d, fails t (added s) c (Speed standard r v d) n) /\
  (forall r v, fails t (added s) c (Acceleration r v) n) /\
  (forall v, fails t (added s) c (StandStill v) n) /\
  (forall r v m d, satisfies t (added s) c (RelativeSpeed r v m d) n <-> r = NotEqualTo) /\
  (forall r v d free o', (exists m ty, o' = Obj m ty) ->
     satisfies t (added s) c (RelativeDistance r v EntityFrame d Undefined free o') n <->
     r = NotEqualTo).
Proof.
  intros t es s c o n H Hn A Hh. rewrite history_app in H.
  destruct (history t initial es) as [s1|]; [|discriminate]. cbn [bind history step] in H.
  destruct (C91_delete t s1 o) as (s2 & E & P). rewrite E in H. cbn [bind] in H.
  inversion H; subst s2. destruct (P n) as [P1 _].
  assert (present s n = false) as Q.
  { destruct (present s n); [|reflexivity]. destruct (proj1 P1 eq_refl). contradiction. }
  rewrite Q in Hh.
  assert (G : forall x, value_of t (added s) c x n = Ok NaN ->
              (satisfies t (added s) c x n <-> rule_of x = NotEqualTo)).
  { intros x Ex. unfold satisfies. split.
    - intros (v & E' & Pv). rewrite Ex in E'. inversion E'; subst. now apply nan_rule in Pv.
    - intros R. exists NaN. split; [exact Ex|]. now apply nan_rule. }
  split; [|split; [|split; [|split]]].
  - intros standard r v d. unfold fails. cbn [value_of]. unfold speed_of, speed_vector, get.
    now rewrite A, Hh.
  - intros r v. unfold fails. cbn [value_of]. unfold acceleration_of, get. now rewrite Hh.
  - intros v. unfold fails. cbn [value_of]. unfold still_of, get. now rewrite Hh.
  - intros r v m d. apply (G (RelativeSpeed r v m d)). cbn [value_of]. unfold relative_speed_of.
    unfold relative_velocity. rewrite Hh, andb_false_r. destruct (added s n && added s m); reflexivity.
  - intros r v d free o' (m & ty & ->).
    apply (G (RelativeDistance r v EntityFrame d Undefined free (Obj m ty))).
    cbn [value_of]. unfold relative_distance_of. cbn [as_ref bind].
    destruct (added s n && is_added t (added s) (Obj m ty)); [|reflexivity].
    unfold relative_distance, box, world. rewrite Hh. cbn [andb].
    destruct free, d; reflexivity.
Qed.

Example C91_example :
  exists s, history demo_table initial
              [Start AddEntity (Sel 11 [] [Vehicle]); Start AddEntity (Obj 2 Pedestrian);
               Start DeleteEntity (Obj 1 Vehicle)] = Ok s /\
    map (added s) [0; 1; 2; 3] = [true; true; true; false] /\
    map (present s) [0; 1; 2; 3] = [true; false; true; false].
Proof. eexists. split; [reflexivity|]. split; reflexivity. Qed.

(** A selection that reaches a scenario object on two ways cannot be added at all. *)
Example C91_twice_example :
  objects demo_table (Sel 12 [Sel 11 [] [Vehicle]; Obj 0 Vehicle] []) = [0; 1; 0] /\
  start demo_table initial AddEntity (Sel 12 [Sel 11 [] [Vehicle]; Obj 0 Vehicle] []) = Throw.
Proof. split; reflexivity. Qed.

Print Assumptions C89_all.
Print Assumptions C89_all_false.
Print Assumptions C89_any.
Print Assumptions C89_without_errors.
Print Assumptions C89_error.
Print Assumptions C89_any_member_refuted.
Print Assumptions C89_none.
Print Assumptions C89_empty.
Print Assumptions C90_accepted.
Print Assumptions C90_reference.
Print Assumptions C90_triggering.
Print Assumptions C90_objects.
Print Assumptions C90_members_are_objects.
Print Assumptions C90_object_wins.
Print Assumptions C90_forward_reference_refuted.
Print Assumptions C91_add.
Print Assumptions C91_delete.
Print Assumptions C91_present_added.
Print Assumptions C91_add_once_refuted.
Print Assumptions C91_not_added.
Print Assumptions C91_deleted.
