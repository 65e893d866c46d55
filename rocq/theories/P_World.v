(** * Proofs about spawning and despawning. *)
From Coq Require Import String.
From Coq Require Import List Bool Arith QArith Lia Permutation.
From Verif Require Import M_World S_World.
Local Open Scope nat_scope.
Import ListNotations.

(** ** Association lists *)
Lemma find_in m : NoDup (names m) -> forall n e, find n m = Some e <-> In (n, e) m.
Proof.
  induction m as [| [k v] m IH]; intros D n e; simpl in *.
  - split; [discriminate | tauto].
  - inversion D as [| ? ? N D']; subst. destruct (String.eqb_spec k n) as [-> | K].
    + split.
      * intros [= ->]. now left.
      * intros [[= ->] | I]; [reflexivity |]. exfalso. apply N. unfold names.
        now apply (in_map fst) in I.
    + rewrite (IH D'). split; [now right |]. intros [[= -> _] | I]; [congruence | exact I].
Qed.
Lemma find_none m n : find n m = None <-> ~ In n (names m).
Proof.
  induction m as [| [k v] m IH]; simpl; [tauto |].
  destruct (String.eqb_spec k n) as [-> | K].
  - split; [discriminate | tauto].
  - rewrite IH. tauto.
Qed.
Lemma find_name m n e : find n m = Some e -> In n (names m).
Proof.
  intros F. destruct (in_dec string_dec n (names m)) as [I | I]; [exact I |].
  apply find_none in I. congruence.
Qed.
Lemma find_filter (f : string * entity -> bool) m : NoDup (names m) -> forall n,
  find n (filter f m) = match find n m with
                        | Some e => if f (n, e) then Some e else None
                        | None => None
                        end.
Proof.
  induction m as [| [k v] m IH]; intros D n; simpl in *; [reflexivity |].
  inversion D as [| ? ? N D']; subst. destruct (f (k, v)) eqn:F; simpl.
  - destruct (String.eqb_spec k n) as [<- | K]; [now rewrite F | now apply IH].
  - destruct (String.eqb_spec k n) as [<- | K]; [| now apply IH].
    rewrite F, IH by exact D'. now apply find_none in N as ->.
Qed.
Lemma names_filter f m : NoDup (names m) -> NoDup (names (filter f m)).
Proof.
  induction m as [| [k v] m IH]; intros D; simpl in *; [constructor |].
  inversion D as [| ? ? N D']; subst. destruct (f (k, v)); simpl; [| now apply IH].
  constructor; [| now apply IH]. intros I. apply N. unfold names in *.
  apply in_map_iff in I as ((k' & v') & <- & I). apply filter_In in I as [I _].
  now apply (in_map fst) in I.
Qed.
Lemma find_erase m n : NoDup (names m) -> forall x,
  find x (erase n m) = if String.eqb n x then None else find x m.
Proof.
  intros D x. unfold erase. rewrite find_filter by exact D. simpl.
  rewrite (String.eqb_sym x n). destruct (String.eqb n x), (find x m); reflexivity.
Qed.
Lemma names_move f m : names (move f m) = names m.
Proof.
  unfold names, move. rewrite map_map. apply map_ext. intros [n e].
  now destruct (f n e) as [[x y] z].
Qed.
Lemma find_move f m n :
  find n (move f m) = match find n m with
                      | None => None
                      | Some e => let '(a, b, c) := f n e in
                                  Some {| e_kind := e_kind e; e_x := a; e_y := b; e_z := c |}
                      end.
Proof.
  induction m as [| [k v] m IH]; simpl; [reflexivity |].
  destruct (f k v) as [[x y] z] eqn:F; simpl.
  destruct (String.eqb_spec k n) as [-> | K]; [now rewrite F | exact IH].
Qed.
Lemma any_ego_iff m : NoDup (names m) ->
  any_ego m = true <-> exists n e, find n m = Some e /\ e_kind e = Ego.
Proof.
  intros D. unfold any_ego. rewrite existsb_exists. split.
  - intros ([n e] & I & K). exists n, e. rewrite find_in by exact D. split; [exact I |].
    simpl in K. now destruct (e_kind e).
  - intros (n & e & F & K). exists (n, e). rewrite find_in in F by exact D. split; [exact F |].
    simpl. now rewrite K.
Qed.
Lemma ego_kind k : kind_eqb k Ego = true <-> k = Ego.
Proof. destruct k; simpl; split; congruence. Qed.
Lemma kind_eqb_eq a b : kind_eqb a b = true <-> a = b.
Proof. destruct a, b; simpl; split; congruence. Qed.

(** ** Name lists of the environment simulator *)
Lemma without_in n l x : In x (without n l) <-> In x l /\ x <> n.
Proof.
  unfold without. rewrite filter_In, negb_true_iff.
  destruct (String.eqb_spec x n); split; intros [A B]; split; congruence.
Qed.
Lemma without_length n l : length (without n l) <= length l.
Proof. induction l as [| a l IH]; simpl; [lia |]. destruct (negb (a =? n)%string); simpl; lia. Qed.
Lemma without_absent n l : ~ In n l -> without n l = l.
Proof.
  induction l as [| a l IH]; intros N; simpl in *; [reflexivity |].
  destruct (String.eqb_spec a n) as [-> | K]; [tauto |]. simpl. f_equal. apply IH. tauto.
Qed.
Lemma removed_iff n l : removed n l = true <-> In n l.
Proof.
  unfold removed. rewrite negb_true_iff, Nat.eqb_neq. split.
  - intros L. destruct (in_dec string_dec n l) as [I | I]; [exact I |].
    rewrite without_absent in L by exact I. congruence.
  - intros I. induction l as [| a l IH]; [destruct I |].
    simpl. destruct (String.eqb_spec a n) as [-> | K]; simpl.
    + pose proof (without_length n l). unfold without in *. lia.
    + destruct I as [-> | I]; [congruence |]. specialize (IH I). unfold without in *. lia.
Qed.
Lemma removed_false n l : removed n l = false <-> ~ In n l.
Proof. rewrite <- removed_iff. destruct (removed n l); split; congruence. Qed.
Lemma insert_status_in n l x : In x (insert_status n l) <-> x = n \/ In x l.
Proof.
  unfold insert_status. destruct (existsb (String.eqb n) l) eqn:E; simpl.
  - apply existsb_exists in E as (y & I & E). apply String.eqb_eq in E as <-.
    split; [tauto |]. intros [-> | A]; assumption.
  - split; intros [A | A]; auto.
Qed.
Lemma mem_in n l : mem n l = true <-> In n l.
Proof.
  unfold mem. rewrite existsb_exists. split.
  - intros (y & I & E). apply String.eqb_eq in E as <-. exact I.
  - intros I. exists n. split; [exact I | apply String.eqb_refl].
Qed.

(** What a removal does to the environment simulator. *)
Lemma sensor_despawn_spec n s s' b : sensor_despawn n s = (s', b) ->
  (b = true <-> exists k, In n (of_kind k s)) /\
  (forall k x, In x (of_kind k s') -> In x (of_kind k s)) /\
  (forall k x, In x (of_kind k s) -> x <> n -> In x (of_kind k s')) /\
  (forall x, In x (s_status s') -> In x (s_status s)) /\
  (forall x, In x (s_status s) -> x <> n -> In x (s_status s')) /\
  (b = true -> ~ In n (s_status s')) /\
  (In n (s_egos s) -> s_egos s' = without n (s_egos s) /\ s_ego_running s' = false) /\
  (~ In n (s_egos s) -> s_egos s' = s_egos s /\ s_ego_running s' = s_ego_running s) /\
  (forall k, In n (of_kind k s) -> (forall k', In n (of_kind k' s) -> k' = k) -> ~ In n (of_kind k s')) /\
  (forall k, NoDup (of_kind k s) -> NoDup (of_kind k s')).
Proof.
  unfold sensor_despawn.
  assert (W : forall l, NoDup l -> NoDup (without n l)) by (intros; now apply NoDup_filter).
  destruct (removed n (s_egos s)) eqn:E; [| destruct (removed n (s_vehicles s)) eqn:V;
    [| destruct (removed n (s_pedestrians s)) eqn:P; [| destruct (removed n (s_miscs s)) eqn:M]]];
    intros [= <- <-];
    repeat match goal with
           | H : removed _ _ = true |- _ => apply removed_iff in H
           | H : removed _ _ = false |- _ => apply removed_false in H
           end.
  - refine (conj _ (conj _ (conj _ (conj _ (conj _ (conj _ (conj _ (conj _ (conj _ _))))))))).
    + split; [intros _; now exists Ego | reflexivity].
    + intros [] x; simpl; rewrite ?without_in; tauto.
    + intros [] x; simpl; rewrite ?without_in; tauto.
    + intros x; simpl; rewrite without_in; tauto.
    + intros x; simpl; rewrite without_in; tauto.
    + intros _; simpl; rewrite without_in; tauto.
    + intros _; simpl; tauto.
    + tauto.
    + intros k I U. specialize (U Ego E). subst k. simpl. rewrite without_in. tauto.
    + intros [] D; simpl in *; auto.
  - refine (conj _ (conj _ (conj _ (conj _ (conj _ (conj _ (conj _ (conj _ (conj _ _))))))))).
    + split; [intros _; now exists Vehicle | reflexivity].
    + intros [] x; simpl; rewrite ?without_in; tauto.
    + intros [] x; simpl; rewrite ?without_in; tauto.
    + intros x; simpl; rewrite without_in; tauto.
    + intros x; simpl; rewrite without_in; tauto.
    + intros _; simpl; rewrite without_in; tauto.
    + tauto.
    + simpl; tauto.
    + intros k I U. specialize (U Vehicle V). subst k. simpl. rewrite without_in. tauto.
    + intros [] D; simpl in *; auto.
  - refine (conj _ (conj _ (conj _ (conj _ (conj _ (conj _ (conj _ (conj _ (conj _ _))))))))).
    + split; [intros _; now exists Pedestrian | reflexivity].
    + intros [] x; simpl; rewrite ?without_in; tauto.
    + intros [] x; simpl; rewrite ?without_in; tauto.
    + intros x; simpl; rewrite without_in; tauto.
    + intros x; simpl; rewrite without_in; tauto.
    + intros _; simpl; rewrite without_in; tauto.
    + tauto.
    + simpl; tauto.
    + intros k I U. specialize (U Pedestrian P). subst k. simpl. rewrite without_in. tauto.
    + intros [] D; simpl in *; auto.
  - refine (conj _ (conj _ (conj _ (conj _ (conj _ (conj _ (conj _ (conj _ (conj _ _))))))))).
    + split; [intros _; now exists Misc | reflexivity].
    + intros [] x; simpl; rewrite ?without_in; tauto.
    + intros [] x; simpl; rewrite ?without_in; tauto.
    + intros x; simpl; rewrite without_in; tauto.
    + intros x; simpl; rewrite without_in; tauto.
    + intros _; simpl; rewrite without_in; tauto.
    + tauto.
    + simpl; tauto.
    + intros k I U. specialize (U Misc M). subst k. simpl. rewrite without_in. tauto.
    + intros [] D; simpl in *; auto.
  - refine (conj _ (conj _ (conj _ (conj _ (conj _ (conj _ (conj _ (conj _ (conj _ _))))))))); auto.
    + split; [discriminate |]. intros ([] & I); simpl in I; tauto.
    + discriminate.
    + tauto.
    + intros [] I; simpl in I; tauto.
Qed.

(** ** The invariant *)
Definition unique_ego (m : entities) : Prop :=
  forall n e n' e', find n m = Some e -> find n' m = Some e' -> e_kind e = Ego -> e_kind e' = Ego -> n = n'.
Record SInv (m : entities) (s : sensor) : Prop :=
  { i_known : forall n e, find n m = Some e -> In n (s_status s) /\ In n (of_kind (e_kind e) s);
    i_ego : forall n, In n (s_egos s) -> exists e, find n m = Some e /\ e_kind e = Ego;
    i_running : s_egos s <> [] -> s_ego_running s = true;
    i_box : forall n, In n (s_status s) -> exists k, In n (of_kind k s) }.
Record Inv (w : world) : Prop :=
  { i_names : NoDup (names (manager w));
    i_unique : unique_ego (manager w);
    i_server : standalone w = false -> SInv (manager w) (server w) }.
Record Agree (m : entities) (s : sensor) : Prop :=
  { a_list : forall n k, In n (of_kind k s) -> exists e, find n m = Some e /\ e_kind e = k;
    a_status : forall n, In n (s_status s) -> find n m <> None;
    a_once : forall k, NoDup (of_kind k s) }.

Lemma initial_inv alone : Inv (initial alone).
Proof.
  constructor; simpl.
  - constructor.
  - intros n e n' e'; discriminate.
  - intros _. constructor; simpl.
    + discriminate.
    + tauto.
    + congruence.
    + tauto.
Qed.
Lemma initial_agree : Agree (manager (initial false)) (server (initial false)).
Proof.
  constructor; simpl.
  - intros n []; simpl; tauto.
  - tauto.
  - intros []; constructor.
Qed.

(** Removing a name from the manager. *)
Lemma unique_erase m n : NoDup (names m) -> unique_ego m -> unique_ego (erase n m).
Proof.
  intros D U x e x' e' F F' K K'. rewrite find_erase in F, F' by exact D.
  destruct (String.eqb n x); [discriminate |]. destruct (String.eqb n x'); [discriminate |].
  exact (U _ _ _ _ F F' K K').
Qed.
(** A failed reset: the manager forgets, the server does not. *)
Lemma sinv_forget m s n e : NoDup (names m) -> SInv m s -> find n m = Some e -> e_kind e <> Ego ->
  SInv (erase n m) s.
Proof.
  intros D S F K. constructor.
  - intros x v G. rewrite find_erase in G by exact D. destruct (String.eqb n x); [discriminate |].
    now apply (i_known _ _ S).
  - intros x I. destruct (i_ego _ _ S x I) as (v & G & J). exists v. split; [| exact J].
    rewrite find_erase by exact D. destruct (String.eqb_spec n x) as [<- | _]; [congruence | exact G].
  - exact (i_running _ _ S).
  - exact (i_box _ _ S).
Qed.
Lemma sinv_despawn m s n e s' b : NoDup (names m) -> unique_ego m -> SInv m s -> find n m = Some e ->
  sensor_despawn n s = (s', b) -> SInv (erase n m) s' /\ b = true.
Proof.
  intros D U S F E. destruct (sensor_despawn_spec _ _ _ _ E) as (B & L & L' & T & T' & T0 & G & G' & _).
  assert (B' : b = true).
  { apply B. exists (e_kind e). now apply (i_known _ _ S). }
  split; [| exact B']. constructor.
  - intros x v H. rewrite find_erase in H by exact D. destruct (String.eqb_spec n x) as [<- | N]; [discriminate |].
    destruct (i_known _ _ S _ _ H) as [A C]. split; [apply T' | apply L']; congruence.
  - intros x I. assert (I0 := I). apply (L Ego) in I. destruct (i_ego _ _ S _ I) as (v & H & K).
    exists v. split; [| exact K]. rewrite find_erase by exact D.
    destruct (String.eqb_spec n x) as [<- | N]; [| exact H]. exfalso.
    destruct (G I) as [G1 _]. rewrite G1, without_in in I0. tauto.
  - intros N. destruct (in_dec string_dec n (s_egos s)) as [I | I].
    + destruct (G I) as [G1 G2]. exfalso. apply N. rewrite G1.
      destruct (without n (s_egos s)) as [| x l] eqn:W; [reflexivity |]. exfalso.
      assert (X : In x (without n (s_egos s))) by (rewrite W; now left).
      apply without_in in X as [X Y].
      destruct (i_ego _ _ S _ X) as (v & H & K). destruct (i_ego _ _ S _ I) as (v' & H' & K').
      apply Y. exact (U _ _ _ _ H H' K K').
    + destruct (G' I) as [G1 G2]. rewrite G2. rewrite G1 in N. exact (i_running _ _ S N).
  - intros x I. assert (N : x <> n) by (intros ->; now apply (T0 B')).
    destruct (i_box _ _ S _ (T _ I)) as (k & J). exists k. now apply L'.
Qed.
Lemma agree_despawn m s n e s' b : NoDup (names m) -> SInv m s -> Agree m s ->
  find n m = Some e -> sensor_despawn n s = (s', b) -> Agree (erase n m) s'.
Proof.
  intros D S A F E. destruct (sensor_despawn_spec _ _ _ _ E) as (B & L & L' & T & T' & T0 & G & G' & X & O).
  assert (B' : b = true).
  { apply B. exists (e_kind e). now apply (i_known _ _ S). }
  constructor.
  - intros x k I. destruct (a_list _ _ A _ _ (L _ _ I)) as (v & H & K). exists v. split; [| exact K].
    rewrite find_erase by exact D. destruct (String.eqb_spec n x) as [<- | N]; [| exact H]. exfalso.
    rewrite H in F. injection F as ->. apply (X k).
    + rewrite <- K. now apply (i_known _ _ S).
    + intros k' J. destruct (a_list _ _ A _ _ J) as (v' & H' & K'). congruence.
    + exact I.
  - intros x I. rewrite find_erase by exact D. destruct (String.eqb_spec n x) as [<- | N].
    + exfalso. now apply (T0 B').
    + now apply (a_status _ _ A), T.
  - intros k. apply O, (a_once _ _ A).
Qed.
Lemma find_cons n e m x : find x ((n, e) :: m) = if String.eqb n x then Some e else find x m.
Proof. reflexivity. Qed.
Lemma sinv_spawn m s n e s' : SInv m s -> find n m = None -> sensor_spawn n (e_kind e) s = Some s' ->
  SInv ((n, e) :: m) s'.
Proof.
  intros S F E. constructor.
  - intros x v G. rewrite find_cons in G. destruct (String.eqb_spec n x) as [<- | N].
    + injection G as <-. unfold sensor_spawn in E. destruct (e_kind e) eqn:K; [destruct (s_egos s) eqn:Z; [| discriminate] | | |];
        injection E as <-; simpl; rewrite insert_status_in, ?in_app_iff; simpl; auto.
    + destruct (i_known _ _ S _ _ G) as [A B]. unfold sensor_spawn in E.
      destruct (e_kind e); [destruct (s_egos s) eqn:Z; [| discriminate] | | |];
        injection E as <-; simpl; (split; [apply insert_status_in; now right |]);
        destruct (e_kind v); simpl in *; rewrite ?Z, ?in_app_iff in *; simpl in *; tauto.
  - intros x I. destruct (kind_eqb (e_kind e) Ego) eqn:K.
    + apply ego_kind in K. unfold sensor_spawn in E. rewrite K in E.
      destruct (s_egos s) eqn:Z; [| discriminate]. injection E as <-. simpl in I.
      destruct I as [-> | []]. exists e. split; [| exact K].
      rewrite find_cons, String.eqb_refl. reflexivity.
    + assert (Q : s_egos s' = s_egos s).
      { unfold sensor_spawn in E. destruct (e_kind e); simpl in K; [discriminate | | |]; injection E as <-; reflexivity. }
      rewrite Q in I. destruct (i_ego _ _ S _ I) as (v & G & J). exists v. split; [| exact J].
      rewrite find_cons. destruct (String.eqb_spec n x) as [<- | N]; [congruence | exact G].
  - intros N. unfold sensor_spawn in E.
    destruct (e_kind e); [destruct (s_egos s) eqn:Z; [| discriminate] | | |];
      injection E as <-; simpl in *; try reflexivity; now apply (i_running _ _ S).
  - intros x I. unfold sensor_spawn in E.
    destruct (e_kind e); [destruct (s_egos s) eqn:Z; [| discriminate] | | |];
      injection E as <-; simpl in I; apply insert_status_in in I as [-> | I].
    all: try (match goal with |- exists k, In ?y (of_kind k ?s1) => idtac end).
    + exists Ego; simpl; now left.
    + destruct (i_box _ _ S _ I) as ([] & J); [exists Ego | exists Vehicle | exists Pedestrian | exists Misc];
        simpl in *; rewrite ?Z in *; simpl in *; tauto.
    + exists Vehicle; simpl; rewrite in_app_iff; simpl; tauto.
    + destruct (i_box _ _ S _ I) as ([] & J); [exists Ego | exists Vehicle | exists Pedestrian | exists Misc];
        simpl in *; rewrite ?in_app_iff in *; simpl in *; tauto.
    + exists Pedestrian; simpl; rewrite in_app_iff; simpl; tauto.
    + destruct (i_box _ _ S _ I) as ([] & J); [exists Ego | exists Vehicle | exists Pedestrian | exists Misc];
        simpl in *; rewrite ?in_app_iff in *; simpl in *; tauto.
    + exists Misc; simpl; rewrite in_app_iff; simpl; tauto.
    + destruct (i_box _ _ S _ I) as ([] & J); [exists Ego | exists Vehicle | exists Pedestrian | exists Misc];
        simpl in *; rewrite ?in_app_iff in *; simpl in *; tauto.
Qed.
Lemma nodup_snoc (l : list string) n : NoDup l -> ~ In n l -> NoDup (l ++ [n]).
Proof.
  intros D N. apply NoDup_rev in D. rewrite <- (rev_involutive (l ++ [n])). apply NoDup_rev.
  rewrite rev_app_distr. simpl. constructor; [now rewrite <- in_rev | exact D].
Qed.
Lemma agree_spawn m s n e s' : Agree m s -> find n m = None -> sensor_spawn n (e_kind e) s = Some s' ->
  Agree ((n, e) :: m) s'.
Proof.
  intros A F E.
  assert (Z : forall k x, In x (of_kind k s') -> (x = n /\ k = e_kind e) \/ In x (of_kind k s)).
  { intros k x I. unfold sensor_spawn in E.
    destruct (e_kind e); [destruct (s_egos s) eqn:Z; [| discriminate] | | |];
      injection E as <-; destruct k; simpl in *; rewrite ?in_app_iff in I; simpl in I; intuition. }
  assert (N : forall k, ~ In n (of_kind k s)).
  { intros k I. destruct (a_list _ _ A _ _ I) as (v & G & _). congruence. }
  constructor.
  - intros x k I. rewrite find_cons. destruct (Z _ _ I) as [[-> ->] | J].
    + exists e. now rewrite String.eqb_refl.
    + destruct (a_list _ _ A _ _ J) as (v & G & K). exists v.
      destruct (String.eqb_spec n x) as [<- | _]; [congruence | now split].
  - intros x I. rewrite find_cons. destruct (String.eqb_spec n x) as [<- | Q]; [discriminate |].
    apply (a_status _ _ A). unfold sensor_spawn in E.
    destruct (e_kind e); [destruct (s_egos s); [| discriminate] | | |];
      injection E as <-; simpl in I; apply insert_status_in in I as [-> | I]; congruence.
  - intros k. pose proof (a_once _ _ A k) as O. specialize (N k). unfold sensor_spawn in E.
    destruct (e_kind e); [destruct (s_egos s) eqn:Q; [| discriminate] | | |];
      injection E as <-; destruct k; simpl in *; auto using nodup_snoc.
    repeat constructor. tauto.
Qed.

(** ** Single operations *)
Lemma despawn_spec n w w' b : Inv w -> despawn n w = (w', b) ->
  manager w' = erase n (manager w) /\ standalone w' = standalone w /\
  (b = true <-> find n (manager w) <> None) /\ Inv w' /\
  (standalone w = false -> Agree (manager w) (server w) -> Agree (manager w') (server w')).
Proof.
  intros I E. unfold despawn, despawn_entity in E. destruct (find n (manager w)) as [e |] eqn:F.
  - destruct (standalone w) eqn:A.
    + injection E as <- <-. simpl. refine (conj eq_refl (conj _ (conj _ (conj _ _)))).
      * exact A.
      * split; [discriminate | reflexivity].
      * constructor; simpl.
        -- apply names_filter, (i_names _ I).
        -- now apply unique_erase; [apply (i_names _ I) | apply (i_unique _ I)].
        -- congruence.
      * congruence.
    + destruct (sensor_despawn n (server w)) as [s b'] eqn:D. injection E as <- <-.
      destruct (sinv_despawn _ _ _ _ _ _ (i_names _ I) (i_unique _ I) (i_server _ I A) F D) as [S ->].
      simpl. refine (conj eq_refl (conj A (conj _ (conj _ _)))).
      * split; [discriminate | reflexivity].
      * constructor; simpl; [apply names_filter, (i_names _ I) | | intros _; exact S].
        now apply unique_erase; [apply (i_names _ I) | apply (i_unique _ I)].
      * intros _ G. exact (agree_despawn _ _ _ _ _ _ (i_names _ I) (i_server _ I A) G F D).
  - injection E as <- <-. refine (conj _ (conj eq_refl (conj _ (conj I _)))).
    + unfold erase. apply find_none in F. clear -F. unfold names in F.
      induction (manager w) as [| [k v] m IH]; [reflexivity |].
      simpl in *. destruct (String.eqb_spec k n) as [-> | N]; [tauto |]. simpl. f_equal. tauto.
    + split; congruence.
    + tauto.
Qed.

(** A loop that despawns a selection of names leaves the rest, in whatever order it runs. *)
Lemma filter_filter (f g : string * entity -> bool) m : filter f (filter g m) = filter (fun p => g p && f p) m.
Proof.
  induction m as [| p m IH]; simpl; [reflexivity |]. destruct (g p); simpl; [| exact IH].
  destruct (f p); now rewrite IH.
Qed.

Lemma despawn_each_spec ns : forall w, NoDup ns -> Inv w -> (forall n, In n ns -> find n (manager w) <> None) ->
  exists w', despawn_each ns w = (w', true) /\
    manager w' = filter (fun p => negb (mem (fst p) ns)) (manager w) /\ standalone w' = standalone w /\ Inv w' /\
    (standalone w = false -> Agree (manager w) (server w) -> Agree (manager w') (server w')).
Proof.
  induction ns as [| n ns IH]; intros w D I K; cbn [despawn_each].
  - exists w. refine (conj eq_refl (conj _ (conj eq_refl (conj I _)))); [| tauto].
    clear. induction (manager w) as [| p m IHm]; [reflexivity |]. simpl in *. now rewrite <- IHm at 1.
  - destruct (despawn n w) as [w1 b] eqn:E.
    destruct (despawn_spec _ _ _ _ I E) as (M & A & B & I1 & G).
    assert (b = true) as -> by (apply B, K; now left).
    inversion D as [| ? ? N D']; subst.
    destruct (IH w1 D' I1) as (w' & E' & M' & A' & I' & G').
    { intros x J. rewrite M, find_erase by apply (i_names _ I).
      destruct (String.eqb_spec n x) as [<- | Q]; [congruence |]. apply K. now right. }
    exists w'. split; [exact E' |]. split; [| split; [congruence | split; [exact I' |]]].
    + rewrite M', M. unfold erase. rewrite filter_filter. apply filter_ext. intros [k v].
      unfold mem. simpl. now destruct (k =? n)%string.
    + intros S T. apply G'; [congruence | now apply G].
Qed.
Lemma despawn_all_spec w : Inv w ->
  exists w', despawn_all w = (w', true) /\ manager w' = [] /\ standalone w' = standalone w /\ Inv w' /\
    (standalone w = false -> Agree (manager w) (server w) -> Agree (manager w') (server w')).
Proof.
  intros I. destruct (despawn_each_spec (names (manager w)) w (i_names _ I) I) as (w' & E & M & R).
  - intros n J F. apply find_none in F. tauto.
  - exists w'. split; [exact E |]. split; [| exact R]. rewrite M.
    assert (X : forall m l, (forall n, In n (names m) -> In n l) ->
              filter (fun p => negb (mem (fst p) l)) m = []).
    { induction m as [| [k v] m IH]; intros l H; simpl; [reflexivity |].
      rewrite (proj2 (mem_in k l)) by (apply H; now left). simpl. apply IH. intros n J. apply H. now right. }
    now apply X.
Qed.

Lemma sink_each_spec k ns : forall w, NoDup ns -> Inv w -> (forall n, In n ns -> find n (manager w) <> None) ->
  exists w', sink_each k ns w = Some w' /\
    manager w' = filter (fun p => negb (mem (fst p) ns && sinkable k (snd p))) (manager w) /\
    standalone w' = standalone w /\ Inv w' /\
    (standalone w = false -> Agree (manager w) (server w) -> Agree (manager w') (server w')).
Proof.
  induction ns as [| n ns IH]; intros w D I K; cbn [sink_each].
  - exists w. refine (conj eq_refl (conj _ (conj eq_refl (conj I _)))); [| tauto].
    clear. induction (manager w) as [| p m IHm]; [reflexivity |]. simpl in *. now rewrite <- IHm at 1.
  - destruct (find n (manager w)) as [e |] eqn:F; [| exfalso; apply (K n); [now left | exact F]].
    inversion D as [| ? ? N D']; subst. destruct (sinkable k e) eqn:Q.
    + destruct (despawn n w) as [w1 b] eqn:E. simpl.
      destruct (despawn_spec _ _ _ _ I E) as (M & A & B & I1 & G).
      destruct (IH w1 D' I1) as (w' & E' & M' & A' & I' & G').
      { intros x J. rewrite M, find_erase by apply (i_names _ I).
        destruct (String.eqb_spec n x) as [<- | Z]; [congruence |]. apply K. now right. }
      exists w'. split; [exact E' |]. split; [| split; [congruence | split; [exact I' |]]].
      * rewrite M', M. unfold erase. rewrite filter_filter. apply filter_ext_in. intros [j v] J.
        unfold mem. simpl. destruct (String.eqb_spec j n) as [-> | Z]; [| reflexivity]. simpl.
        rewrite <- find_in, F in J by apply (i_names _ I). injection J as ->. now rewrite Q.
      * intros S T. apply G'; [congruence | now apply G].
    + destruct (IH w D' I) as (w' & E' & M' & A' & I' & G').
      { intros x J. apply K. now right. }
      exists w'. split; [exact E' |]. split; [| now split].
      rewrite M'. apply filter_ext_in. intros [j v] J. unfold mem. simpl.
      destruct (String.eqb_spec j n) as [-> | Z]; [| reflexivity]. simpl.
      rewrite <- find_in, F in J by apply (i_names _ I). injection J as ->. rewrite Q.
      now rewrite andb_false_r.
Qed.
Lemma run_sink_spec k w : Inv w ->
  exists w', run_sink k w = Some w' /\
    manager w' = filter (fun p => negb (sinkable k (snd p))) (manager w) /\ standalone w' = standalone w /\ Inv w' /\
    (standalone w = false -> Agree (manager w) (server w) -> Agree (manager w') (server w')).
Proof.
  intros I. destruct (sink_each_spec k (names (manager w)) w (i_names _ I) I) as (w' & E & M & R).
  - intros n J F. apply find_none in F. tauto.
  - exists w'. split; [exact E |]. split; [| exact R]. rewrite M.
    assert (X : forall m l, (forall n, In n (names m) -> In n l) ->
              filter (fun p => negb (mem (fst p) l && sinkable k (snd p))) m =
              filter (fun p => negb (sinkable k (snd p))) m).
    { induction m as [| [j v] m IH]; intros l H; simpl; [reflexivity |].
      rewrite (proj2 (mem_in j l)) by (apply H; now left). simpl. rewrite IH; [reflexivity |].
      intros n J. apply H. now right. }
    now apply X.
Qed.
Lemma sinkable_iff k e : sinkable k e = true <-> in_reach k e.
Proof.
  unfold sinkable, in_reach. destruct (existsb (kind_eqb (e_kind e)) (k_kinds k)) eqn:E; simpl.
  - rewrite andb_true_iff, !Qle_bool_iff. split; [| tauto]. intros H. split; [| exact H].
    apply existsb_exists in E as (j & I & J). apply kind_eqb_eq in J as ->. exact I.
  - split; [discriminate |]. intros [I _]. exfalso.
    assert (X : existsb (kind_eqb (e_kind e)) (k_kinds k) = true); [| congruence].
    apply existsb_exists. exists (e_kind e). split; [exact I | now apply kind_eqb_eq].
Qed.

(** ** One action: it keeps the invariants and does what the specification says. *)
Lemma spawn_entity_ok n e m :
  spawn_entity n e true m =
  if kind_eqb (e_kind e) Ego && any_ego m then None
  else match find n m with Some _ => None | None => Some ((n, e) :: m) end.
Proof. reflexivity. Qed.

Lemma inv_spawn_manager n e w : Inv w -> find n (manager w) = None ->
  (e_kind e = Ego -> any_ego (manager w) = false) ->
  NoDup (names ((n, e) :: manager w)) /\ unique_ego ((n, e) :: manager w).
Proof.
  intros I F K. split.
  - simpl. constructor; [now apply find_none | apply (i_names _ I)].
  - assert (X : forall x v, find x (manager w) = Some v -> e_kind v = Ego -> e_kind e = Ego -> False).
    { intros x v G J L. specialize (K L).
      assert (any_ego (manager w) = true); [| congruence].
      apply any_ego_iff; [apply (i_names _ I) | now exists x, v]. }
    intros x v x' v' G G' J J'. rewrite find_cons in G, G'.
    destruct (String.eqb_spec n x) as [<- | N]; destruct (String.eqb_spec n x') as [<- | N'].
    + reflexivity.
    + injection G as <-. exfalso. eauto.
    + injection G' as <-. exfalso. eauto.
    + exact (i_unique _ I _ _ _ _ G G' J J').
Qed.

Theorem act_spec a w w' o : Inv w -> act a w = (w', o) ->
  Inv w' /\ standalone w' = standalone w /\ effect (simulated w) a (simulated w') o /\
  ((forall n, a <> Reset n false) -> standalone w = false ->
   Agree (manager w) (server w) -> Agree (manager w') (server w')).
Proof.
  intros I E. pose proof (i_names _ I) as D. destruct a as [n e c | n | | n c | k | f]; simpl in E.
  - (* spawn *)
    unfold spawn, spawn_entity in E.
    destruct (kind_eqb (e_kind e) Ego && any_ego (manager w)) eqn:G.
    + injection E as <- <-. apply andb_true_iff in G as [K A]. apply ego_kind in K.
      refine (conj I (conj eq_refl (conj _ _))); [| tauto].
      apply SpawnSecondEgo; [exact K | | reflexivity]. now apply any_ego_iff in A.
    + destruct c; simpl in E.
      2: { injection E as <- <-. refine (conj I (conj eq_refl (conj _ _))); [| tauto].
           now apply SpawnUnbuildable. }
      destruct (find n (manager w)) eqn:F.
      * injection E as <- <-. refine (conj I (conj eq_refl (conj _ _))); [| tauto].
        apply SpawnTaken; [unfold simulated; congruence | reflexivity].
      * assert (K : e_kind e = Ego -> any_ego (manager w) = false).
        { intros J. rewrite (proj2 (ego_kind _) J) in G. exact G. }
        destruct (inv_spawn_manager n e w I F K) as [D' U'].
        assert (X : effect (simulated w) (Spawn n e true) (fun x => find x ((n, e) :: manager w)) (Returned true)).
        { apply SpawnFresh; [exact F | | intros x; reflexivity].
          intros J (x & v & H). specialize (K J).
          assert (any_ego (manager w) = true); [| congruence]. apply any_ego_iff; [exact D | now exists x, v]. }
        destruct (standalone w) eqn:A.
        -- injection E as <- <-. refine (conj _ (conj A (conj X _))); [| congruence].
           constructor; simpl; [exact D' | exact U' | congruence].
        -- destruct (sensor_spawn n (e_kind e) (server w)) as [s |] eqn:S.
           ++ injection E as <- <-. refine (conj _ (conj A (conj X _))).
              ** constructor; simpl; [exact D' | exact U' | intros _].
                 exact (sinv_spawn _ _ _ _ _ (i_server _ I A) F S).
              ** intros _ _ H. simpl. exact (agree_spawn _ _ _ _ _ H F S).
           ++ exfalso. unfold sensor_spawn in S. destruct (e_kind e) eqn:J; try discriminate.
              destruct (s_egos (server w)) as [| x l] eqn:L; [discriminate |].
              destruct (i_ego _ _ (i_server _ I A) x) as (v & H & V); [rewrite L; now left |].
              assert (any_ego (manager w) = true); [apply any_ego_iff; [exact D | now exists x, v] |].
              rewrite (K eq_refl) in H0. discriminate.
  - (* despawn *)
    destruct (despawn n w) as [w1 b] eqn:S. injection E as <- <-.
    destruct (despawn_spec _ _ _ _ I S) as (M & A & B & I' & G).
    refine (conj I' (conj A (conj _ _))); [| now intros _].
    destruct (find n (manager w)) eqn:F.
    + assert (b = true) as -> by (apply B; discriminate).
      apply DespawnKnown; [unfold simulated; congruence |]. intros x. unfold simulated.
      rewrite M. now apply find_erase.
    + assert (b = false) as -> by (destruct b; [exfalso; now apply (proj1 B) | reflexivity]).
      apply DespawnUnknown; [exact F |]. intros x. unfold simulated. rewrite M, find_erase by exact D.
      destruct (String.eqb_spec n x) as [<- | _]; congruence.
  - (* despawn all *)
    destruct (despawn_all_spec w I) as (w1 & S & M & A & I' & G). rewrite S in E. injection E as <- <-.
    refine (conj I' (conj A (conj _ _))); [| now intros _].
    apply DespawnEverything. intros x. unfold simulated. now rewrite M.
  - (* reset *)
    unfold reset_behavior in E. destruct (find n (manager w)) as [e |] eqn:F.
    2: { injection E as <- <-. refine (conj I (conj eq_refl (conj _ _))); [| tauto].
         apply ResetOther; [unfold simulated; congruence | reflexivity]. }
    assert (FE : find n (erase n (manager w)) = None).
    { rewrite find_erase by exact D. now rewrite String.eqb_refl. }
    assert (DE : NoDup (names (erase n (manager w)))) by now apply names_filter.
    assert (X : forall m w1 o1, e_kind e = Vehicle \/ e_kind e = Pedestrian ->
      m = spawn_entity n e c (erase n (manager w)) ->
      match m with
      | None => (with_manager (erase n (manager w)) w, Threw)
      | Some m => (with_manager m w, Returned true)
      end = (w1, o1) ->
      Inv w1 /\ standalone w1 = standalone w /\ effect (simulated w) (Reset n c) (simulated w1) o1 /\
      ((forall x, Reset n c <> Reset x false) -> standalone w = false ->
       Agree (manager w) (server w) -> Agree (manager w1) (server w1))).
    { intros m w1 o1 K M R. unfold spawn_entity in M.
      assert (NE : e_kind e <> Ego) by (destruct K; congruence).
      assert (kind_eqb (e_kind e) Ego = false) as Q by (destruct K as [-> | ->]; reflexivity).
      rewrite Q in M. simpl in M. destruct c; simpl in M; [rewrite FE in M |]; subst m; injection R as <- <-; simpl.
      - assert (Y : forall x, find x ((n, e) :: erase n (manager w)) = find x (manager w)).
        { intros x. rewrite find_cons, find_erase by exact D.
          destruct (String.eqb_spec n x) as [<- | _]; congruence. }
        refine (conj _ (conj eq_refl (conj _ _))).
        + constructor; simpl.
          * constructor; [now apply find_none | exact DE].
          * intros x v x' v' A A'. rewrite Y in A, A'. exact (i_unique _ I _ _ _ _ A A').
          * intros A. pose proof (i_server _ I A) as S. constructor.
            -- intros x v H. rewrite Y in H. now apply (i_known _ _ S).
            -- intros x H. destruct (i_ego _ _ S _ H) as (v & P1 & P2). exists v. now rewrite Y.
            -- exact (i_running _ _ S).
            -- exact (i_box _ _ S).
        + apply (ResetNpc _ n e); [exact F | exact K |]. intros x. unfold simulated. simpl manager. apply Y.
        + intros _ A G. constructor.
          * intros x k H. destruct (a_list _ _ G _ _ H) as (v & P1 & P2). exists v. now rewrite Y.
          * intros x H. rewrite Y. now apply (a_status _ _ G).
          * exact (a_once _ _ G).
      - refine (conj _ (conj eq_refl (conj _ _))).
        + constructor; simpl; [exact DE | apply unique_erase; [exact D | apply (i_unique _ I)] |].
          intros A. exact (sinv_forget _ _ _ _ D (i_server _ I A) F NE).
        + apply (ResetNpcLost _ n e); [exact F | exact K |]. intros x. unfold simulated. now apply find_erase.
        + intros H. exfalso. now apply (H n). }
    destruct (e_kind e) eqn:K.
    + injection E as <- <-. refine (conj I (conj eq_refl (conj _ _))); [| tauto].
      apply ResetOther; [| reflexivity]. intros v H. unfold simulated in H. left. congruence.
    + apply (X _ _ _ (or_introl eq_refl) eq_refl E).
    + apply (X _ _ _ (or_intror eq_refl) eq_refl E).
    + injection E as <- <-. refine (conj I (conj eq_refl (conj _ _))); [| tauto].
      apply ResetOther; [| reflexivity]. intros v H. unfold simulated in H. right. congruence.
  - (* sink *)
    destruct (run_sink_spec k w I) as (w1 & S & M & A & I' & G). rewrite S in E. injection E as <- <-.
    refine (conj I' (conj A (conj _ _))); [| now intros _].
    apply SinkRuns.
    + intros x v F R. unfold simulated in *. rewrite M, find_filter, F by exact D. simpl.
      now apply sinkable_iff in R as ->.
    + intros x v F R. unfold simulated in *. rewrite M, find_filter, F by exact D. simpl.
      destruct (sinkable k v) eqn:Q; [apply sinkable_iff in Q; contradiction | reflexivity].
    + intros x F. unfold simulated in *. now rewrite M, find_filter, F by exact D.
  - (* move *)
    injection E as <- <-. refine (conj _ (conj eq_refl (conj _ _))).
    + constructor; simpl.
      * now rewrite names_move.
      * intros x v x' v' F F' K K'. rewrite find_move in F, F'.
        destruct (find x (manager w)) as [u |] eqn:H; [| discriminate].
        destruct (find x' (manager w)) as [u' |] eqn:H'; [| discriminate].
        destruct (f x u) as [[? ?] ?], (f x' u') as [[? ?] ?]. injection F as <-. injection F' as <-.
        exact (i_unique _ I _ _ _ _ H H' K K').
      * intros A. pose proof (i_server _ I A) as S. constructor.
        -- intros x v F. rewrite find_move in F. destruct (find x (manager w)) as [u |] eqn:H; [| discriminate].
           destruct (f x u) as [[? ?] ?]. injection F as <-. simpl. now apply (i_known _ _ S).
        -- intros x H. destruct (i_ego _ _ S _ H) as (u & P1 & P2).
           destruct (f x u) as [[q1 q2] q3] eqn:Q. eexists. rewrite find_move, P1, Q. split; [reflexivity | exact P2].
        -- exact (i_running _ _ S).
        -- exact (i_box _ _ S).
    + apply Moved. intros x. unfold simulated. simpl manager. apply find_move.
    + intros _ A G. simpl. constructor.
      * intros x k H. destruct (a_list _ _ G _ _ H) as (u & P1 & P2).
        destruct (f x u) as [[q1 q2] q3] eqn:Q. eexists. rewrite find_move, P1, Q. split; [reflexivity | exact P2].
      * intros x H. rewrite find_move. pose proof (a_status _ _ G _ H) as N.
        destruct (find x (manager w)) as [u |]; [| congruence]. now destruct (f x u) as [[? ?] ?].
      * exact (a_once _ _ G).
Qed.

Lemma acts_spec xs : forall w w' os, Inv w -> acts xs w = (w', os) ->
  Inv w' /\ standalone w' = standalone w /\ effects (simulated w) xs (simulated w') os /\
  ((forall n, ~ In (Reset n false) xs) -> standalone w = false ->
   Agree (manager w) (server w) -> Agree (manager w') (server w')).
Proof.
  induction xs as [| a xs IH]; intros w w' os I E; simpl in E.
  - injection E as <- <-. refine (conj I (conj eq_refl (conj _ _))); [now constructor | tauto].
  - destruct (act a w) as [w1 o] eqn:A. destruct (acts xs w1) as [w2 os'] eqn:B. injection E as <- <-.
    destruct (act_spec _ _ _ _ I A) as (I1 & S1 & E1 & G1).
    destruct (IH _ _ _ I1 B) as (I2 & S2 & E2 & G2).
    refine (conj I2 (conj _ (conj _ _))).
    + congruence.
    + econstructor; eassumption.
    + intros N S G. apply G2; [| congruence |].
      * intros n H. apply (N n). now right.
      * apply G1; [| exact S | exact G]. intros n ->. apply (N n). now left.
Qed.
