(** * Updating the entities: property theorems (C59). *)
From Coq Require Import String.
From Coq Require Import List Bool Permutation.
From Verif Require Import M_Update.
Import ListNotations.
Local Open Scope string_scope.

Section Lookup.
  Context {A : Type}.
  Implicit Type m : list (string * A).
  Lemma get_map {B} (f : string -> A -> B) m n :
    get n (map (fun p => (fst p, f (fst p) (snd p))) m) = option_map (f n) (get n m).
  Proof.
    induction m as [| [k v] m IH]; simpl; [reflexivity |].
    destruct (String.eqb_spec k n) as [-> | _]; [reflexivity | exact IH].
  Qed.
  Lemma get_filter n m x : get x (filter (fun p => negb (fst p =? n)) m) = if n =? x then None else get x m.
  Proof.
    induction m as [| [k v] m IH]; simpl; [now destruct (n =? x) |].
    destruct (String.eqb_spec k n) as [-> | K]; simpl.
    - rewrite IH. now destruct (n =? x).
    - destruct (String.eqb_spec k x) as [<- | _]; [| exact IH].
      rewrite String.eqb_sym. now destruct (String.eqb_spec k n).
  Qed.
  Lemma get_set n a m x : get x (set n a m) = if n =? x then option_map (fun _ => a) (get x m) else get x m.
  Proof.
    induction m as [| [k v] m IH]; simpl; [now destruct (n =? x) |].
    destruct (String.eqb_spec k n) as [-> | K]; simpl.
    - now destruct (String.eqb_spec n x) as [-> | _].
    - destruct (String.eqb_spec k x) as [<- | X]; [| exact IH].
      rewrite String.eqb_sym. now destruct (String.eqb_spec k n).
  Qed.
  Lemma names_set n a m : map fst (set n a m) = map fst m.
  Proof.
    induction m as [| [k v] m IH]; simpl; [reflexivity |].
    destruct (k =? n); simpl; [reflexivity | now rewrite IH].
  Qed.
  Lemma get_in m : NoDup (map fst m) -> forall n v, In (n, v) m <-> get n m = Some v.
  Proof.
    induction m as [| [k v] m IH]; intros D n w; simpl in *; [split; [tauto | discriminate] |].
    inversion D as [| ? ? N D']; subst. destruct (String.eqb_spec k n) as [-> | K].
    - split.
      + intros [[= ->] | I]; [reflexivity |]. exfalso. apply N. now apply (in_map fst) in I.
      + intros [= ->]. now left.
    - rewrite <- (IH D'). split; [| now right]. intros [[= -> _] | I]; [congruence | exact I].
  Qed.
  Lemma get_name m n : In n (map fst m) <-> get n m <> None.
  Proof.
    induction m as [| [k v] m IH]; simpl; [tauto |]. destruct (String.eqb_spec k n) as [-> | K].
    - split; [discriminate | now left].
    - rewrite <- IH. tauto.
  Qed.
  Lemma get_perm m m' : NoDup (map fst m) -> Permutation m m' -> forall n, get n m = get n m'.
  Proof.
    intros D P n. assert (D' : NoDup (map fst m')) by (eapply Permutation_NoDup; [apply Permutation_map, P | exact D]).
    destruct (get n m) as [v |] eqn:G.
    - symmetry. apply get_in; [exact D' |]. apply (Permutation_in _ P). now apply get_in.
    - destruct (get n m') as [v |] eqn:G'; [| reflexivity].
      apply get_in in G'; [| exact D']. apply (Permutation_in _ (Permutation_sym P)) in G'.
      apply get_in in G'; [congruence | exact D].
  Qed.
End Lookup.

Lemma minmax_cases a b : minmax a b = (a, b) \/ minmax a b = (b, a).
Proof. unfold minmax. destruct (b ?= a); auto. Qed.
Lemma minmax_sym a b : minmax a b = minmax b a.
Proof.
  unfold minmax. rewrite (String.compare_antisym b a). destruct (a ?= b) eqn:C; simpl; try reflexivity.
  apply String.compare_eq_iff in C. now subst.
Qed.
Lemma minmax_inj a b c d : minmax a b = minmax c d -> (a = c /\ b = d) \/ (a = d /\ b = c).
Proof.
  intros E. destruct (minmax_cases a b) as [A | A], (minmax_cases c d) as [C | C];
    rewrite A, C in E; injection E as -> ->; auto.
Qed.
Lemma pair_eqb (k k' : string * string) : ((fst k' =? fst k) && (snd k' =? snd k)) = true <-> k' = k.
Proof.
  rewrite andb_true_iff, !String.eqb_eq. destruct k, k'. simpl. split; [intros [-> ->]; reflexivity | intros [= -> ->]; auto].
Qed.

Section Simultaneous.
  Context {St Status Time Dist : Type}.
  Variable status_of : St -> Status.
  Variable distance : Status -> Status -> Dist.
  Variable on_update : string -> St -> (string -> option Status) -> (string -> string -> option Dist) -> Time -> St.
  Variable before_start : string -> St -> St.
  Notation entity := (entity St Status).
  Notation entities := (entities St Status).
  Notation update := (update status_of distance on_update before_start).
  Implicit Type m : entities.

  (** ** Specification: what an entity may know, as a function of the entities at one moment. *)
  Definition others_of m (n x : string) : option Status :=
    if n =? x then None else option_map (fun e => status_of (state e)) (get x m).
  Definition distances_of m (a b : string) : option Dist :=
    if a =? b then None
    else match get a m, get b m with
         | Some ea, Some eb => Some (distance (status_of (state ea)) (status_of (state eb)))
         | _, _ => None
         end.

  Lemma get_share all m n : get n (share all m) = option_map (set_other_status n all) (get n m).
  Proof. unfold share. apply (get_map (fun k e => set_other_status k all e)). Qed.
  Lemma names_share (all : list (string * Status)) m : map fst (share all m) = map fst m.
  Proof. unfold share. rewrite map_map. reflexivity. Qed.
  Lemma get_all m n : get n (all_status status_of m) = option_map (fun e => status_of (state e)) (get n m).
  Proof. unfold all_status. apply (get_map (fun _ e => status_of (state e))). Qed.
  Lemma names_all m : map fst (all_status status_of m) = map fst m.
  Proof. unfold all_status. rewrite map_map. reflexivity. Qed.

  (** *** Distances *)
  Hypothesis symmetric : forall x y, distance x y = distance y x.
  Lemma distances_from_keeps from all : forall d k v,
    get_pair k d = Some v -> get_pair k (distances_from distance from all d) = Some v.
  Proof.
    unfold distances_from. induction all as [| to all IH]; intros d k v G; simpl; [exact G |].
    apply IH. destruct (get_pair (minmax (fst from) (fst to)) d) eqn:E; [exact G |].
    destruct (fst from =? fst to); [exact G |]. cbn [get_pair].
    destruct ((fst (minmax (fst from) (fst to)) =? fst k) && (snd (minmax (fst from) (fst to)) =? snd k)) eqn:Q; [| exact G].
    apply pair_eqb in Q. congruence.
  Qed.
  (** Everything in the table is a distance between two different entities, of the right value. *)
  Definition sound (all : list (string * Status)) (d : list (string * string * Dist)) : Prop :=
    forall k v, get_pair k d = Some v ->
    exists a b, a <> b /\ k = minmax a b /\ exists x y, In (a, x) all /\ In (b, y) all /\ v = distance x y.
  Lemma distances_from_sound ALL from all : forall d, (forall p, In p all -> In p ALL) -> In from ALL ->
    sound ALL d -> sound ALL (distances_from distance from all d).
  Proof.
    unfold distances_from. induction all as [| to all IH]; intros d S F H; simpl; [exact H |].
    apply IH; [intros p P; apply S; now right | exact F |].
    destruct (get_pair (minmax (fst from) (fst to)) d) eqn:E; [exact H |].
    destruct (String.eqb_spec (fst from) (fst to)) as [_ | N]; [exact H |].
    intros k v G. cbn [get_pair] in G.
    destruct ((fst (minmax (fst from) (fst to)) =? fst k) && (snd (minmax (fst from) (fst to)) =? snd k)) eqn:Q;
      [| now apply H].
    apply pair_eqb in Q. injection G as <-. exists (fst from), (fst to). split; [exact N |]. split; [congruence |].
    exists (snd from), (snd to). rewrite <- !surjective_pairing. split; [exact F |]. split; [apply S; now left | reflexivity].
  Qed.
  Lemma distances_from_complete from all : forall d b, In b (map fst all) -> fst from <> b ->
    get_pair (minmax (fst from) b) (distances_from distance from all d) <> None.
  Proof.
    induction all as [| to all IH]; intros d b I N; [destruct I |].
    destruct I as [<- | I]; [| now apply IH].
    unfold distances_from. simpl. match goal with |- get_pair ?k (fold_left _ _ ?d1) <> None => assert (X : get_pair k d1 <> None) end.
    { destruct (get_pair (minmax (fst from) (fst to)) d) eqn:E; [congruence |].
      destruct (String.eqb_spec (fst from) (fst to)) as [Q | _]; [contradiction |]. cbn [get_pair].
      now rewrite !String.eqb_refl. }
    match type of X with get_pair ?k ?d1 <> None => destruct (get_pair k d1) as [v |] eqn:E; [| congruence];
      pose proof (distances_from_keeps from all d1 k v E) as Y end.
    unfold distances_from in Y. rewrite Y. discriminate.
  Qed.
  Lemma distances_spec all : NoDup (map fst all) -> forall a b x y,
    get a all = Some x -> get b all = Some y -> a <> b ->
    distance_of (distances distance all) a b = Some (distance x y).
  Proof.
    intros D a b x y A B N. unfold distance_of.
    assert (S : sound all (distances distance all)).
    { unfold distances. assert (G : forall l d, (forall p, In p l -> In p all) -> sound all d ->
        sound all (fold_left (fun d from => distances_from distance from all d) l d)).
      { induction l as [| f l IH]; intros d L H; simpl; [exact H |]. apply IH; [intros p P; apply L; now right |].
        apply distances_from_sound; auto. apply L. now left. }
      apply G; [auto |]. intros k v; discriminate. }
    assert (C : get_pair (minmax a b) (distances distance all) <> None).
    { unfold distances. assert (G : forall l d, In a (map fst l) \/ get_pair (minmax a b) d <> None ->
        get_pair (minmax a b) (fold_left (fun d from => distances_from distance from all d) l d) <> None).
      { induction l as [| f l IH]; intros d H; simpl; [destruct H as [[] | H]; exact H |].
        apply IH. destruct H as [[<- | H] | H]; [right | now left | right].
        - apply distances_from_complete; [| exact N]. apply get_name. congruence.
        - destruct (get_pair (minmax a b) d) as [v |] eqn:E; [| congruence].
          rewrite (distances_from_keeps _ _ _ _ _ E). discriminate. }
      apply G. left. apply get_name. congruence. }
    destruct (get_pair (minmax a b) (distances distance all)) as [v |] eqn:E; [| congruence].
    destruct (S _ _ E) as (c & d & _ & K & x' & y' & C' & D' & ->).
    apply get_in in C', D'; try exact D. apply minmax_inj in K as [[-> ->] | [-> ->]].
    - congruence.
    - rewrite symmetric. congruence.
  Qed.
  Lemma distances_none all a b : get a all = None \/ get b all = None \/ a = b -> NoDup (map fst all) ->
    distance_of (distances distance all) a b = None.
  Proof.
    intros H D. unfold distance_of.
    assert (S : sound all (distances distance all)).
    { unfold distances. assert (G : forall l d, (forall p, In p l -> In p all) -> sound all d ->
        sound all (fold_left (fun d from => distances_from distance from all d) l d)).
      { induction l as [| f l IH]; intros d L X; simpl; [exact X |]. apply IH; [intros p P; apply L; now right |].
        apply distances_from_sound; auto. apply L. now left. }
      apply G; [auto |]. intros k v; discriminate. }
    destruct (get_pair (minmax a b) (distances distance all)) as [v |] eqn:E; [| reflexivity]. exfalso.
    destruct (S _ _ E) as (c & d & N & K & x' & y' & C' & D' & _).
    apply get_in in C', D'; try exact D. apply minmax_inj in K as [[-> ->] | [-> ->]].
    - destruct H as [H | [H | H]]; congruence.
    - destruct H as [H | [H | H]]; congruence.
  Qed.

  (** *** The loop over the entities *)
  Lemma get_update_one started n t d m x :
    get x (update_one on_update before_start started n t d m) =
    if n =? x then
      option_map (fun e => {| state := if started then on_update n (state e) (fun y => get y (others e)) (distance_of d) t
                                       else before_start n (state e); others := others e |}) (get x m)
    else get x m.
  Proof.
    unfold update_one. destruct (get n m) as [e |] eqn:G.
    - rewrite get_set. destruct (String.eqb_spec n x) as [<- | _]; [now rewrite G | reflexivity].
    - destruct (String.eqb_spec n x) as [<- | _]; [now rewrite G | reflexivity].
  Qed.
  Lemma names_update_one started n t d m : map fst (update_one on_update before_start started n t d m) = map fst m.
  Proof. unfold update_one. destruct (get n m); [apply names_set | reflexivity]. Qed.
  Lemma names_fold started t d ns : forall m,
    map fst (fold_left (fun m n => update_one on_update before_start started n t d m) ns m) = map fst m.
  Proof. induction ns as [| n ns IH]; intros m; simpl; [reflexivity |]. now rewrite IH, names_update_one. Qed.
  Lemma get_fold started t d ns : forall m x, NoDup ns ->
    get x (fold_left (fun m n => update_one on_update before_start started n t d m) ns m) =
    if existsb (String.eqb x) ns then
      option_map (fun e => {| state := if started then on_update x (state e) (fun y => get y (others e)) (distance_of d) t
                                       else before_start x (state e); others := others e |}) (get x m)
    else get x m.
  Proof.
    induction ns as [| n ns IH]; intros m x D; simpl; [reflexivity |].
    inversion D as [| ? ? N D']; subst. rewrite IH by exact D'. rewrite get_update_one.
    rewrite (String.eqb_sym x n). destruct (String.eqb_spec n x) as [<- | Q]; simpl; [| reflexivity].
    destruct (existsb (String.eqb n) ns) eqn:E; [| reflexivity].
    apply existsb_exists in E as (y & I & E). apply String.eqb_eq in E as <-. contradiction.
  Qed.

  (** Behaviour depends on what it is told, not on how the tables are stored. *)
  Hypothesis extensional : forall n s o o' d d' t,
    (forall x, o x = o' x) -> (forall a b, d a b = d' a b) -> on_update n s o d t = on_update n s o' d' t.

  (** C59. All entities move simultaneously: each one's new state is a function of its own state and of
      the statuses and distances of all entities at the beginning of the frame; afterwards each knows the
      new statuses of all the others. *)
  Theorem C59_simultaneous t m n e : NoDup (map fst m) -> get n m = Some e ->
    exists e', get n (update true t m) = Some e' /\
      state e' = on_update n (state e) (others_of m n) (distances_of m) t /\
      (forall x, get x (others e') = others_of (update true t m) n x).
  Proof.
    intros D G. set (m1 := share (all_status status_of m) m).
    set (d := distances distance (all_status status_of m1)).
    assert (D1 : NoDup (map fst m1)) by (unfold m1; now rewrite names_share).
    set (m2 := fold_left (fun m n => update_one on_update before_start true n t d m) (map fst m1) m1).
    assert (E1 : get n m1 = Some (set_other_status n (all_status status_of m) e)).
    { unfold m1. rewrite get_share, G. reflexivity. }
    assert (M : existsb (String.eqb n) (map fst m1) = true).
    { apply existsb_exists. exists n. split; [| apply String.eqb_refl]. apply get_name. congruence. }
    change (update true t m) with (share (all_status status_of m2) m2).
    eexists. split; [| split].
    - rewrite get_share. unfold m2. rewrite get_fold, M, E1 by exact D1. simpl. reflexivity.
    - simpl. apply extensional.
      + intros x. rewrite get_filter. unfold others_of. now rewrite get_all.
      + intros a b.
        assert (A1 : forall y, get y (all_status status_of m1) = option_map (fun e => status_of (state e)) (get y m)).
        { intros y. rewrite get_all. unfold m1. rewrite get_share. now destruct (get y m). }
        assert (DA : NoDup (map fst (all_status status_of m1))) by now rewrite names_all.
        unfold distances_of, d. destruct (String.eqb_spec a b) as [<- | N].
        * apply distances_none; auto.
        * destruct (get a m) as [ea |] eqn:Ga; [| apply distances_none; [left; rewrite A1, Ga; reflexivity | exact DA]].
          destruct (get b m) as [eb |] eqn:Gb;
            [| apply distances_none; [right; left; rewrite A1, Gb; reflexivity | exact DA]].
          apply distances_spec; auto; rewrite A1, ?Ga, ?Gb; reflexivity.
    - intros x. cbn [others set_other_status]. rewrite get_filter. unfold others_of.
      rewrite get_all, get_share. fold m2. now destruct (get x m2).
  Qed.
  Theorem C59_names_kept started t m : map fst (update started t m) = map fst m.
  Proof. unfold M_Update.update. now rewrite names_share, names_fold, names_share. Qed.
  (** So the order in which the container happens to hold the entities does not matter. *)
  Theorem C59_order_irrelevant t m m' : NoDup (map fst m) -> Permutation m m' -> forall n,
    option_map (@state _ _) (get n (update true t m)) = option_map (@state _ _) (get n (update true t m')).
  Proof.
    intros D P n. assert (D' : NoDup (map fst m')) by (eapply Permutation_NoDup; [apply Permutation_map, P | exact D]).
    destruct (get n m) as [e |] eqn:G.
    - destruct (C59_simultaneous t m n e D G) as (e1 & H1 & H2 & _).
      rewrite (get_perm _ _ D P) in G.
      destruct (C59_simultaneous t m' n e D' G) as (e2 & K1 & K2 & _).
      rewrite H1, K1. simpl. f_equal. rewrite H2, K2. apply extensional.
      + intros x. unfold others_of. now rewrite (get_perm _ _ D P).
      + intros a b. unfold distances_of. now rewrite !(get_perm _ _ D P).
    - assert (X : get n (update true t m) = None).
      { destruct (get n (update true t m)) eqn:Q; [| reflexivity]. exfalso.
        assert (In n (map fst m)); [| apply get_name in H; congruence].
        rewrite <- (C59_names_kept true t). apply get_name. congruence. }
      assert (Y : get n (update true t m') = None).
      { rewrite (get_perm _ _ D P) in G. destruct (get n (update true t m')) eqn:Q; [| reflexivity]. exfalso.
        assert (In n (map fst m')); [| apply get_name in H; congruence].
        rewrite <- (C59_names_kept true t). apply get_name. congruence. }
      now rewrite X, Y.
  Qed.
  (** Before the start nothing moves. *)
  Theorem C59_not_started t m n : NoDup (map fst m) ->
    option_map (@state _ _) (get n (update false t m)) = option_map (fun e => before_start n (state e)) (get n m).
  Proof.
    intros D. unfold M_Update.update. rewrite get_share.
    set (m1 := share (all_status status_of m) m).
    assert (D1 : NoDup (map fst m1)) by (unfold m1; now rewrite names_share).
    rewrite get_fold by exact D1.
    destruct (existsb (String.eqb n) (map fst m1)) eqn:M.
    - unfold m1. rewrite get_share. now destruct (get n m).
    - assert (get n m = None) as Z.
      { destruct (get n m) eqn:Q; [| reflexivity]. exfalso.
        assert (existsb (String.eqb n) (map fst m1) = true); [| congruence].
        apply existsb_exists. exists n. split; [| apply String.eqb_refl].
        unfold m1. rewrite names_share. apply get_name. congruence. }
      unfold m1. rewrite get_share, Z. reflexivity.
  Qed.
End Simultaneous.

(** Three cars that each move to the sum of what they see: nobody sees a half-updated frame. *)
From Coq Require Import ZArith.
Definition look (n : string) (s : Z) (o : string -> option Z) (d : string -> string -> option Z) (_ : unit) : Z :=
  let v x := match o x with Some z => z | None => 0%Z end in
  let w := match d n "b" with Some z => z | None => 100%Z end in
  (v "a" + v "b" + v "c" + w)%Z.
Example C59_example :
  map (fun p => (fst p, state (snd p)))
    (update (fun z : Z => z) (fun x y => Z.abs (x - y)) look (fun _ s => s) true tt
      [("c", {| state := 5%Z; others := [] |}); ("a", {| state := 1%Z; others := [] |}); ("b", {| state := 3%Z; others := [] |})]) =
  [("c", 6%Z); ("a", 10%Z); ("b", 106%Z)].
Proof. reflexivity. Qed.
Example C59_hypotheses_met :
  (forall x y, Z.abs (x - y) = Z.abs (y - x)) /\
  forall n s o o' d d' t, (forall x, o x = o' x) -> (forall a b, d a b = d' a b) -> look n s o d t = look n s o' d' t.
Proof.
  split; [intros; rewrite <- Z.abs_opp; f_equal; ring |].
  intros n s o o' d d' t H K. unfold look. now rewrite !H, K.
Qed.

Print Assumptions C59_simultaneous.
Print Assumptions C59_order_irrelevant.
Print Assumptions C59_not_started.
