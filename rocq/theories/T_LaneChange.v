(** * Lane change requests, the lanes they lead to and the choice of the curve. *)
From Coq Require Import List Bool Arith ZArith QArith Qabs Qround Lia Sorted.
From Verif Require Import M_LaneChange S_LaneChange.
Import ListNotations.
Local Open Scope Z_scope.

(** ** C196: requests *)

Lemma shifted_reach : forall left right d n l l',
  shifted left right n l d = Some l' <->
  reach (fun x => neighbour left right x d) n l l'.
Proof.
  intros left right d n l l'. revert l. induction n as [|n IH]; intros l; cbn [shifted].
  - split; [intros E; injection E as <-; constructor|intros H; inversion H; reflexivity].
  - split.
    + destruct (neighbour left right l d) as [x|] eqn:E; [|discriminate].
      intros H. apply IH in H. econstructor; eassumption.
    + intros H. inversion H; subst. rewrite H1. apply IH. assumption.
Qed.

Lemma reach_ext : forall f g n l l', (forall x, f x = g x) -> reach f n l l' -> reach g n l l'.
Proof.
  intros f g n l l' E H. induction H as [l|n l l1 l2 S H IH]; [constructor|].
  econstructor; [rewrite <- E; exact S|exact IH].
Qed.

Definition side_of (left right : Z -> option Z) (v : Z) : Z -> option Z :=
  if v <? 0 then right else left.

Lemma shift_value : forall left right v l l',
  Z.abs v < 256 ->
  (shift_by left right (lanes_of v) l (direction_of v) = Some l' <->
   reach (side_of left right v) (Z.to_nat (Z.abs v)) l l').
Proof.
  intros left right v l l' B. unfold lanes_of. rewrite Z.mod_small by lia.
  unfold side_of, direction_of. destruct (Z.ltb_spec v 0) as [N|N].
  - unfold shift_by. destruct (Z.to_nat (Z.abs v)) as [|n] eqn:E; [lia|].
    rewrite shifted_reach.
    split; apply reach_ext; reflexivity.
  - destruct (Z.eqb_spec v 0) as [->|P].
    + cbn. split; [intros E; injection E as <-; constructor|intros H; inversion H; reflexivity].
    + unfold shift_by. destruct (Z.to_nat (Z.abs v)) as [|n] eqn:E; [lia|].
      rewrite shifted_reach. split; apply reach_ext; reflexivity.
Qed.

Lemma from_lane : forall e r,
  let from := if Nat.eqb r (e_name e) then e_lane e
              else match e_others e r with None => None | Some l => l end in
  (forall l, from = Some l <-> lane_of e r l).
Proof.
  intros e r from l. subst from. destruct (Nat.eqb_spec r (e_name e)) as [->|N].
  - split; [apply Lane_own|]. intros H. inversion H; subst; [assumption|contradiction].
  - split.
    + destruct (e_others e r) as [[x|]|] eqn:E; try discriminate. intros H. injection H as ->.
      apply Lane_other; assumption.
    + intros H. inversion H; subst; [contradiction N; reflexivity|]. rewrite H1. reflexivity.
Qed.

(** A vehicle takes a request relative to an entity exactly when there are that many lanes on that side of the
    entity's lane, and then it is to change to the last of them, with the offset, shape and constraint of
    the action; otherwise the request is refused. *)
Theorem C196_relative : forall left right e reference v l o f c h p,
  e_kind e = Vehicle -> Z.abs v < 256 -> lane_of e reference l ->
  (request_value left right e reference v o f c h = Taken p <->
   exists l', reach (if v <? 0 then right else left) (Z.to_nat (Z.abs v)) l l' /\
   p = {| lane := l'; offset := o; form := f; limit := c; how := h |}) /\
  (~ (exists l', reach (if v <? 0 then right else left) (Z.to_nat (Z.abs v)) l l') ->
   request_value left right e reference v o f c h = Refused).
Proof.
  intros left right e r v l o f c h p K B L. apply from_lane in L.
  unfold request_value, request_relative. cbv zeta in *. rewrite L.
  pose proof (fun l' => shift_value left right v l l' B) as S. unfold side_of in S.
  destruct (shift_by left right (lanes_of v) l (direction_of v)) as [l'|].
  - unfold request_absolute, request. rewrite K. split.
    + split.
      * intros E. injection E as <-. exists l'. split; [apply S; reflexivity|reflexivity].
      * intros (l'' & R & ->). apply S in R. injection R as <-. reflexivity.
    + intros N. exfalso. apply N. exists l'. apply S. reflexivity.
  - split; [|reflexivity]. split; [discriminate|]. intros (l'' & R & _). apply S in R. discriminate.
Qed.

(** An entity that is not known or not on a lane is no reference. *)
Theorem C196_reference : forall left right e reference v o f c h,
  (forall l, ~ lane_of e reference l) ->
  request_value left right e reference v o f c h = Refused.
Proof.
  intros left right e r v o f c h N. unfold request_value, request_relative.
  pose proof (from_lane e r) as F. cbv zeta in *.
  destruct (if Nat.eqb r (e_name e) then e_lane e
            else match e_others e r with None => None | Some l => l end) as [l|]; [|reflexivity].
  exfalso. apply (N l). apply F. reflexivity.
Qed.

(** Zero lanes to either side is the reference's own lane. *)
Theorem C196_same : forall left right e reference l o f c h,
  e_kind e = Vehicle -> lane_of e reference l ->
  request_value left right e reference 0 o f c h =
  Taken {| lane := l; offset := o; form := f; limit := c; how := h |}.
Proof.
  intros left right e r l o f c h K L.
  apply (C196_relative left right e r 0 l o f c h _ K eq_refl L).
  exists l. split; [constructor|reflexivity].
Qed.

(** The number of lanes is counted modulo 256: on a road with one lane, a change by 256 lanes is accepted and
    leads to the same lane. *)
Theorem C196_far_refuted : exists e v o f c h p,
  e_kind e = Vehicle /\ lane_of e (e_name e) 7 /\
  (forall l', ~ reach (fun _ => None) (Z.to_nat (Z.abs v)) 7 l') /\
  request_value (fun _ => None) (fun _ => None) e (e_name e) v o f c h = Taken p /\ lane p = 7.
Proof.
  exists {| e_kind := Vehicle; e_name := 1; e_lane := Some 7; e_others := fun _ => None |}, 256, 0%Q,
    Cubic, Unconstrained, Force.
  eexists. split; [reflexivity|]. split; [apply Lane_own; reflexivity|]. split.
  - intros l' R. change (Z.to_nat (Z.abs 256)) with (S 255) in R. inversion R. discriminate.
  - split; reflexivity.
Qed.

(** A request by direction: the neighbouring lane on that side, to its middle; without one, or off the
    lanes, nothing happens and nobody is told. *)
Theorem C196_direction : forall left right e d,
  e_kind e = Vehicle ->
  (forall p, request_direction left right e d = Taken p <->
   exists l l', e_lane e = Some l /\
   match d with Straight => l' = l | Left => left l = Some l' | Right => right l = Some l' end /\
   p = {| lane := l'; offset := 0; form := Cubic; limit := Unconstrained; how := Force |}) /\
  request_direction left right e d <> Refused.
Proof.
  intros left right e d K. unfold request_direction. destruct (e_lane e) as [l|].
  - destruct (neighbour left right l d) as [l'|] eqn:N.
    + unfold request_lane, request. rewrite K. split; [|discriminate]. intros p. split.
      * intros E. injection E as <-. exists l, l'. split; [reflexivity|]. split; [|reflexivity].
        destruct d; cbn in N; congruence.
      * intros (x & x' & X & D & ->). injection X as <-. do 2 f_equal.
        destruct d; cbn in N; congruence.
    + split; [|discriminate]. intros p. split; [discriminate|].
      intros (x & x' & X & D & _). injection X as <-. destruct d; cbn in N; congruence.
  - split; [|discriminate]. intros p. split; [discriminate|]. intros (x & x' & X & _). discriminate.
Qed.

(** The same impossible change is refused in one form and ignored in the other. *)
Theorem C196_ignored_refuted : exists left right e o f c h,
  e_kind e = Vehicle /\
  request_direction left right e Left = Ignored /\
  request_value left right e (e_name e) 1 o f c h = Refused.
Proof.
  exists (fun _ => None), (fun _ => None),
    {| e_kind := Vehicle; e_name := 1; e_lane := Some 7; e_others := fun _ => None |}, 0%Q, Cubic,
    Unconstrained, Force.
  repeat split.
Qed.

(** A named lane is taken whether or not it can be reached; the ego vehicle refuses every named lane
    and pedestrians and objects ignore it. *)
Theorem C196_absolute : forall e l o f c h,
  request_absolute e l o f c h =
  match e_kind e with
  | Ego => Refused
  | Vehicle => Taken {| lane := l; offset := o; form := f; limit := c; how := h |}
  | Other => Ignored
  end.
Proof. intros e l o f c h. unfold request_absolute, request. destruct (e_kind e); reflexivity. Qed.

(** No request changes anything for an ego vehicle, a pedestrian or an object. *)
Theorem C196_kinds : forall left right e reference v d o f c h p,
  e_kind e <> Vehicle ->
  request_value left right e reference v o f c h <> Taken p /\
  request_direction left right e d <> Taken p.
Proof.
  intros left right e r v d o f c h p K. split.
  - unfold request_value, request_relative. cbv zeta.
    destruct (if Nat.eqb r (e_name e) then e_lane e
              else match e_others e r with None => None | Some l => l end); [|discriminate].
    destruct (shift_by _ _ _ _ _); [|discriminate]. rewrite C196_absolute.
    destruct (e_kind e); congruence.
  - unfold request_direction. destruct (e_lane e); [|discriminate].
    destruct (neighbour _ _ _ _); [|discriminate]. unfold request_lane, request.
    destruct (e_kind e); congruence.
Qed.

(** A road with four lanes, 1 on the left and 4 on the right. *)
Definition four_left (l : Z) : option Z := if (1 <? l) && (l <=? 4) then Some (l - 1) else None.
Definition four_right (l : Z) : option Z := if (1 <=? l) && (l <? 4) then Some (l + 1) else None.
Example C196_example :
  let e := {| e_kind := Vehicle; e_name := 1; e_lane := Some 2;
              e_others := fun n => if Nat.eqb n 2 then Some (Some 4) else None |} in
  let p l := {| lane := l; offset := 1; form := Line; limit := Time 3; how := BestEffort |} in
  lane_of e 2 4 /\
  request_value four_left four_right e 2 3 1 Line (Time 3) BestEffort = Taken (p 1) /\
  request_value four_left four_right e 2 (-1) 1 Line (Time 3) BestEffort = Refused /\
  request_value four_left four_right e 1 (-2) 1 Line (Time 3) BestEffort = Taken (p 4) /\
  request_value four_left four_right e 3 1 1 Line (Time 3) BestEffort = Refused.
Proof.
  cbv zeta. split; [apply Lane_other; [discriminate|reflexivity]|]. repeat split.
Qed.

(** ** C197: counting lane changes *)

Lemma member_in : forall l ls, member l ls = true <-> In l ls.
Proof.
  intros l ls. unfold member. rewrite existsb_exists. split.
  - intros (x & X & E). apply Z.eqb_eq in E. subst x. exact X.
  - intros H. exists l. split; [exact H|apply Z.eqb_refl].
Qed.

Lemma count_cons : forall next lefts rights l l' route c,
  count next lefts rights (l :: l' :: route) c =
  count next lefts rights (l' :: route)
    (if member l' (next l) then c
     else if member l' (lefts l) then (S (fst c), snd c)
     else if member l' (rights l) then (fst c, S (snd c)) else c).
Proof. reflexivity. Qed.

Lemma count_add : forall next lefts rights route c,
  count next lefts rights route c =
  ((fst c + fst (count next lefts rights route (0, 0)))%nat,
   (snd c + snd (count next lefts rights route (0, 0)))%nat).
Proof.
  intros next lefts rights. induction route as [|l route IH]; intros [a b].
  - cbn. rewrite !Nat.add_0_r. reflexivity.
  - destruct route as [|l' route].
    + cbn. rewrite !Nat.add_0_r. reflexivity.
    + change (count next lefts rights (l :: l' :: route) (a, b)) with
        (count next lefts rights (l' :: route)
           (if member l' (next l) then (a, b)
            else if member l' (lefts l) then (S a, b)
            else if member l' (rights l) then (a, S b) else (a, b))).
      change (count next lefts rights (l :: l' :: route) (0%nat, 0%nat)) with
        (count next lefts rights (l' :: route)
           (if member l' (next l) then (0%nat, 0%nat)
            else if member l' (lefts l) then (1%nat, 0%nat)
            else if member l' (rights l) then (0%nat, 1%nat) else (0%nat, 0%nat))).
      destruct (member l' (next l)); [|destruct (member l' (lefts l)); [|destruct (member l' (rights l))]];
        rewrite IH; [reflexivity|symmetry|symmetry|reflexivity]; rewrite IH; cbn [fst snd];
        rewrite ?Nat.add_0_l, ?Nat.add_0_r; f_equal; lia.
Qed.

(** Every change to a lane on the left is counted once on the left, every change to the right once
    on the right, and nothing else is counted. *)
Theorem C197_count : forall next lefts rights route a b,
  exclusive next lefts rights -> counted next lefts rights route a b ->
  count_lane_changes next lefts rights route = Some (a, b).
Proof.
  intros next lefts rights route a b X C.
  assert (count next lefts rights route (0%nat, 0%nat) = (a, b)) as E.
  { induction C as [l|l l' r a b N C IH|l l' r a b N C IH|l l' r a b N C IH]; [reflexivity| | |];
      destruct (X l l') as [X1 X2]; rewrite count_cons, count_add.
    - apply member_in in N. rewrite N. rewrite IH. reflexivity.
    - destruct (member l' (next l)) eqn:M.
      { apply member_in in M. exfalso. exact (proj1 (X1 M) N). }
      apply member_in in N. rewrite N, IH. reflexivity.
    - destruct (member l' (next l)) eqn:M.
      { apply member_in in M. exfalso. exact (proj2 (X1 M) N). }
      destruct (member l' (lefts l)) eqn:M'.
      { apply member_in in M'. exfalso. exact (X2 M' N). }
      apply member_in in N. rewrite N, IH. reflexivity. }
  unfold count_lane_changes. destruct route as [|l route]; [inversion C|]. rewrite E. reflexivity.
Qed.

(** No route, no number. *)
Theorem C197_none : forall next lefts rights route,
  count_lane_changes next lefts rights route = None <-> route = [].
Proof.
  intros next lefts rights route. unfold count_lane_changes.
  destruct route; split; intros E; reflexivity || discriminate.
Qed.

(** When the lanes of a road are numbered from right to left and every change is to a neighbouring lane,
    the changes to the left less those to the right are the difference of the numbers. *)
Theorem C197_offset : forall next lefts rights number route a b first rest,
  exclusive next lefts rights -> counted next lefts rights route a b -> route = first :: rest ->
  (forall l l', In l' (next l) -> number l' = number l) ->
  (forall l l', In l' (lefts l) -> number l' = number l + 1) ->
  (forall l l', In l' (rights l) -> number l' = number l - 1) ->
  exists a' b', count_lane_changes next lefts rights route = Some (a', b') /\
  Z.of_nat a' - Z.of_nat b' = number (last rest first) - number first.
Proof.
  intros next lefts rights number route a b first rest X C E N L R.
  exists a, b. split; [apply C197_count; assumption|].
  revert first rest E.
  induction C as [l|l l' r a b I C IH|l l' r a b I C IH|l l' r a b I C IH];
    intros first rest E; injection E as <- <-.
  - cbn. lia.
  - specialize (IH _ _ eq_refl). specialize (N _ _ I).
    replace (last (l' :: r) l) with (last r l'); [lia|].
    clear. revert l l'. induction r as [|x r IH]; intros; [reflexivity|].
    cbn [last]. destruct r; [reflexivity|]. exact (IH l l').
  - specialize (IH _ _ eq_refl). specialize (L _ _ I).
    replace (last (l' :: r) l) with (last r l'); [lia|].
    clear. revert l l'. induction r as [|x r IH]; intros; [reflexivity|].
    cbn [last]. destruct r; [reflexivity|]. exact (IH l l').
  - specialize (IH _ _ eq_refl). specialize (R _ _ I).
    replace (last (l' :: r) l) with (last r l'); [lia|].
    clear. revert l l'. induction r as [|x r IH]; intros; [reflexivity|].
    cbn [last]. destruct r; [reflexivity|]. exact (IH l l').
Qed.

(** lanelet2 lists all lanes on a side; a change over two lanes at once counts as one, so that the
    difference of the lanes is then not the count. *)
Theorem C197_two_refuted : exists next lefts rights number route,
  exclusive next lefts rights /\ route = [1; 3] /\
  (forall l l', In l' (lefts l) -> number l' > number l) /\
  number 3 = number 1 + 2 /\
  count_lane_changes next lefts rights route = Some (1%nat, 0%nat).
Proof.
  exists (fun _ => []), (fun l => if l =? 1 then [2; 3] else []), (fun _ => []), (fun l => l), [1; 3].
  split.
  { intros l l'. split; [intros []|]. intros _ []. }
  split; [reflexivity|]. split; [|split; reflexivity].
  intros l l'. destruct (Z.eqb_spec l 1); [intros [<-|[<-|[]]]; lia|intros []].
Qed.

Definition two_roads_next (l : Z) : list Z := if l <? 100 then [l + 100] else [].
Definition two_roads_lefts (l : Z) : list Z :=
  match four_left (l mod 100) with Some x => [l / 100 * 100 + x] | None => [] end.
Definition two_roads_rights (l : Z) : list Z :=
  match four_right (l mod 100) with Some x => [l / 100 * 100 + x] | None => [] end.
Lemma two_roads : forall l l',
  (In l' (two_roads_next l) -> l' = l + 100) /\
  (In l' (two_roads_lefts l) -> l' = l - 1 /\ 1 < l mod 100 <= 4) /\
  (In l' (two_roads_rights l) -> l' = l + 1 /\ 1 <= l mod 100 < 4).
Proof.
  intros l l'. unfold two_roads_next, two_roads_lefts, two_roads_rights, four_left, four_right.
  pose proof (Z.div_mod l 100 ltac:(lia)) as D. split; [|split].
  - destruct (l <? 100); [intros [<-|[]]; reflexivity|intros []].
  - destruct (Z.ltb_spec 1 (l mod 100)); cbn [andb]; [|intros []].
    destruct (Z.leb_spec (l mod 100) 4); [intros [<-|[]]; lia|intros []].
  - destruct (Z.leb_spec 1 (l mod 100)); cbn [andb]; [|intros []].
    destruct (Z.ltb_spec (l mod 100) 4); [intros [<-|[]]; lia|intros []].
Qed.
Example C197_example :
  exclusive two_roads_next two_roads_lefts two_roads_rights /\
  count_lane_changes two_roads_next two_roads_lefts two_roads_rights
    [3; 2; 102; 101; 102; 103; 104] = Some (2, 3)%nat /\
  counted two_roads_next two_roads_lefts two_roads_rights [3; 2; 102; 101; 102; 103; 104] 2 3 /\
  (let number l := - (l mod 100) in
   (forall l l', In l' (two_roads_next l) -> number l' = number l) /\
  (forall l l', In l' (two_roads_lefts l) -> number l' = number l + 1) /\
  (forall l l', In l' (two_roads_rights l) -> number l' = number l - 1)).
Proof.
  split.
  { intros l l'. pose proof (two_roads l l') as (A & B & C). split.
    - intros N. apply A in N. split; intros H; [apply B in H|apply C in H]; lia.
    - intros N. apply B in N. intros H. apply C in H. lia. }
  split; [reflexivity|]. split.
  { apply Counted_left; [left; reflexivity|]. apply Counted_ahead; [left; reflexivity|].
    apply Counted_left; [left; reflexivity|]. apply Counted_right; [left; reflexivity|].
    apply Counted_right; [left; reflexivity|]. apply Counted_right; [left; reflexivity|]. constructor. }
  cbv zeta. split; [|split]; intros l l' H; pose proof (two_roads l l') as (A & B & C).
  - apply A in H. subst l'. replace (l + 100) with (l + 1 * 100) by lia. rewrite Z_mod_plus_full.
    reflexivity.
  - apply B in H. destruct H as [-> H].
    rewrite <- (Z.mod_unique (l - 1) 100 (l / 100) (l mod 100 - 1)); [lia|lia|].
    pose proof (Z.div_mod l 100 ltac:(lia)). lia.
  - apply C in H. destruct H as [-> H].
    rewrite <- (Z.mod_unique (l + 1) 100 (l / 100) (l mod 100 + 1)); [lia|lia|].
    pose proof (Z.div_mod l 100 ltac:(lia)). lia.
Qed.

(** ** C198: the curve *)

Local Open Scope Q_scope.

Lemma tried_in : forall length s, In s (tried length) <-> (0 <= s)%Z /\ inject_Z s < length.
Proof.
  intros length s. unfold tried. rewrite in_map_iff. split.
  - intros (n & <- & H). apply in_seq in H. split; [lia|].
    assert (Z.of_nat n < Qceiling length)%Z as L by lia.
    destruct (Qlt_le_dec (inject_Z (Z.of_nat n)) length) as [Q|Q]; [exact Q|].
    exfalso. apply Qceiling_resp_le in Q. rewrite Qceiling_Z in Q. lia.
  - intros [P L]. exists (Z.to_nat s). split; [apply Z2Nat.id; exact P|]. apply in_seq.
    pose proof (Qle_ceiling length) as C.
    assert (inject_Z s < inject_Z (Qceiling length)) as Q by (eapply Qlt_le_trans; eassumption).
    rewrite <- Zlt_Qlt in Q. lia.
Qed.

Lemma admitted_spec : forall near sharp k,
  admitted near sharp k = true <-> near < ahead k /\ curvature k < sharp.
Proof.
  intros near sharp k. unfold admitted. rewrite andb_true_iff, !negb_true_iff. split.
  - intros [A B]. split; apply Qnot_le_lt; intros H; apply Qle_bool_iff in H; congruence.
  - intros [A B]. split; (match goal with |- ?b = false => destruct b eqn:E; [exfalso|reflexivity] end);
      apply Qle_bool_iff in E; (exact (Qlt_not_le _ _ A E) || exact (Qlt_not_le _ _ B E)).
Qed.

Lemma smallest_spec : forall l best,
  exists l1 l2, best :: l = (l1 ++ smallest best l :: l2)%list /\
  (forall x, In x l1 -> snd (fst (smallest best l)) < snd (fst x)) /\
  (forall x, In x l2 -> snd (fst (smallest best l)) <= snd (fst x)).
Proof.
  induction l as [|x l IH]; intros best; cbn [smallest].
  - exists [], []. split; [reflexivity|]. split; intros x [].
  - destruct (Qle_bool (snd (fst best)) (snd (fst x))) eqn:E.
    + apply Qle_bool_iff in E. destruct (IH best) as (l1 & l2 & A & B & C).
      destruct l1 as [|y l1]; cbn [app] in A.
      * injection A as A1 A2. exists [], (x :: l2). split; [cbn; rewrite <- A1, <- A2; reflexivity|].
        split; [intros y []|]. intros y [<-|Y]; [rewrite <- A1; exact E|exact (C y Y)].
      * injection A as <- A. exists (best :: x :: l1), l2.
        split; [exact (f_equal (fun t => best :: x :: t) A)|].
        pose proof (B best (or_introl eq_refl)) as L. split; [|exact C].
        intros y [<-|[<-|Y]]; [exact L|eapply Qlt_le_trans; eassumption|].
        apply B. right. exact Y.
    + assert (snd (fst x) < snd (fst best)) as L.
      { apply Qnot_le_lt. intros H. apply Qle_bool_iff in H. congruence. }
      destruct (IH x) as (l1 & l2 & A & B & C). exists (best :: l1), l2.
      split; [exact (f_equal (cons best) A)|]. split; [|exact C]. intros y [<-|Y]; [|exact (B y Y)].
      destruct l1 as [|z l1]; cbn [app] in A; injection A as A1 A2.
      * rewrite <- A1. exact L.
      * subst z. eapply Qlt_trans; [|exact L]. apply B. left. reflexivity.
Qed.

Lemma tried_sorted : forall length, StronglySorted Z.lt (tried length).
Proof.
  intros length. unfold tried. generalize 0%nat. 
  induction (Z.to_nat (Qceiling length)) as [|n IH]; intros i; cbn [seq map]; constructor; [apply IH|].
  apply Forall_forall. intros s S. apply in_map_iff in S. destruct S as (j & <- & J).
  apply in_seq in J. lia.
Qed.

Lemma filter_sorted : forall f l, StronglySorted Z.lt l -> StronglySorted Z.lt (filter f l).
Proof.
  intros f l S. induction S as [|x l S IH F]; [constructor|]. cbn [filter].
  destruct (f x); [|exact IH]. constructor; [exact IH|].
  apply Forall_forall. intros y Y. apply filter_In in Y. rewrite Forall_forall in F.
  apply F. exact (proj1 Y).
Qed.

Lemma sorted_split : forall l1 (x : Z) l2 y,
  StronglySorted Z.lt (l1 ++ x :: l2) -> In y (l1 ++ x :: l2) -> (y < x)%Z -> In y l1.
Proof.
  induction l1 as [|z l1 IH]; intros x l2 y S I L; cbn [app] in *.
  - inversion S; subst. rewrite Forall_forall in H2. destruct I as [<-|I]; [lia|].
    specialize (H2 y I). lia.
  - destruct I as [<-|I]; [left; reflexivity|right]. inversion S; subst. eapply IH; eassumption.
Qed.

Lemma free_choice : forall to length k s,
  free_curve to length = Some (k, s) <->
  k = to s /\ suitable to length s /\
  (forall s', suitable to length s' -> misfit (to s) <= misfit (to s')) /\
  (forall s', suitable to length s' -> (s' < s)%Z -> misfit (to s) < misfit (to s')).
Proof.
  intros to length k s.
  set (good := filter (fun s => admitted 1 10 (to s)) (tried length)).
  assert (forall x, In x good <-> suitable to length x) as G.
  { intros x. unfold good, suitable. rewrite filter_In, tried_in, admitted_spec. tauto. }
  assert (StronglySorted Z.lt good) as Srt by (apply filter_sorted, tried_sorted).
  assert (forall k s, free_curve to length = Some (k, s) ->
    k = to s /\ suitable to length s /\
    (forall s', suitable to length s' -> misfit (to s) <= misfit (to s')) /\
    (forall s', suitable to length s' -> (s' < s)%Z -> misfit (to s) < misfit (to s'))) as Fwd.
  { clear k s. intros k s E. unfold free_curve, candidates in E. fold good in E.
    destruct (map (fun s => (s, Qabs (20 - extent (to s)), to s)) good) as [|x l] eqn:M; [discriminate|].
    destruct (smallest_spec l x) as (l1 & l2 & A & B & C).
    destruct (smallest x l) as [[s0 m0] k0] eqn:Sm. injection E as <- <-. cbn [fst snd] in *.
    rewrite <- M in A.
    assert (forall t m c, In (t, m, c) (l1 ++ (s0, m0, k0) :: l2)%list ->
            In t good /\ m = misfit (to t) /\ c = to t) as F.
    { intros t m c I. rewrite <- A in I. apply in_map_iff in I. destruct I as (y & Y & I).
      injection Y as <- <- <-. split; [exact I|]. split; reflexivity. }
    destruct (F s0 m0 k0) as (I0 & M0 & K0); [apply in_or_app; right; left; reflexivity|].
    split; [exact K0|]. split; [apply G; exact I0|].
    assert (good = map (fun y => fst (fst y)) (l1 ++ (s0, m0, k0) :: l2)%list) as D.
    { rewrite <- A, map_map. cbn [fst]. symmetry. apply map_id. }
    assert (forall s', In s' good -> In (s', misfit (to s'), to s') (l1 ++ (s0, m0, k0) :: l2)%list) as H.
    { intros s' S'. rewrite D in S'. apply in_map_iff in S'. destruct S' as ([[t m] c] & <- & I).
      cbn [fst]. destruct (F t m c I) as (_ & <- & <-). exact I. }
    split.
    - intros s' S'. apply G in S'. specialize (H s' S'). apply in_app_or in H. rewrite <- M0.
      destruct H as [H|[H|H]].
      + apply Qlt_le_weak. exact (B _ H).
      + injection H as -> H _. rewrite <- M0. apply Qle_refl.
      + exact (C _ H).
    - intros s' S' L. apply G in S'. rewrite <- M0.
      rewrite D, map_app in Srt, S'. cbn [map fst] in Srt, S'.
      pose proof (sorted_split _ _ _ _ Srt S' L) as I. apply in_map_iff in I.
      destruct I as ([[t m] c] & <- & I). cbn [fst] in *.
      destruct (F t m c) as (_ & E & _); [apply in_or_app; left; exact I|]. rewrite <- E.
      exact (B _ I). }
  split; [apply Fwd|]. intros (-> & S & Min & Fst).
  destruct (free_curve to length) as [[k' s']|] eqn:E.
  - destruct (Fwd _ _ eq_refl) as (-> & S' & Min' & Fst').
    assert (s = s') as ->; [|reflexivity].
    destruct (Z.lt_trichotomy s s') as [L|[L|L]]; [|exact L|]; exfalso.
    + exact (Qlt_not_le _ _ (Fst' s S L) (Min s' S')).
    + exact (Qlt_not_le _ _ (Fst s' S' L) (Min' s S)).
  - exfalso. unfold free_curve, candidates in E. fold good in E. apply G in S.
    destruct good as [|y g]; [exact S|]. cbn [map] in E.
    destruct (smallest _ _) as [[? ?] ?]. discriminate.
Qed.

(** Without a constraint, the curve leads to the middle of the target lane at a whole metre; no suitable point gives a
    length closer to twenty metres, and those that are as close lie further on. *)
Theorem C198_best : forall length across to p k s,
  limit p = Unconstrained ->
  (trajectory true length across to p = Some (k, s) <->
   exists i, s = inject_Z i /\ k = to s 0 /\
   let toward := fun x => to (inject_Z x) 0 in
   suitable toward length i /\
   (forall i', suitable toward length i' -> misfit (toward i) <= misfit (toward i')) /\
   (forall i', suitable toward length i' -> (i' < i)%Z -> misfit (toward i) < misfit (toward i'))).
Proof.
  intros length across to p k s U. unfold trajectory. rewrite U. cbn [negb]. cbv zeta.
  split.
  - destruct (free_curve (fun s => to (inject_Z s) 0) length) as [[k' i]|] eqn:E; [|discriminate].
    cbn [option_map]. intros H. injection H as <- <-. apply free_choice in E.
    destruct E as (-> & S & A & B). exists i. repeat split; try reflexivity; assumption || apply S.
  - intros (i & -> & -> & S & A & B).
    assert (free_curve (fun s => to (inject_Z s) 0) length = Some (to (inject_Z i) 0, i)) as ->.
    { apply free_choice. repeat split; try reflexivity; assumption || apply S. }
    reflexivity.
Qed.

(** There is no curve only if no point is suitable. *)
Theorem C198_none : forall length across to p,
  limit p = Unconstrained ->
  (trajectory true length across to p = None <->
   forall i, ~ suitable (fun x => to (inject_Z x) 0) length i).
Proof.
  intros length across to p U. unfold trajectory. rewrite U. cbn [negb].
  set (toward := fun s => to (inject_Z s) 0).
  destruct (free_curve toward length) as [[k i]|] eqn:E; cbn [option_map].
  - apply free_choice in E. destruct E as (_ & S & _). split; [discriminate|].
    intros N. exfalso. exact (N i S).
  - split; [intros _|reflexivity]. intros i S.
    unfold free_curve, candidates in E.
    assert (In i (filter (fun s => admitted 1 10 (toward s)) (tried length))) as I.
    { apply filter_In. rewrite tried_in, admitted_spec. unfold suitable in S. tauto. }
    destruct (filter (fun s => admitted 1 10 (toward s)) (tried length)) as [|y g]; [exact I|].
    cbn [map] in E. destruct (smallest _ _) as [[? ?] ?]. discriminate.
Qed.

(** A lane that may not be changed to gives no curve. *)
Theorem C198_allowed : forall length across to p, trajectory false length across to p = None.
Proof. reflexivity. Qed.

(** With a constraint, the curve ends beside the point that lies the given distance along the entity's lane, or
    twenty metres if the constraint is a time or a lateral speed, at the offset of the target. *)
Theorem C198_distance : forall length across to p,
  limit p <> Unconstrained ->
  trajectory true length across to p =
  option_map (fun s => (to s (offset p), s))
    (across (match limit p with LongitudinalDistance d => d | _ => 20 end)).
Proof.
  intros length across to p U. unfold trajectory, bound_curve, change_distance. cbn [negb].
  destruct (limit p); [contradiction U; reflexivity| | |]; destruct (across _); reflexivity.
Qed.

(** Without a constraint the offset of the target has no effect. *)
Theorem C198_offset_refuted : forall length across to p p',
  limit p = Unconstrained -> limit p' = Unconstrained ->
  trajectory true length across to p = trajectory true length across to p'.
Proof.
  intros length across to p p' U U'. unfold trajectory. rewrite U, U'. reflexivity.
Qed.

Example C198_example :
  let to s (_ : Q) := {| ahead := s - 3; curvature := if Qle_bool s 8 then 12 else 1; extent := s |} in
  let p c := {| lane := 1; offset := 1; form := Cubic; limit := c; how := Force |} in
  trajectory true 30 (fun _ => None) to (p Unconstrained) = Some (to 20 0, 20) /\
  trajectory true 18 (fun _ => None) to (p Unconstrained) = Some (to 17 0, 17) /\
  trajectory true 8 (fun _ => None) to (p Unconstrained) = None /\
  trajectory true 30 (fun d => Some (d + 1)) to (p (Time 4)) = Some (to (20 + 1) 1, 20 + 1) /\
  suitable (fun x => to (inject_Z x) 0) 18 17.
Proof.
  cbv zeta. split; [reflexivity|]. split; [reflexivity|]. split; [reflexivity|].
  split; [reflexivity|]. split; [lia|]. repeat split; reflexivity.
Qed.

Print Assumptions C196_relative.
Print Assumptions C196_reference.
Print Assumptions C196_same.
Print Assumptions C196_far_refuted.
Print Assumptions C196_direction.
Print Assumptions C196_ignored_refuted.
Print Assumptions C196_absolute.
Print Assumptions C196_kinds.
Print Assumptions C197_count.
Print Assumptions C197_none.
Print Assumptions C197_offset.
Print Assumptions C197_two_refuted.
Print Assumptions C198_best.
Print Assumptions C198_none.
Print Assumptions C198_allowed.
Print Assumptions C198_distance.
Print Assumptions C198_offset_refuted.
