(** Distances along the road and the alternatives of a pose (C42, C65, C66). *)
From Coq Require Import ZArith QArith List Bool Lia Lqa.
From Verif Require Import M_Lane S_Lane P_Lane P_LaneWalk P_LaneRoute P_LaneDistance T_LanePose.
Import ListNotations.
Local Open Scope Q_scope.

(** ** C65: alternativeLaneletPoses *)

(** The alternatives of a pose with s >= 0 are places the same distance down the road, each over a
    chain of following lanelets; only one beyond the end of a road that ends stays off its
    lanelet. *)
Theorem alternatives_forward : forall m n p y q, (forall a, 0 < len m a) ->
  0 <= sval p -> alternatives m n p = Some y -> In q y ->
  offset q = offset p /\
  (on_lane m q \/ (len m (lane q) < sval q /\ next m (lane q) = [])) /\
  exists l, chain (follows m) (lane p) l (lane q) /\ ahead m p l q /\ (l = [lane p] \/ 0 < sval q).
Proof. intros m n p y q Hpos. apply alternatives_forth; auto. Qed.

(** ... and all of them are found. *)
Theorem alternatives_forward_complete : forall m n p y q l, (forall a, 0 < len m a) ->
  0 <= sval p -> alternatives m n p = Some y ->
  chain (follows m) (lane p) l (lane q) -> ahead m p l q -> on_lane m q ->
  offset q == offset p -> (l = [lane p] \/ 0 < sval q) ->
  exists q', In q' y /\ pose_eq q' q.
Proof. intros m n p y q l Hpos. apply alternatives_forth_all; auto. Qed.

(** The same up the road for s < 0. *)
Theorem alternatives_backward : forall m n p y q, (forall a, 0 < len m a) ->
  sval p < 0 -> alternatives m n p = Some y -> In q y ->
  offset q = offset p /\
  (on_lane m q \/ (sval q < 0 /\ previous m (lane q) = [])) /\ sval q < len m (lane q) /\
  exists l, chain (precedes m) (lane p) l (lane q) /\ behind m p l q.
Proof.
  intros m n p y q Hpos Hp. apply alternatives_back; auto. specialize (Hpos (lane p)); lra.
Qed.

Theorem alternatives_backward_complete : forall m n p y q l, (forall a, 0 < len m a) ->
  sval p < 0 -> alternatives m n p = Some y ->
  chain (precedes m) (lane p) l (lane q) -> behind m p l q -> 0 <= sval q ->
  offset q == offset p -> sval q < len m (lane q) ->
  exists q', In q' y /\ pose_eq q' q.
Proof.
  intros m n p y q l Hpos Hp. apply alternatives_back_all; auto. specialize (Hpos (lane p)); lra.
Qed.

(** The search ends on every road, loops included. *)
Theorem alternatives_always_end : forall m p, real_lengths m ->
  exists n y, alternatives m n p = Some y.
Proof.
  intros m p (e & He & Hl).
  destruct (Qlt_le_dec (sval p) 0) as [Hs | Hs].
  - destruct (enough e (- sval p) He) as (n & Hn). exists (S n).
    apply (alternatives_terminates m e); auto. right. specialize (Hl (lane p)). lra.
  - destruct (enough e (sval p) He) as (n & Hn). exists (S n).
    apply (alternatives_terminates m e); auto.
Qed.

(** There is none exactly when the pose is off a lanelet at which the road ends. *)
Theorem no_alternative : forall m n p y, (forall a, 0 < len m a) -> alternatives m n p = Some y ->
  (y = [] <-> (sval p < 0 /\ previous m (lane p) = []) \/
              (len m (lane p) < sval p /\ next m (lane p) = [])).
Proof.
  intros m n p y Hpos H. specialize (Hpos (lane p)). split.
  - intros ->. destruct (Qlt_le_dec (sval p) 0) as [Hs | Hs].
    + left. apply (alternatives_nil_back m n p); auto. lra.
    + right. apply (alternatives_nil_forth m n p); auto.
  - destruct n as [| n]; [discriminate|]. rewrite alternatives_eq in H.
    intros [(Hs & He) | (Hs & He)].
    + apply Qltb_true in Hs. rewrite Hs, He in H. inversion H; reflexivity.
    + assert (E : Qltb (sval p) 0 = false) by (apply Qltb_false; lra).
      apply Qltb_true in Hs. rewrite E, Hs, He in H. inversion H; reflexivity.
Qed.

Lemma linked_weaken : forall (R R' : id -> id -> Prop) l, (forall a b, R a b -> R' a b) ->
  linked R l -> linked R' l.
Proof.
  intros R R' l H; induction l as [| a [| b l] IH]; intros Hl; [exact I | exact I|].
  destruct Hl as (H1 & H2). split; [auto | apply IH; auto].
Qed.
(** The canonical form of a pose is one of its alternatives. *)
Theorem canonical_is_alternative : forall m n n' p q y, (forall a, 0 < len m a) ->
  canonicalize m n p = Canonical q -> alternatives m n' p = Some y ->
  exists q', In q' y /\ pose_eq q' q.
Proof.
  intros m n n' p q y Hpos Hc Hy.
  destruct (Qlt_le_dec (sval p) 0) as [Hs | Hs].
  - destruct (canonicalize_backward m n p q Hs Hc) as (Ho & E & l & H1 & H2 & H3).
    eapply (alternatives_backward_complete m n' p y q l); eauto.
    + destruct H1 as (A & B & C). split; [auto | split; [auto|]].
      eapply linked_weaken; [| exact C]. intros a b Hab. unfold first_previous in Hab. unfold precedes.
      destruct (previous m a); cbn in Hab; inversion Hab; left; auto.
    + apply Ho.
    + rewrite E; reflexivity.
  - destruct (canonicalize_forward m n p q Hs Hc) as (Ho & E & l & H1 & H2 & H3).
    eapply (alternatives_forward_complete m n' p y q l); eauto.
    + destruct H1 as (A & B & C). split; [auto | split; [auto|]].
      eapply linked_weaken; [| exact C]. intros a b Hab. unfold first_next in Hab. unfold follows.
      destruct (next m a); cbn in Hab; inversion Hab; left; auto.
    + rewrite E; reflexivity.
Qed.

(** A pose on its lanelet is its own only alternative. *)
Theorem on_lane_alternative : forall m n p, on_lane m p -> alternatives m (S n) p = Some [p].
Proof.
  intros m n p (H1 & H2). rewrite alternatives_eq.
  assert (E1 : Qltb (sval p) 0 = false) by (apply Qltb_false; auto).
  assert (E2 : Qltb (len m (lane p)) (sval p) = false) by (apply Qltb_false; auto).
  rewrite E1, E2; reflexivity.
Qed.

(** An alternative may lie off its lanelet: past a road's end it is reported all the same. *)
Definition C65_claim : Prop := forall m n p y q,
  real_lengths m -> consistent m -> alternatives m n p = Some y -> In q y -> on_lane m q.
Theorem alternatives_on_lane_refuted : ~ C65_claim.
Proof.
  intros H. destruct (H fork_road 3%nat {| lane := 1%Z; sval := 25; offset := 0 |}
    [{| lane := 2%Z; sval := 25 - 10; offset := 0 |}; {| lane := 3%Z; sval := 25 - 10; offset := 0 |}]
    {| lane := 2%Z; sval := 25 - 10; offset := 0 |} fork_real fork_consistent eq_refl
    (or_introl eq_refl)) as (_ & E). cbn in E. lra.
Qed.

Example alternatives_at_a_fork :
  alternatives fork_road 3 {| lane := 1%Z; sval := 12; offset := 1 |}
  = Some [{| lane := 2%Z; sval := 12 - 10; offset := 1 |};
          {| lane := 3%Z; sval := 12 - 10; offset := 1 |}].
Proof. reflexivity. Qed.

(** ** C66: the alternative nearest to where one comes from *)

Lemma shortest_alternative_spec : forall rt from l best,
  let q := shortest_alternative rt from best (rt from (lane best)) l in
  (q = best \/ In q l) /\
  (length (rt from (lane q)) <= length (rt from (lane best)))%nat /\
  forall p, In p l -> (length (rt from (lane q)) <= length (rt from (lane p)))%nat.
Proof.
  intros rt from; induction l as [| p l IH]; intros best; cbn zeta; cbn [shortest_alternative].
  - split; [auto | split; [lia | intros p []]].
  - destruct (Nat.ltb_spec (length (rt from (lane p))) (length (rt from (lane best)))).
    + destruct (IH p) as (H1 & H2 & H3).
      split; [right; destruct H1; [left; auto | right; auto]|].
      split; [lia|]. intros p' [<- | Hp']; auto.
    + destruct (IH best) as (H1 & H2 & H3).
      split; [destruct H1; [left; auto | right; right; auto]|].
      split; [lia|]. intros p' [<- | Hp']; auto. lia.
Qed.

(** The alternative chosen is one of those given, and the route to no other has fewer lanelets. *)
Theorem nearest_alternative : forall rt from l q,
  alternative_from rt from l = Some q ->
  In q l /\ forall p, In p l -> (length (rt from (lane q)) <= length (rt from (lane p)))%nat.
Proof.
  intros rt from [| p0 l] q H; [discriminate|]. unfold alternative_from in H.
  assert (E : q = shortest_alternative rt from p0 (rt from (lane p0)) (p0 :: l)) by congruence.
  destruct (shortest_alternative_spec rt from (p0 :: l) p0) as (H1 & H2 & H3). rewrite <- E in H1, H3.
  split; [destruct H1; [left; auto | auto] | exact H3].
Qed.
Theorem nearest_alternative_exists : forall rt from l, l <> [] ->
  exists q, alternative_from rt from l = Some q.
Proof. intros rt from [| p l] H; [congruence | eexists; reflexivity]. Qed.

(** Among alternatives that can all be reached it has the route of fewest lanelets, but an
    alternative that cannot be reached at all counts as the nearest. *)
Definition C66_claim : Prop := forall rt from l q,
  alternative_from rt from l = Some q -> (exists p, In p l /\ rt from (lane p) <> []) ->
  rt from (lane q) <> [].
Theorem unreachable_alternative_refuted : ~ C66_claim.
Proof.
  intros H.
  refine (H (fun a b => if (b =? 2)%Z then [1; 2]%Z else []) 1%Z
    [{| lane := 2%Z; sval := 0; offset := 0 |}; {| lane := 3%Z; sval := 0; offset := 0 |}]
    {| lane := 3%Z; sval := 0; offset := 0 |} eq_refl _ eq_refl).
  eexists; split; [left; reflexivity | discriminate].
Qed.

Example nearest_of_two :
  alternative_from (fun a b => if (b =? 2)%Z then [1; 4; 2]%Z else [1; 3]%Z) 1%Z
    [{| lane := 2%Z; sval := 0; offset := 0 |}; {| lane := 3%Z; sval := 5; offset := 0 |}]
  = Some {| lane := 3%Z; sval := 5; offset := 0 |}.
Proof. reflexivity. Qed.

(** ** C42: the longitudinal distance *)

Lemma accumulate_follows : forall m sv route acc,
  linked (follows m) route ->
  exists d, accumulate m sv route acc = Some d /\ d == acc + total m (removelast route).
Proof.
  intros m sv; induction route as [| a route IH]; intros acc H.
  - exists acc; split; [reflexivity | cbn; lra].
  - destruct route as [| b r].
    + exists acc; split; [reflexivity | cbn; lra].
    + destruct H as (H1 & H2). cbn [accumulate].
      assert (E : in_route (next m a) b = true) by (apply in_route_In; exact H1).
      rewrite E. destruct (IH (acc + len m a) H2) as (d & E1 & E2).
      exists d; split; [exact E1|]. rewrite removelast_cons by discriminate.
      cbn [total]. lra.
Qed.

(** When the route between the lanelets follows the lanes, the forward distance of two poses is
    what one travels along it: moving the first pose on by it leads, over the route, to the second.
    There is no forward distance exactly when the second pose lies behind the first. *)
Theorem forward_distance_is_travelled : forall m sv rt from to route,
  rt (lane from) (lane to) = route ->
  chain (follows m) (lane from) route (lane to) ->
  (forall d, forward_distance m sv rt from to = Some d ->
     0 <= d /\ ahead m (shifted from d) route to) /\
  (forall d, 0 <= d -> ahead m (shifted from d) route to ->
     exists d', forward_distance m sv rt from to = Some d' /\ d' == d).
Proof.
  intros m sv rt from to route Hr Hc. unfold forward_distance. rewrite Hr.
  pose proof (chain_nonempty _ _ _ _ Hc) as Hne.
  destruct Hc as (_ & _ & Hc).
  destruct (accumulate_follows m sv route 0 Hc) as (a & Ea & Eq).
  rewrite Ea. destruct route as [| r0 route]; [congruence|]. cbn [orb].
  unfold ahead. cbn [sval shifted]. split.
  - intros d H. destruct (Qle_bool 0 (a - sval from + sval to)) eqn:E; [| discriminate].
    apply Qle_bool_iff in E. inversion H; subst. split; [auto | lra].
  - intros d Hd H.
    assert (E : Qle_bool 0 (a - sval from + sval to) = true) by (apply Qle_bool_iff; lra).
    rewrite E. eexists; split; [reflexivity | lra].
Qed.

Lemma last_any : forall (l : list id) d d', l <> [] -> List.last l d = List.last l d'.
Proof.
  induction l as [| a [| b l] IH]; intros d d' H; [congruence | reflexivity|].
  change (List.last (b :: l) d = List.last (b :: l) d'). apply IH. discriminate.
Qed.

(** A survey of the road: [station a] is how far along the road lanelet [a] begins. It agrees with
    the map if a following lanelet begins where the one before ends, and if positions on
    neighbouring lanelets that are level with each other have the same station. *)
Definition surveyed (m : road) (sv : id -> id * Q -> option Q) (station : id -> Q) : Prop :=
  (forall a b, In b (next m a) -> station b == station a + len m a) /\
  (forall a b s x, sv a (b, s) = Some x -> station a + x == station b + s).
Definition level (m : road) (sv : id -> id * Q -> option Q) (a b : id) : Prop :=
  In b (next m a) \/ exists c d s x, (c = a /\ d = b \/ c = b /\ d = a) /\
    (s = 0 \/ s = (if Qle_bool (len m a) (len m b) then len m a else len m b) * (1 # 2)) /\
    sv c (d, s) = Some x.

Lemma lane_change_station : forall m sv station a b x, surveyed m sv station ->
  lane_change_distance m sv a b = Some x -> x == station b - station a.
Proof.
  intros m sv station a b x (_ & H) E. unfold lane_change_distance in E.
  destruct (sv a (b, 0)) as [y|] eqn:E1.
  { apply H in E1. injection E as <-. lra. }
  destruct (sv b (a, 0)) as [y|] eqn:E2.
  { apply H in E2. injection E as <-. lra. }
  match type of E with match sv a (b, ?mid) with _ => _ end = _ => set (middle := mid) in * end.
  destruct (sv a (b, middle)) as [y|] eqn:E3.
  { apply H in E3. injection E as <-. lra. }
  destruct (sv b (a, middle)) as [y|] eqn:E4; [|discriminate].
  apply H in E4. injection E as <-. lra.
Qed.
Lemma lane_change_found : forall m sv a b c d s x,
  (c = a /\ d = b \/ c = b /\ d = a) ->
  (s = 0 \/ s = (if Qle_bool (len m a) (len m b) then len m a else len m b) * (1 # 2)) ->
  sv c (d, s) = Some x -> lane_change_distance m sv a b <> None.
Proof.
  intros m sv a b c d s x O S0 E. unfold lane_change_distance.
  match goal with |- context [sv a (b, ?mid)] =>
    match mid with 0 => fail 1 | _ => set (middle := mid) in * end end.
  destruct (sv a (b, 0)) eqn:E1; [discriminate|].
  destruct (sv b (a, 0)) eqn:E2; [discriminate|].
  destruct (sv a (b, middle)) eqn:E3; [discriminate|].
  destruct (sv b (a, middle)) eqn:E4; [discriminate|].
  destruct O as [(-> & ->) | (-> & ->)]; destruct S0 as [-> | ->]; congruence.
Qed.
Lemma accumulate_station : forall m sv station route acc, surveyed m sv station ->
  (forall d, accumulate m sv route acc = Some d ->
     d == acc + station (last route 0%Z) - station (hd 0%Z route)) /\
  (linked (level m sv) route -> accumulate m sv route acc <> None).
Proof.
  intros m sv station; induction route as [| a route IH]; intros acc H.
  - split; [intros d [= <-]; cbn; lra | discriminate].
  - destruct route as [| b r].
    + split; [intros d [= <-]; cbn; lra | discriminate].
    + change (last (a :: b :: r) 0%Z) with (last (b :: r) 0%Z).
      cbn [accumulate hd].
      destruct (in_route (next m a) b) eqn:E.
      * apply in_route_In in E. pose proof (proj1 H a b E) as Es.
        destruct (IH (acc + len m a) H) as (I1 & I2). split.
        -- intros d Ed. apply I1 in Ed. cbn [hd] in Ed. lra.
        -- intros (_ & L). now apply I2.
      * destruct (lane_change_distance m sv a b) as [x|] eqn:Ex.
        -- pose proof (lane_change_station m sv station a b x H Ex) as Es.
           destruct (IH (acc + x) H) as (I1 & I2). split.
           ++ intros d Ed. apply I1 in Ed. cbn [hd] in Ed. lra.
           ++ intros (_ & L). now apply I2.
        -- split; [discriminate|]. intros (L & _) _.
           destruct L as [L | (c & d & s & x & L1 & L2 & L3)].
           ++ apply in_route_In in L. congruence.
           ++ now apply (lane_change_found m sv a b c d s x L1 L2 L3).
Qed.

(** On a surveyed road the forward distance is the difference of the stations of the two poses,
    also over lane changes; there is one exactly when the second is not behind the first, provided
    that each change along the route is between lanelets with positions level with each other. *)
Theorem distance_over_lane_changes : forall m sv rt station from to route,
  surveyed m sv station -> rt (lane from) (lane to) = route ->
  chain (level m sv) (lane from) route (lane to) ->
  (forall d, forward_distance m sv rt from to = Some d ->
     0 <= d /\ d == (station (lane to) + sval to) - (station (lane from) + sval from)) /\
  (station (lane from) + sval from <= station (lane to) + sval to ->
     exists d, forward_distance m sv rt from to = Some d).
Proof.
  intros m sv rt station from to route H Hr Hc. unfold forward_distance. rewrite Hr.
  pose proof (chain_nonempty _ _ _ _ Hc) as Hne. destruct Hc as (Hh & Hl & Hk).
  destruct (accumulate_station m sv station route 0 H) as (A1 & A2).
  specialize (A2 Hk).
  destruct (accumulate m sv route 0) as [acc|]; [| congruence].
  specialize (A1 acc eq_refl).
  assert (E1 : hd 0%Z route = lane from) by (destruct route; [congruence | cbn in *; congruence]).
  assert (E2 : last route 0%Z = lane to) by (rewrite <- Hl; now apply last_any).
  rewrite E1, E2 in A1.
  destruct route as [| r0 route]; [congruence|]. cbn [orb]. split.
  - intros d E. destruct (Qle_bool 0 (acc - sval from + sval to)) eqn:Q0; [| discriminate].
    apply Qle_bool_iff in Q0. injection E as <-. split; [exact Q0 | lra].
  - intros L. assert (Q0 : Qle_bool 0 (acc - sval from + sval to) = true) by (apply Qle_bool_iff; lra).
    rewrite Q0. eauto.
Qed.

(** There is none without a route, unless both are on one lanelet. *)
Theorem no_route_no_distance : forall m sv rt from to,
  rt (lane from) (lane to) = [] -> lane from <> lane to ->
  forward_distance m sv rt from to = None.
Proof.
  intros m sv rt from to Hr Hl. unfold forward_distance. rewrite Hr.
  destruct (Z.eqb_spec (lane from) (lane to)); [congruence | reflexivity].
Qed.

Lemma forward_nonneg : forall m sv rt from to d,
  forward_distance m sv rt from to = Some d -> 0 <= d.
Proof.
  intros m sv rt from to d H. unfold forward_distance in H.
  destruct (_ || _); [| discriminate]. destruct (accumulate _ _ _ _); [| discriminate].
  destruct (Qle_bool 0 _) eqn:E; [| discriminate]. apply Qle_bool_iff in E.
  inversion H; subst; auto.
Qed.

(** Moving along the route by the forward distance arrives at the pose it was measured to. *)
Theorem driving_the_distance_arrives : forall m sv rt from to d route, (forall a, 0 < len m a) ->
  rt (lane from) (lane to) = route -> no_fork m route ->
  chain (follows m) (lane from) route (lane to) ->
  forward_distance m sv rt from to = Some d ->
  0 <= sval from -> on_lane m to -> 0 < sval to -> offset to == offset from ->
  exists n q, along_route m route n from d = Some q /\ pose_eq q to.
Proof.
  intros m sv rt from to d route Hpos Hr Hf Hc Hd Hs Ht Ht0 Ho.
  pose proof (forward_distance_is_travelled m sv rt from to route Hr Hc) as (H & _).
  apply H in Hd. destruct Hd as (Hd & Ha).
  destruct (route_canonicalize_finds m route (shifted from d) to route) as (n & q & E & Eq); auto.
  - cbn; lra.
  - cbn [lane shifted]. destruct Hc as (A & B & C). split; [auto | split; [auto|]].
    clear - C. assert (G : forall l, (forall x, In x l -> In x route) -> linked (follows m) l ->
                          linked (fun a b => follows m a b /\ In b route) l).
    { induction l as [| a [| b l] IH]; intros Hi Hl; [exact I | exact I|].
      destruct Hl as (H1 & H2). split; [split; [auto | apply Hi; right; left; auto]|].
      apply IH; auto. intros x Hx; apply Hi; right; auto. }
    apply G; auto.
  - exists n, q. split; auto. unfold along_route.
    change (at_lane from (lane from) (sval from + d)) with (shifted from d). rewrite E. reflexivity.
Qed.

(** The longitudinal distance is defined when one of the two ways exists; its absolute value is the
    shorter one, and it is negative only when the way from the other pose is shorter. *)
Theorem distance_is_the_shorter_way : forall m sv rt from to,
  let t := target_pose rt from to in
  let there := forward_distance m sv rt (main from) t in
  let back := forward_distance m sv rt t (main from) in
  match longitudinal_distance m sv rt from to with
  | None => there = None /\ back = None
  | Some d =>
      (there = Some d /\ 0 <= d /\ (forall y, back = Some y -> d <= y)) \/
      (exists x, back = Some x /\ d = - x /\ d <= 0 /\ (forall y, there = Some y -> x < y))
  end.
Proof.
  intros m sv rt from to t there back. unfold longitudinal_distance. fold t.
  fold there back. destruct there as [x|] eqn:Ex, back as [y|] eqn:Ey; cbn [signed].
  - apply forward_nonneg in Ey as Hy. apply forward_nonneg in Ex as Hx.
    destruct (Qltb y x) eqn:E.
    + apply Qltb_true in E. right. exists y. split; [auto|]. split; [auto|]. split; [lra|].
      intros z Hz; inversion Hz; subst; auto.
    + apply Qltb_false in E. left. split; [auto|]. split; [auto|].
      intros z Hz; inversion Hz; subst; auto.
  - apply forward_nonneg in Ex as Hx. left. split; [auto|]. split; [auto|]. discriminate.
  - apply forward_nonneg in Ey as Hy. right. exists y. split; [auto|]. split; [auto|].
    split; [lra|]. discriminate.
  - auto.
Qed.

(** No alternative poses: the pose is where it says. *)
Definition plain (c : cpose) : Prop := (length (alts c) <= 1)%nat.
Lemma target_plain : forall rt from to, plain to -> target_pose rt from to = main to.
Proof.
  intros rt from to H. unfold target_pose, plain in *.
  destruct (Nat.ltb_spec 1 (length (alts to))); [lia | reflexivity].
Qed.

(** Measured from the other end the distance changes its sign, unless the ways there and back are
    equally long: then both distances are positive. *)
Theorem distance_antisymmetric : forall m sv rt a b x, plain a -> plain b ->
  longitudinal_distance m sv rt a b = Some x ->
  exists y, longitudinal_distance m sv rt b a = Some y /\
    (y == - x \/
     exists u v, forward_distance m sv rt (main a) (main b) = Some u /\
                 forward_distance m sv rt (main b) (main a) = Some v /\ u == v /\ x == u /\ y == u).
Proof.
  intros m sv rt a b x Ha Hb H. unfold longitudinal_distance in *.
  rewrite (target_plain rt a b Hb) in H. rewrite (target_plain rt b a Ha).
  destruct (forward_distance m sv rt (main a) (main b)) as [u|] eqn:Eu,
           (forward_distance m sv rt (main b) (main a)) as [v|] eqn:Ev; cbn [signed] in *.
  - destruct (Qltb v u) eqn:E1, (Qltb u v) eqn:E2; inversion H; subst.
    + apply Qltb_true in E1, E2. lra.
    + eexists; split; [reflexivity | left; lra].
    + eexists; split; [reflexivity | left; lra].
    + apply Qltb_false in E1, E2. eexists; split; [reflexivity|]. right.
      exists x, v. repeat split; auto; lra.
  - inversion H; subst. eexists; split; [reflexivity | left; lra].
  - inversion H; subst. eexists; split; [reflexivity | left; lra].
  - discriminate.
Qed.

(** ... and it is defined from one end when it is from the other. *)
Theorem distance_defined_both_ways : forall m sv rt a b, plain a -> plain b ->
  (longitudinal_distance m sv rt a b = None <-> longitudinal_distance m sv rt b a = None).
Proof.
  assert (G : forall m sv rt a b, plain a -> plain b ->
    longitudinal_distance m sv rt a b = None -> longitudinal_distance m sv rt b a = None).
  { intros m sv rt a b Ha Hb H. destruct (longitudinal_distance m sv rt b a) as [x|] eqn:E; auto.
    destruct (distance_antisymmetric m sv rt b a x Hb Ha E) as (y & E' & _). congruence. }
  intros; split; apply G; auto.
Qed.

(** Two poses of one lanelet are as far apart as their coordinates say; a pose is at distance zero
    from itself. *)
Theorem distance_on_one_lanelet : forall m sv rt a b, plain b ->
  lane (main a) = lane (main b) ->
  (rt (lane (main a)) (lane (main a)) = [] \/
   rt (lane (main a)) (lane (main a)) = [lane (main a)]) ->
  exists d, longitudinal_distance m sv rt a b = Some d /\ d == sval (main b) - sval (main a).
Proof.
  intros m sv rt a b Hb Hl Hr. unfold longitudinal_distance. rewrite target_plain by auto.
  unfold forward_distance. rewrite <- !Hl, Z.eqb_refl, orb_true_r.
  assert (E : accumulate m sv (rt (lane (main a)) (lane (main a))) 0 = Some 0).
  { destruct Hr as [-> | ->]; reflexivity. }
  rewrite E.
  destruct (Qle_bool 0 (0 - sval (main a) + sval (main b))) eqn:E1,
           (Qle_bool 0 (0 - sval (main b) + sval (main a))) eqn:E2; cbn [signed].
  - apply Qle_bool_iff in E1, E2. destruct (Qltb _ _) eqn:E3.
    + apply Qltb_true in E3. lra.
    + eexists; split; [reflexivity | lra].
  - eexists; split; [reflexivity | lra].
  - eexists; split; [reflexivity | lra].
  - apply Qle_bool_false in E1, E2. lra.
Qed.

(** Forward distances add up along a route that goes on over the lanes. *)
Theorem distances_add_up : forall m sv rt a b c l1 l2 x y,
  rt (lane a) (lane b) = l1 -> rt (lane b) (lane c) = l2 -> rt (lane a) (lane c) = l1 ++ tl l2 ->
  chain (follows m) (lane a) l1 (lane b) -> chain (follows m) (lane b) l2 (lane c) ->
  forward_distance m sv rt a b = Some x -> forward_distance m sv rt b c = Some y ->
  exists z, forward_distance m sv rt a c = Some z /\ z == x + y.
Proof.
  intros m sv rt a b c l1 l2 x y H1 H2 H3 C1 C2 E1 E2.
  pose proof (forward_distance_is_travelled m sv rt a b l1 H1 C1) as (F1 & _).
  pose proof (forward_distance_is_travelled m sv rt b c l2 H2 C2) as (F2 & _).
  apply F1 in E1. apply F2 in E2. destruct E1 as (Hx & A1), E2 as (Hy & A2).
  destruct l2 as [| b' l2]; [destruct C2 as (C2 & _); discriminate|].
  assert (b' = lane b) by (destruct C2 as (C2 & _); inversion C2; auto). subst b'.
  cbn [tl] in H3.
  assert (Hch : chain (follows m) (lane a) (l1 ++ l2) (lane c)).
  { clear - C1 C2. revert C1. generalize (lane a) as a0. induction l1 as [| a1 l1 IH]; intros a0 C1.
    - destruct C1 as (C1 & _); discriminate.
    - apply chain_inv in C1. destruct C1 as [(C & E) | (b1 & l' & E & Hf & C)].
      + inversion C; subst. cbn. exact C2.
      + inversion E; subst. cbn. eapply chain_cons; eauto. }
  pose proof (forward_distance_is_travelled m sv rt a c (l1 ++ l2) H3 Hch) as (_ & F3).
  destruct (F3 (x + y)) as (z & E & Ez); [lra | | eauto].
  unfold ahead in *. cbn [shifted sval] in *.
  assert (T : total m (removelast (l1 ++ l2)) == total m (removelast l1) + total m (removelast (lane b :: l2))).
  { destruct l2 as [| b2 l2].
    - rewrite app_nil_r. cbn. lra.
    - rewrite removelast_app by discriminate. rewrite (removelast_cons (lane b)) by discriminate.
      rewrite total_app. cbn [total].
      destruct C1 as (C1 & L1 & _).
      assert (N : l1 <> []) by (intros ->; discriminate).
      assert (S1 : total m l1 == total m (removelast l1) + len m (lane b)).
      { rewrite <- L1. rewrite (total_split m l1 (lane a) N). lra. }
      lra. }
  lra.
Qed.

(** The distance with adjacent lanelets is one of those between the candidate poses, and none of
    them is closer. *)
Lemma closer_fold : forall l best,
  let r := fold_left closer l best in
  (r = best \/ In r l) /\
  (forall y, In (Some y) (best :: l) -> exists x, r = Some x /\ Qabs_ x <= Qabs_ y) /\
  (r = None -> best = None).
Proof.
  induction l as [| d l IH]; intros best; cbn.
  - split; [auto|]. split; [| auto]. intros y [-> | []]. exists y; split; [auto | lra].
  - destruct (IH (closer best d)) as (H1 & H2 & H3). cbn in H1, H2, H3.
    assert (Hc : closer best d = best \/ closer best d = d).
    { destruct d as [x|]; cbn; [| auto]. destruct best as [y|]; [| auto].
      destruct (Qltb _ _); auto. }
    assert (Hm : forall y, best = Some y \/ d = Some y ->
               exists x, closer best d = Some x /\ Qabs_ x <= Qabs_ y).
    { intros y Hy. destruct d as [x|], best as [z|]; cbn.
      - destruct (Qltb (Qabs_ x) (Qabs_ z)) eqn:E.
        + apply Qltb_true in E. exists x; split; [auto|].
          destruct Hy as [Hy | Hy]; inversion Hy; subst; lra.
        + apply Qltb_false in E. exists z; split; [auto|].
          destruct Hy as [Hy | Hy]; inversion Hy; subst; lra.
      - destruct Hy as [Hy | Hy]; inversion Hy; subst. exists y; split; [auto | lra].
      - destruct Hy as [Hy | Hy]; inversion Hy; subst. exists y; split; [auto | lra].
      - destruct Hy; discriminate. }
    split; [| split].
    + destruct H1 as [H1 | H1]; [rewrite H1; destruct Hc as [-> | ->]; auto | auto].
    + intros y Hy.
      assert (Hy' : (best = Some y \/ d = Some y) \/ In (Some y) l) by tauto.
      destruct Hy' as [Hy' | Hy'].
      * destruct (Hm y Hy') as (x & E & Hx).
        destruct (H2 x) as (z & E' & Hz); [left; exact E|].
        exists z; split; [exact E' | lra].
      * apply H2; auto.
    + intros Hr. apply H3 in Hr. destruct best as [z|]; [| auto].
      destruct (Hm z (or_introl eq_refl)) as (x & E & _). congruence.
Qed.

Theorem adjacent_distance_is_closest : forall m sv rt froms tos,
  match adjacent_distance m sv rt froms tos with
  | None => forall f t, In f froms -> In t tos -> longitudinal_distance m sv rt f t = None
  | Some x =>
      (exists f t, In f froms /\ In t tos /\ longitudinal_distance m sv rt f t = Some x) /\
      (forall f t y, In f froms -> In t tos -> longitudinal_distance m sv rt f t = Some y ->
         Qabs_ x <= Qabs_ y)
  end.
Proof.
  intros m sv rt froms tos. unfold adjacent_distance.
  set (l := flat_map _ _).
  assert (Hl : forall d, In d l <-> exists f t, In f froms /\ In t tos /\ longitudinal_distance m sv rt f t = d).
  { intros d. unfold l. rewrite in_flat_map. split.
    - intros (f & Hf & H). apply in_map_iff in H. destruct H as (t & Ht & H). eauto.
    - intros (f & t & Hf & Ht & H). exists f; split; auto. apply in_map_iff; eauto. }
  destruct (closer_fold l None) as (H1 & H2 & _). cbn zeta in H1, H2.
  destruct (fold_left closer l None) as [x|].
  - split.
    + destruct H1 as [H1 | H1]; [discriminate|]. apply Hl in H1. exact H1.
    + intros f t y Hf Ht E. destruct (H2 y) as (x' & E' & Hx).
      * right. apply Hl. eauto.
      * inversion E'; subst; auto.
  - intros f t Hf Ht. destruct (longitudinal_distance m sv rt f t) as [y|] eqn:E; auto.
    destruct (H2 y) as (x & E' & _); [right; apply Hl; eauto | discriminate].
Qed.

(** Between bounding boxes: swapping the two ends negates the result. *)
Theorem box_distance_antisymmetric : forall x y from to,
  y == - x ->
  exists u v, box_distance (Some x) from to = Some u /\ box_distance (Some y) to from = Some v /\
              v == - u.
Proof.
  intros x y from to H. unfold box_distance. do 2 eexists. split; [reflexivity|].
  split; [reflexivity|].
  destruct (Qltb 0 x) eqn:E1, (Qltb 0 y) eqn:E2.
  - apply Qltb_true in E1, E2. lra.
  - apply Qltb_true in E1. assert (E3 : Qltb y 0 = true) by (apply Qltb_true; lra).
    rewrite E3. lra.
  - apply Qltb_true in E2. assert (E3 : Qltb x 0 = true) by (apply Qltb_true; lra).
    rewrite E3. lra.
  - apply Qltb_false in E1, E2.
    assert (E3 : Qltb x 0 = false) by (apply Qltb_false; lra).
    assert (E4 : Qltb y 0 = false) by (apply Qltb_false; lra).
    rewrite E3, E4. lra.
Qed.

(** A box in front (behind) is closer by the front of the one and the rear of the other. *)
Theorem box_distance_gap : forall x from to u,
  0 <= front from -> rear from <= 0 -> 0 <= front to -> rear to <= 0 ->
  box_distance (Some x) from to = Some u ->
  (0 < x -> u == (x + rear to) - front from) /\
  (x < 0 -> u == (x + front to) - rear from) /\
  (x == 0 -> u == 0).
Proof.
  intros x from to u H1 H2 H3 H4 H. unfold box_distance in H. inversion H; subst; clear H.
  assert (A1 : Qabs_ (front from) == front from).
  { unfold Qabs_. destruct (Qle_bool 0 (front from)) eqn:E; [lra|]. apply Qle_bool_false in E. lra. }
  assert (A2 : Qabs_ (front to) == front to).
  { unfold Qabs_. destruct (Qle_bool 0 (front to)) eqn:E; [lra|]. apply Qle_bool_false in E. lra. }
  assert (A3 : Qabs_ (rear from) == - rear from).
  { unfold Qabs_. destruct (Qle_bool 0 (rear from)) eqn:E; [|lra]. apply Qle_bool_iff in E. lra. }
  assert (A4 : Qabs_ (rear to) == - rear to).
  { unfold Qabs_. destruct (Qle_bool 0 (rear to)) eqn:E; [|lra]. apply Qle_bool_iff in E. lra. }
  split; [| split]; intros Hx.
  - assert (E : Qltb 0 x = true) by (apply Qltb_true; lra). rewrite E. lra.
  - assert (E : Qltb 0 x = false) by (apply Qltb_false; lra).
    assert (E' : Qltb x 0 = true) by (apply Qltb_true; lra). rewrite E, E'. lra.
  - assert (E : Qltb 0 x = false) by (apply Qltb_false; lra).
    assert (E' : Qltb x 0 = false) by (apply Qltb_false; lra). rewrite E, E'. lra.
Qed.

(** On a ring the ways there and back can be equally long: both poses then report that the other
    is ahead. *)
Definition circle : road :=
  {| next := fun a => if (a =? 1)%Z then [2]%Z else if (a =? 2)%Z then [1]%Z else [];
     previous := fun a => if (a =? 1)%Z then [2]%Z else if (a =? 2)%Z then [1]%Z else [];
     straight := fun _ => true; len := fun _ => 10 |}.
Definition circle_routes : router := fun a b => if (a =? b)%Z then [a] else [a; b].
Definition alone (l : id) (s : Q) : cpose :=
  {| main := {| lane := l; sval := s; offset := 0 |}; alts := [{| lane := l; sval := s; offset := 0 |}] |}.

Definition C42_claim : Prop := forall m sv rt a b x y, real_lengths m -> consistent m ->
  longitudinal_distance m sv rt a b = Some x -> longitudinal_distance m sv rt b a = Some y ->
  y == - x.
Lemma circle_real : real_lengths circle.
Proof. exists 1; split; [reflexivity | intro; cbn; lra]. Qed.
Lemma circle_consistent : consistent circle.
Proof.
  intros a b; cbn. destruct (Z.eqb_spec a 1) as [-> | Ha], (Z.eqb_spec b 1) as [-> | Hb]; cbn.
  - split; intros [E | []]; discriminate.
  - destruct (Z.eqb_spec b 2) as [-> | Hb2]; cbn; [tauto|]. split; [intros [E | []]; congruence | tauto].
  - destruct (Z.eqb_spec a 2) as [-> | Ha2]; cbn; [tauto|]. split; [tauto | intros [E | []]; congruence].
  - destruct (Z.eqb_spec a 2) as [-> | Ha2], (Z.eqb_spec b 2) as [-> | Hb2]; cbn;
      try tauto; split; try tauto; intros [E | []]; congruence.
Qed.
Theorem C42_refuted : ~ C42_claim.
Proof.
  intros H.
  assert (E := H circle (fun _ _ => None) circle_routes (alone 1%Z 5) (alone 2%Z 5)
                 (0 + 10 - 5 + 5) (0 + 10 - 5 + 5) circle_real circle_consistent eq_refl eq_refl).
  revert E. vm_compute. discriminate.
Qed.

(** With alternative poses the sign law fails without any tie: only the pose measured to is
    replaced by the alternative nearest to the other one. *)
Definition line_routes : router := fun a b =>
  if (a =? b)%Z then [a]
  else if (a =? 1)%Z then (if (b =? 2)%Z then [1; 3; 2]%Z else if (b =? 3)%Z then [1; 3]%Z else [])
  else if (a =? 3)%Z then (if (b =? 2)%Z then [3; 2]%Z else [])
  else [].
Definition straight_road : road :=
  {| next := fun a => if (a =? 1)%Z then [3]%Z else if (a =? 3)%Z then [2]%Z else [];
     previous := fun a => if (a =? 2)%Z then [3]%Z else if (a =? 3)%Z then [1]%Z else [];
     straight := fun _ => true; len := fun _ => 10 |}.
Definition C42_alternatives_claim : Prop := forall m sv rt a b x y, plain a ->
  In (main b) (alts b) ->
  longitudinal_distance m sv rt a b = Some x -> longitudinal_distance m sv rt b a = Some y ->
  ~ x == y -> y == - x.
Theorem distance_to_alternatives_refuted : ~ C42_alternatives_claim.
Proof.
  intros H.
  assert (E := H straight_road (fun _ _ => None) line_routes (alone 1%Z 5)
    {| main := {| lane := 2%Z; sval := 5; offset := 0 |};
       alts := [{| lane := 2%Z; sval := 5; offset := 0 |}; {| lane := 3%Z; sval := 5; offset := 0 |}] |}
    (0 + 10 - 5 + 5) (- (0 + 10 + 10 - 5 + 5))
    (le_n 1) (or_introl eq_refl) eq_refl eq_refl).
  assert (N : ~ 0 + 10 - 5 + 5 == - (0 + 10 + 10 - 5 + 5)) by (vm_compute; discriminate).
  specialize (E N). revert E. vm_compute. discriminate.
Qed.

(** The hypotheses are met: a forward distance over three lanelets, and driving it. *)
Example distance_over_three :
  chain (follows straight_road) 1%Z [1; 3; 2]%Z 2%Z /\
  forward_distance straight_road (fun _ _ => None) line_routes
    (main (alone 1%Z 5)) (main (alone 2%Z 4)) = Some (0 + 10 + 10 - 5 + 4) /\
  longitudinal_distance straight_road (fun _ _ => None) line_routes (alone 2%Z 4) (alone 1%Z 5)
  = Some (- (0 + 10 + 10 - 5 + 4)).
Proof. repeat split; cbn; tauto. Qed.
(** Two lanes side by side, 1 before 2 on the left and 3 before 4 on the right, the right lane
    beginning 3 metres later: from 1 over 3 to 4. *)
Definition two_lanes : road :=
  {| next := fun a => if (a =? 1)%Z then [2%Z] else if (a =? 3)%Z then [4%Z] else [];
     previous := fun a => if (a =? 2)%Z then [1%Z] else if (a =? 4)%Z then [3%Z] else [];
     len := fun _ => 10; straight := fun _ => true |}.
Definition lanes_level (a : id) (p : id * Q) : option Q :=
  if ((a =? 3) && (fst p =? 1))%Z && Qle_bool 3 (snd p) then Some (snd p - 3) else None.
Definition lanes_station (a : id) : Q :=
  if (a =? 1)%Z then 0 else if (a =? 2)%Z then 10 else if (a =? 3)%Z then 3 else 13.
Example two_lanes_surveyed : surveyed two_lanes lanes_level lanes_station.
Proof.
  split.
  - intros a b H. cbn in H. unfold lanes_station.
    destruct (Z.eqb_spec a 1) as [->|]; [destruct H as [<-|[]]; reflexivity|].
    destruct (Z.eqb_spec a 3) as [->|]; [destruct H as [<-|[]]; reflexivity|]. destruct H.
  - intros a b s x E. unfold lanes_level in E. cbn [fst snd] in E.
    destruct (Z.eqb_spec a 3) as [->|]; [|discriminate].
    destruct (Z.eqb_spec b 1) as [->|]; [|discriminate].
    destruct (Qle_bool 3 s); [|discriminate]. injection E as <-. cbn. lra.
Qed.
Example two_lanes_change :
  chain (level two_lanes lanes_level) 1%Z [1; 3; 4]%Z 4%Z /\
  forward_distance two_lanes lanes_level (fun _ _ => [1; 3; 4]%Z)
    (main (alone 1%Z 5)) (main (alone 4%Z 6)) = Some (0 + - (10 * (1 # 2) - 3 - 10 * (1 # 2)) + 10 - 5 + 6).
Proof.
  split; [|reflexivity]. split; [reflexivity|]. split; [reflexivity|]. split; [|split; [|exact I]].
  - right. exists 3%Z, 1%Z, (10 * (1 # 2)), (10 * (1 # 2) - 3). split; [now right|].
    split; [now right | reflexivity].
  - left. cbn. tauto.
Qed.
Example three_no_fork : no_fork straight_road [1; 3; 2]%Z.
Proof.
  intros a l1 l2 l3 b c H _ _. cbn in H.
  assert (L : (length (l1 ++ b :: l2 ++ c :: l3) <= 1)%nat).
  { rewrite <- H. destruct (a =? 1)%Z; [cbn; lia|]. destruct (a =? 3)%Z; cbn; lia. }
  rewrite app_length in L. cbn in L. rewrite app_length in L. cbn in L. lia.
Qed.
Example distances_add :
  line_routes 1%Z 2%Z = line_routes 1%Z 3%Z ++ tl (line_routes 3%Z 2%Z) /\
  chain (follows straight_road) 1%Z (line_routes 1%Z 3%Z) 3%Z /\
  chain (follows straight_road) 3%Z (line_routes 3%Z 2%Z) 2%Z.
Proof. repeat split; cbn; tauto. Qed.
Example adjacent_of_two :
  adjacent_distance straight_road (fun _ _ => None) line_routes [alone 1%Z 5]
    [alone 2%Z 4; alone 3%Z 1; alone 1%Z 2] = Some (- (0 - 2 + 5)).
Proof. reflexivity. Qed.

Print Assumptions alternatives_forward.
Print Assumptions alternatives_forward_complete.
Print Assumptions alternatives_backward.
Print Assumptions alternatives_backward_complete.
Print Assumptions alternatives_always_end.
Print Assumptions no_alternative.
Print Assumptions canonical_is_alternative.
Print Assumptions alternatives_on_lane_refuted.
Print Assumptions nearest_alternative.
Print Assumptions unreachable_alternative_refuted.
Print Assumptions forward_distance_is_travelled.
Print Assumptions distance_over_lane_changes.
Print Assumptions driving_the_distance_arrives.
Print Assumptions distance_is_the_shorter_way.
Print Assumptions distance_antisymmetric.
Print Assumptions distance_on_one_lanelet.
Print Assumptions distances_add_up.
Print Assumptions adjacent_distance_is_closest.
Print Assumptions box_distance_antisymmetric.
Print Assumptions C42_refuted.
Print Assumptions distance_to_alternatives_refuted.
