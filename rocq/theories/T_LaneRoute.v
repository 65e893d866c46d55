(** C40, C41: following lanelets and the route planner. *)
From Coq Require Import ZArith QArith List Bool Lia Lqa.
From Verif Require Import M_Lane S_Lane P_Lane P_LaneWalk P_LaneRoute T_LanePose.
Import ListNotations.
Local Open Scope Q_scope.

(** ** C40: followingLanelets(id, distance, include_self) and previousLanelets *)

(** The lanelets returned are connected, each the preferred continuation of the one before,
    starting at the lanelet given; the ones after it cover the distance asked for, or the road
    ends; and none is superfluous. *)
Theorem following_covers : forall m n a d include l,
  following m n a d include = Some l ->
  exists r, l = (if include then a :: r else r) /\
    linked (straight_next m) (a :: r) /\ linked (follows m) (a :: r) /\
    (d <= total m r \/ next m (last r a) = []) /\
    (r = [] \/ total m (removelast r) < d).
Proof.
  intros m n a d include l H. unfold following in H. rewrite follow_gather in H.
  destruct (gather _ _ _ _ _ _) as [r|] eqn:E; [| discriminate]. inversion H; subst l.
  apply gather_sound in E. destruct E as (H1 & H2 & H3).
  assert (H4 : linked (straight_next m) (a :: r)) by (apply linked_via_next; auto).
  exists r. split; [reflexivity|]. split; [exact H4|].
  split; [eapply linked_mono; [| exact H4]; apply straight_follows|].
  split.
  - destruct H2 as [H2 | H2]; [left; lra | right; apply pick_none in H2; exact H2].
  - destruct H3 as [H3 | H3]; [auto | right; lra].
Qed.

Theorem following_terminates : forall m a d include, real_lengths m ->
  exists n l, forall n', (n <= n')%nat -> following m n' a d include = Some l.
Proof.
  intros m a d include (e & He & Hl). destruct (enough e (d - 0) He) as (n & Hn).
  destruct (gather_terminates m (pick_next m) e He Hl n a 0 d Hn) as (r & Hr).
  exists n, (if include then a :: r else r). intros n' H.
  unfold following. rewrite follow_gather, (gather_more _ _ n n' _ _ _ r) by auto. reflexivity.
Qed.

Theorem previous_covers : forall m n a d l,
  previous_lanelets m n a d = Some l ->
  exists r, l = a :: r /\
    linked (straight_previous m) l /\ linked (precedes m) l /\
    (d <= total m r \/ previous m (last r a) = []) /\
    (r = [] \/ total m (removelast r) < d).
Proof.
  intros m n a d l H. unfold previous_lanelets in H. rewrite follow_back_gather in H.
  destruct (gather _ _ _ _ _ _) as [r|] eqn:E; [| discriminate]. inversion H; subst l.
  apply gather_sound in E. destruct E as (H1 & H2 & H3).
  assert (H4 : linked (straight_previous m) (a :: r)) by (apply linked_via_previous; auto).
  exists r. split; [reflexivity|]. split; [exact H4|].
  split; [eapply linked_mono; [| exact H4]; intros x y Hx; eapply prefers_in; exact Hx|].
  split.
  - destruct H2 as [H2 | H2]; [left; lra | right; apply pick_none in H2; exact H2].
  - destruct H3 as [H3 | H3]; [auto | right; lra].
Qed.

Theorem previous_terminates : forall m a d, real_lengths m ->
  exists n l, forall n', (n <= n')%nat -> previous_lanelets m n' a d = Some l.
Proof.
  intros m a d (e & He & Hl). destruct (enough e (d - 0) He) as (n & Hn).
  destruct (gather_terminates m (pick_previous m) e He Hl n a 0 d Hn) as (r & Hr).
  exists n, (a :: r). intros n' H.
  unfold previous_lanelets. rewrite follow_back_gather, (gather_more _ _ n n' _ _ _ r) by auto.
  reflexivity.
Qed.

(** ** C40: followingLanelets(id, route, horizon, include_current) *)

(** The result follows the route from the first place the current lanelet has on it; when the
    route is used up before the horizon, it goes on over the preferred continuations. *)
Theorem following_route_covers : forall m n a route horizon include l,
  route <> [] -> following_route m n a route horizon include = Ok l ->
  exists pre mid post ext,
    route = pre ++ a :: mid ++ post /\ ~ In a pre /\
    l = (if include then [a] else []) ++ mid ++ ext /\
    linked (follows m) (a :: mid ++ ext) /\
    (horizon <= total m (mid ++ ext) \/ next m (last (mid ++ ext) a) = []) /\
    (post = [] \/ (ext = [] /\ horizon < total m mid)) /\
    (ext = [] \/ total m (removelast (mid ++ ext)) < horizon).
Proof.
  intros m n a route horizon include l Hne H.
  destruct (following_route_shape m n a route horizon include l Hne H)
    as (pre & mid & post & ext & H1 & H2 & H3 & H4 & H5 & H6).
  exists pre, mid, post, ext. split; [auto|]. split; [auto|]. split; [auto|]. split.
  { apply (linked_mono _ (follows m)) in H5; [| apply straight_follows].
    destruct mid as [| b mid]; [exact H5|].
    destruct (@exists_last _ (b :: mid) ltac:(discriminate)) as (mid' & c & E).
    rewrite E in *. rewrite last_last in H5.
    change (linked (follows m) ((a :: mid' ++ [c]) ++ ext)).
    rewrite app_comm_cons, <- app_assoc. cbn [app].
    apply (linked_app _ (a :: mid')); auto. }
  assert (Hlast : last (mid ++ ext) a = last ext (last mid a)).
  { destruct ext as [| c ext]; [rewrite app_nil_r; reflexivity|].
    rewrite last_app_cons. rewrite !last_cons_any. reflexivity. }
  rewrite Hlast. split; [| split].
  - destruct H6 as [(-> & H6) | (_ & _ & H6 & _)].
    + left. rewrite app_nil_r. lra.
    + rewrite total_app. exact H6.
  - destruct H6 as [H6 | (H6 & _)]; auto.
  - destruct H6 as [(H6 & _) | (_ & _ & _ & H6)]; auto.
    destruct ext as [| c ext]; [left; reflexivity | right].
    rewrite removelast_app by discriminate. rewrite total_app.
    destruct H6 as [H6 | H6]; [discriminate | exact H6].
Qed.

(** An empty route gives nothing; a lanelet that is not on the route is refused. *)
Theorem following_route_refuses : forall m n a route horizon include,
  route <> [] -> ~ In a route -> following_route m n a route horizon include = Error.
Proof.
  intros m n a route horizon include Hne Hn. unfold following_route.
  destruct route as [| r0 r]; [congruence|]. remember (r0 :: r) as route.
  assert (E : collect_from m a route horizon include = Ok ([], 0)).
  { clear - Hn. induction route as [| b r IH]; [reflexivity|]. cbn.
    destruct (Z.eqb_spec b a) as [-> | Hb]; [exfalso; apply Hn; left; auto|].
    apply IH. intro; apply Hn; right; auto. }
  rewrite E. reflexivity.
Qed.

(** On a connected route with the current lanelet on it, the call that includes the current
    lanelet always succeeds. *)
Theorem following_route_succeeds : forall m a route horizon,
  real_lengths m -> linked (follows m) route -> In a route ->
  exists n l, forall n', (n <= n')%nat -> following_route m n' a route horizon true = Ok l.
Proof.
  intros m a route horizon Hm Hlk Hin.
  destruct route as [| r0 r]; [destruct Hin|].
  destruct (collect_from_defined m horizon true (r0 :: r) a Hlk) as (l0 & t & Ec).
  pose proof (collect_from_ok _ _ _ _ _ _ _ Ec) as [(H1 & _) | (pre & mid & post & _ & _ & _ & H4 & _)];
    [contradiction|].
  destruct (following_terminates m (last (r0 :: r) r0) (horizon - t) false Hm) as (n & ext & Hn).
  exists n. unfold following_route. rewrite Ec, H4. cbn [app].
  destruct (Qle_bool t horizon).
  - exists (a :: mid ++ ext). intros n' Hn'. rewrite Hn by auto. reflexivity.
  - exists (a :: mid). reflexivity.
Qed.

(** A route that jumps is not reported: building the message of the error is undefined behaviour
    (lanelet ids are added to a character pointer). *)
Definition broken_route_claim : Prop :=
  forall m n a route horizon, real_lengths m ->
    following_route m n a route horizon true <> Undefined.
Theorem broken_route_refuted : ~ broken_route_claim.
Proof.
  intros H. apply (H fork_road 3%nat 1%Z [1; 7]%Z 50 fork_real). reflexivity.
Qed.

(** From the last lanelet of the route, without the current one, the call fails although the road
    goes on. *)
Definition last_of_route_claim : Prop :=
  forall m a route horizon, real_lengths m -> linked (follows m) route -> In a route ->
    next m a <> [] ->
    exists n l, following_route m n a route horizon false = Ok l.
Theorem last_of_route_refuted : ~ last_of_route_claim.
Proof.
  intros H. destruct (H fork_road 1%Z [1]%Z 50 fork_real) as (n & l & E).
  - exact I.
  - left; reflexivity.
  - discriminate.
  - discriminate E.
Qed.

(** ** C41: the route planner *)

(** What the planner returns begins with the lanelet the entity is on, is connected, and reaches
    to the horizon unless the road ends. *)
Theorem planned_lanelets_are_drivable : forall m rt n pl p horizon l pl',
  get_route_lanelets m rt n pl p horizon = (Ok l, pl') ->
  exists r, l = lane p :: r /\ linked (follows m) l /\
    (horizon <= total m r \/ next m (last r (lane p)) = []).
Proof.
  intros m rt n pl p horizon l pl' H. unfold get_route_lanelets in H.
  set (pl1 := match queue pl with [] => pl | _ :: _ => update_route rt pl p end) in *.
  assert (F : forall pl'', (match following m n (lane p) horizon true with
                            | Some r => Ok r | None => NoFuel end, pl'') = (Ok l, pl') ->
              exists r, l = lane p :: r /\ linked (follows m) l /\
                (horizon <= total m r \/ next m (last r (lane p)) = [])).
  { intros pl'' E. destruct (following m n (lane p) horizon true) as [r|] eqn:Ef; [| discriminate].
    inversion E; subst r pl''. apply following_covers in Ef.
    destruct Ef as (r & -> & _ & H2 & H3 & _). eauto. }
  destruct (route_opt pl1) as [r|]; [| eapply F; eauto].
  destruct (in_route r (lane p)) eqn:Er; [| eapply F; eauto].
  apply in_route_In in Er. inversion H as [[H1 H2]]; clear H F.
  apply following_route_covers in H1; [| destruct r; [destruct Er | discriminate]].
  destruct H1 as (pre & mid & post & ext & _ & _ & E & H4 & H5 & _).
  exists (mid ++ ext). cbn in E. subst l. auto.
Qed.

(** A planner as its owner can bring it about. *)
Inductive reachable (m : road) (rt : router) : planner -> Prop :=
| fresh : reachable m rt {| queue := []; route_opt := None |}
| after : forall pl n o, reachable m rt pl -> reachable m rt (planner_step m rt n pl o).

Definition route_from (rt : router) (pl : planner) : Prop :=
  match route_opt pl with
  | None => True
  | Some r => exists a b, r = rt a b
  end.

Lemma cancel_waypoint_from : forall rt pl p, route_from rt pl -> route_from rt (cancel_waypoint pl p).
Proof.
  intros rt pl p H. unfold cancel_waypoint. destruct (drop_same _ _); [exact I | exact H].
Qed.
Lemma plan_to_front_from : forall rt pl p, route_from rt pl -> route_from rt (plan_to_front rt pl p).
Proof.
  intros rt pl p H. unfold plan_to_front. destruct (queue pl); auto.
  destruct (route_opt pl) as [r|] eqn:E; [| cbn; eauto].
  destruct (in_route r (lane p)); [auto | cbn; eauto].
Qed.
Lemma update_route_from : forall rt pl p, route_from rt pl -> route_from rt (update_route rt pl p).
Proof.
  intros rt pl p H. unfold update_route. destruct (queue pl); auto.
  destruct (reached_by _ _); [| apply plan_to_front_from; auto].
  pose proof (cancel_waypoint_from rt pl p H).
  destruct (queue (cancel_waypoint pl p)); [exact I | apply plan_to_front_from; auto].
Qed.
Lemma reachable_from : forall m rt pl, reachable m rt pl -> route_from rt pl.
Proof.
  intros m rt pl H; induction H as [| pl n o H IH]; [exact I|].
  destruct o as [ws | p h |]; [exact IH | | exact I].
  cbn [planner_step]. unfold get_route_lanelets.
  assert (U : route_from rt (match queue pl with [] => pl | _ :: _ => update_route rt pl p end)).
  { destruct (queue pl); [auto | apply update_route_from; auto]. }
  destruct (route_opt (match queue pl with [] => pl | _ :: _ => update_route rt pl p end)) eqn:E.
  - destruct (in_route l (lane p)); cbn [snd]; [exact U | apply cancel_waypoint_from; exact U].
  - exact U.
Qed.

(** Whatever was done with the planner before, asking for the route succeeds, provided the routing
    graph only delivers connected routes. *)
Theorem planner_always_answers : forall m rt pl p horizon,
  real_lengths m -> (forall a b, linked (follows m) (rt a b)) -> reachable m rt pl ->
  exists n l, forall n', (n <= n')%nat -> fst (get_route_lanelets m rt n' pl p horizon) = Ok l.
Proof.
  intros m rt pl p horizon Hm Hrt Hr. apply reachable_from in Hr.
  unfold get_route_lanelets.
  set (pl1 := match queue pl with [] => pl | _ :: _ => update_route rt pl p end).
  assert (U : route_from rt pl1).
  { unfold pl1. destruct (queue pl); [auto | apply update_route_from; auto]. }
  destruct (following_terminates m (lane p) horizon true Hm) as (n & l & Hn).
  unfold route_from in U.
  destruct (route_opt pl1) as [r|] eqn:Er; [| exists n, l; intros n' H'; rewrite Hn by auto; reflexivity].
  destruct U as (a & b & U).
  destruct (in_route r (lane p)) eqn:Ei; [| exists n, l; intros n' H'; rewrite Hn by auto; reflexivity].
  apply in_route_In in Ei.
  destruct (following_route_succeeds m (lane p) r horizon Hm) as (n2 & l2 & H2); auto.
  { rewrite U; apply Hrt. }
  exists n2, l2. intros n' H'. cbn [fst]. auto.
Qed.

(** Asking for the route removes waypoints only from the front, only such as lie on the lanelet the
    entity is on, and never one behind a waypoint that stays. *)
Theorem waypoints_removed_in_order : forall m rt n pl p horizon,
  exists dropped,
    queue pl = dropped ++ queue (snd (get_route_lanelets m rt n pl p horizon)) /\
    forall w, In w dropped -> lane w = lane p.
Proof.
  intros m rt n pl p horizon.
  assert (C : forall q, exists d, queue q = d ++ queue (cancel_waypoint q p) /\
                                  forall w, In w d -> lane w = lane p).
  { intros q. unfold cancel_waypoint. destruct (drop_same_suffix (queue q) p) as (d & H1 & H2 & _).
    exists d; split; [| exact H2]. destruct (drop_same (queue q) p); exact H1. }
  assert (F : forall q, queue (plan_to_front rt q p) = queue q).
  { intros q. unfold plan_to_front. destruct (queue q) eqn:E; auto.
    destruct (route_opt q); [destruct (in_route _ _)|]; cbn; auto. }
  assert (U : exists d, queue pl = d ++ queue (match queue pl with [] => pl | _ :: _ => update_route rt pl p end)
                        /\ forall w, In w d -> lane w = lane p).
  { destruct (queue pl) eqn:Eq; [exists []; rewrite Eq; split; [reflexivity | intros ? []]|].
    rewrite <- Eq. unfold update_route. rewrite Eq. rewrite <- Eq.
    destruct (reached_by p0 p).
    - destruct (C pl) as (d & H1 & H2). exists d; split; [| auto].
      destruct (queue (cancel_waypoint pl p)) eqn:E; [cbn; exact H1|].
      rewrite F, E. exact H1.
    - exists []; rewrite F; split; [reflexivity | intros ? []]. }
  unfold get_route_lanelets.
  set (pl1 := match queue pl with [] => pl | _ :: _ => update_route rt pl p end) in *.
  destruct U as (d & H1 & H2).
  destruct (route_opt pl1) as [r|]; [| exists d; auto].
  destruct (in_route r (lane p)); [exists d; auto|].
  destruct (C pl1) as (d' & H3 & H4). exists (d ++ d'). cbn [snd]. rewrite <- app_assoc, <- H3.
  split; [auto|]. intros w Hw. apply in_app_or in Hw. destruct Hw; auto.
Qed.

(** When the entity has passed the first waypoint, that waypoint is gone afterwards. *)
Theorem reached_waypoint_removed : forall m rt n pl p horizon w ws,
  queue pl = w :: ws -> lane w = lane p -> sval w <= sval p ->
  exists dropped, queue pl = w :: dropped ++ queue (snd (get_route_lanelets m rt n pl p horizon)).
Proof.
  intros m rt n pl p horizon w ws Hq Hl Hs.
  destruct (waypoints_removed_in_order m rt n pl p horizon) as (d & H & _).
  destruct d as [| w' d]; [exfalso | exists d; rewrite Hq in H |- *; inversion H; subst; reflexivity].
  cbn [app] in H.
  assert (R : reached_by w p = true).
  { unfold reached_by. rewrite Hl, Z.eqb_refl. apply Qle_bool_iff; auto. }
  assert (L : forall q, (length (queue (cancel_waypoint q p)) <= length (queue q))%nat).
  { intros q. unfold cancel_waypoint. destruct (drop_same_suffix (queue q) p) as (d & H1 & _).
    assert ((length (drop_same (queue q) p) <= length (queue q))%nat)
      by (rewrite H1 at 2; rewrite app_length; lia).
    destruct (drop_same (queue q) p); exact H0. }
  assert (L1 : (length (queue (cancel_waypoint pl p)) < length (queue pl))%nat).
  { unfold cancel_waypoint. rewrite Hq. cbn [drop_same]. unfold same_lane.
    rewrite Hl, Z.eqb_refl.
    destruct (drop_same_suffix ws p) as (d & H1 & _).
    assert ((length (drop_same ws p) <= length ws)%nat)
      by (rewrite H1 at 2; rewrite app_length; lia).
    destruct (drop_same ws p); cbn in *; lia. }
  assert (F : forall q, queue (plan_to_front rt q p) = queue q).
  { intros q. unfold plan_to_front. destruct (queue q) eqn:E; auto.
    destruct (route_opt q); [destruct (in_route _ _)|]; cbn; auto. }
  assert (U : (length (queue (update_route rt pl p)) < length (queue pl))%nat).
  { unfold update_route. rewrite Hq, R. rewrite <- Hq.
    destruct (queue (cancel_waypoint pl p)) eqn:E; [cbn; rewrite Hq; cbn; lia|].
    rewrite F, E. exact L1. }
  assert (G : (length (queue (snd (get_route_lanelets m rt n pl p horizon))) < length (queue pl))%nat).
  { unfold get_route_lanelets. rewrite Hq. rewrite <- Hq.
    destruct (route_opt (update_route rt pl p)) as [r|]; [| exact U].
    destruct (in_route r (lane p)); [exact U|]. cbn [snd].
    specialize (L (update_route rt pl p)). lia. }
  rewrite <- H in G. lia.
Qed.

(** A planner that has no route yet plans one from the entity to the first waypoint and follows it:
    if the routing graph knows a way and the horizon covers it, the waypoint's lanelet is among
    those returned. *)
Theorem new_route_leads_to_waypoint : forall m rt n pl p horizon w ws l pl',
  (forall a, 0 < len m a) ->
  queue pl = w :: ws -> route_opt pl = None -> ~ (lane w = lane p /\ sval w <= sval p) ->
  chain (follows m) (lane p) (rt (lane p) (lane w)) (lane w) ->
  total m (tl (rt (lane p) (lane w))) <= horizon ->
  get_route_lanelets m rt n pl p horizon = (Ok l, pl') -> In (lane w) l.
Proof.
  intros m rt n pl p horizon w ws l pl' Hpos Hq Hr Hn Hc Hh H.
  assert (R : reached_by w p = false).
  { unfold reached_by. destruct (Z.eqb_spec (lane w) (lane p)); auto. cbn.
    apply Qle_bool_false. destruct (Qlt_le_dec (sval p) (sval w)); auto. exfalso; auto. }
  unfold get_route_lanelets in H. rewrite Hq in H. unfold update_route in H. rewrite Hq, R in H.
  unfold plan_to_front in H. rewrite Hq, Hr in H. cbn [route_opt] in H.
  remember (rt (lane p) (lane w)) as route eqn:Er.
  destruct Hc as (C1 & C2 & C3).
  destruct route as [| a r]; [discriminate|]. cbn in C1. inversion C1; subst a.
  assert (Ei : in_route (lane p :: r) (lane p) = true) by (apply in_route_In; left; auto).
  rewrite Ei in H.
  assert (H1 : following_route m n (lane p) (lane p :: r) horizon true = Ok l)
    by exact (f_equal fst H).
  apply following_route_covers in H1; [| discriminate].
  destruct H1 as (pre & mid & post & ext & E1 & E2 & E3 & _ & _ & E6 & _).
  destruct pre as [| x pre]; [| inversion E1; subst; exfalso; apply E2; left; auto].
  cbn in E1. inversion E1; subst r. cbn [tl] in Hh.
  assert (Hp : post = []).
  { destruct E6 as [E6 | (_ & E6)]; auto. exfalso.
    rewrite total_app in Hh.
    assert (0 <= total m post) by (apply total_nonneg; intro x; specialize (Hpos x); lra). lra. }
  subst post. rewrite app_nil_r in *. rewrite last_cons_any in C2.
  subst l. cbn. destruct mid as [| b mid]; [left; exact C2|]. right. rewrite <- C2.
  apply in_or_app; left.
  destruct (@exists_last _ (b :: mid) ltac:(discriminate)) as (mid' & c & ->).
  rewrite last_last. apply in_elt.
Qed.

(** With a route left over from before, it need not be so.  New waypoints do not discard the old
    route, and a waypoint that is reached does not make the planner look for the way to the next. *)
Definition planner_leads_claim : Prop :=
  forall m rt n pl p horizon w ws l pl',
    real_lengths m -> (forall a b, linked (follows m) (rt a b)) -> reachable m rt pl ->
    get_route_lanelets m rt n pl p horizon = (Ok l, pl') -> queue pl' = w :: ws ->
    chain (follows m) (lane p) (rt (lane p) (lane w)) (lane w) ->
    total m (tl (rt (lane p) (lane w))) <= horizon -> In (lane w) l.

Definition fork_router (a b : id) : list id :=
  if (a =? b)%Z then [a] else if (a =? 1)%Z then
    if (b =? 2)%Z then [1; 2]%Z else if (b =? 3)%Z then [1; 3]%Z else [] else [].
Lemma fork_router_linked : forall a b, linked (follows fork_road) (fork_router a b).
Proof.
  intros a b. unfold fork_router. destruct (Z.eqb a b); [exact I|].
  destruct (Z.eqb a 1); [| exact I].
  destruct (Z.eqb b 2); [split; [left; reflexivity | exact I]|].
  destruct (Z.eqb b 3); [split; [right; left; reflexivity | exact I] | exact I].
Qed.
Definition on2 := {| lane := 2%Z; sval := 5; offset := 0 |}.
Definition on3 := {| lane := 3%Z; sval := 5; offset := 0 |}.
Definition on1 := {| lane := 1%Z; sval := 5; offset := 0 |}.

(** First a waypoint on lanelet 2, then, from the same place, one on lanelet 3 instead. *)
Theorem planner_leads_refuted : ~ planner_leads_claim.
Proof.
  intros H.
  pose (pl := planner_step fork_road fork_router 3
                (planner_step fork_road fork_router 3
                   (planner_step fork_road fork_router 3 {| queue := []; route_opt := None |}
                      (SetWaypoints [on2])) (GetRoute on1 10)) (SetWaypoints [on3])).
  assert (R : reachable fork_road fork_router pl)
    by (unfold pl; repeat apply after; apply fresh).
  assert (E : In 3%Z [1; 2]%Z).
  { refine (H fork_road fork_router 3%nat pl on1 10 on3 [] [1; 2]%Z
              {| queue := [on3]; route_opt := Some [1; 2]%Z |} fork_real fork_router_linked R _ _ _ _).
    - vm_compute; reflexivity.
    - reflexivity.
    - cbn. repeat split. right; left; reflexivity.
    - cbn. lra. }
  cbn in E. intuition discriminate.
Qed.

(** The same for a list of waypoints set once: the first is reached on lanelet 1, the second is on
    lanelet 3; the planner keeps to its old route and goes on to lanelet 2. *)
Definition second_waypoint_claim : Prop :=
  forall m rt n1 n2 ws p1 p2 horizon l l' pl1 pl2 w r,
    real_lengths m -> (forall a b, linked (follows m) (rt a b)) ->
    get_route_lanelets m rt n1 {| queue := ws; route_opt := None |} p1 horizon = (Ok l, pl1) ->
    get_route_lanelets m rt n2 pl1 p2 horizon = (Ok l', pl2) ->
    queue pl2 = w :: r ->
    chain (follows m) (lane p2) (rt (lane p2) (lane w)) (lane w) ->
    total m (tl (rt (lane p2) (lane w))) <= horizon -> In (lane w) l'.
Theorem second_waypoint_refuted : ~ second_waypoint_claim.
Proof.
  intros H.
  assert (E : In 3%Z [1; 2]%Z).
  { pose (ws := [{| lane := 1%Z; sval := 4; offset := 0 |}; on2; on3]).
    pose (road3 := {| next := fun a => if (a =? 1)%Z then [2; 3]%Z else [];
                      previous := fun _ => []; straight := fun _ => false; len := fun _ => 10 |}).
    refine (H road3 fork_router 3%nat 3%nat
              [{| lane := 1%Z; sval := 4; offset := 0 |}; on3]
              {| lane := 1%Z; sval := 1; offset := 0 |} on1 10 [1; 2]%Z [1; 2]%Z
              {| queue := [{| lane := 1%Z; sval := 4; offset := 0 |}; on3]; route_opt := Some [1]%Z |}
              {| queue := [on3]; route_opt := Some [1]%Z |} on3 [] _ _ _ _ _ _ _).
    - exists 1; split; [reflexivity | intro; cbn; lra].
    - intros a b. unfold fork_router. destruct (Z.eqb a b); [exact I|].
      destruct (Z.eqb a 1); [| exact I].
      destruct (Z.eqb b 2); [split; [left; reflexivity | exact I]|].
      destruct (Z.eqb b 3); [split; [right; left; reflexivity | exact I] | exact I].
    - vm_compute; reflexivity.
    - vm_compute; reflexivity.
    - reflexivity.
    - cbn. repeat split. right; left; reflexivity.
    - cbn. lra. }
  cbn in E. intuition discriminate.
Qed.

(** A waypoint further on along the same lanelet is given up together with the one reached. *)
Definition only_reached_claim : Prop :=
  forall m rt n pl p horizon w,
    real_lengths m -> reachable m rt pl -> In w (queue pl) ->
    ~ In w (queue (snd (get_route_lanelets m rt n pl p horizon))) ->
    lane w = lane p /\ sval w <= sval p.
Theorem only_reached_refuted : ~ only_reached_claim.
Proof.
  intros H.
  pose (w1 := {| lane := 1%Z; sval := 2; offset := 0 |}).
  pose (w2 := {| lane := 1%Z; sval := 8; offset := 0 |}).
  destruct (H fork_road fork_router 3%nat
              (planner_step fork_road fork_router 3 {| queue := []; route_opt := None |}
                 (SetWaypoints [w1; w2])) on1 10 w2 fork_real) as (_ & E).
  - apply after, fresh.
  - right; left; reflexivity.
  - vm_compute. tauto.
  - cbn in E. lra.
Qed.

(** ** The hypotheses are met *)
Example following_ring : following ring 9 3%Z 16 true = Some [3; 4; 1; 2]%Z.
Proof. reflexivity. Qed.
Example following_dead_end : following fork_road 9 1%Z 100 true = Some [1; 3]%Z.
Proof. reflexivity. Qed.
Example route_then_on : following_route ring 9 2%Z [1; 2; 3]%Z 12 true = Ok [2; 3; 4; 1]%Z.
Proof. reflexivity. Qed.
Example route_within_horizon : following_route ring 9 1%Z [1; 2; 3; 4]%Z 6 true = Ok [1; 2]%Z.
Proof. reflexivity. Qed.
Example planner_example :
  get_route_lanelets fork_road fork_router 5 {| queue := [on2]; route_opt := None |} on1 10
  = (Ok [1; 2]%Z, {| queue := [on2]; route_opt := Some [1; 2]%Z |}).
Proof. vm_compute; reflexivity. Qed.

Print Assumptions following_route_covers.
Print Assumptions planner_always_answers.
Print Assumptions new_route_leads_to_waypoint.
Print Assumptions second_waypoint_refuted.
