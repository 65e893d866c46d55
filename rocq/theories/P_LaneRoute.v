(** Proofs about followingLanelets, previousLanelets and the route planner. *)
From Coq Require Import ZArith QArith List Bool Lia Lqa.
From Verif Require Import M_Lane S_Lane P_Lane P_LaneWalk.
Import ListNotations.
Local Open Scope Q_scope.

Section Follow.
  Variable m : road.
  Variable pickf : id -> option id.

  (** Common form of the two loops. *)
  Fixpoint gather (fuel : nat) (a : id) (t d : Q) : option (list id) :=
    if Qltb t d then
      match fuel with
      | O => None
      | S fuel' =>
          match pickf a with
          | None => Some []
          | Some b =>
              match gather fuel' b (t + len m b) d with
              | Some r => Some (b :: r)
              | None => None
              end
          end
      end
    else Some [].

  Lemma gather_eq : forall n a t d, gather n a t d =
    if Qltb t d then
      match n with
      | O => None
      | S n' => match pickf a with
                | None => Some []
                | Some b => match gather n' b (t + len m b) d with
                            | Some r => Some (b :: r)
                            | None => None
                            end
                end
      end
    else Some [].
  Proof. destruct n; reflexivity. Qed.

  Lemma gather_sound : forall n a t d r, gather n a t d = Some r ->
    linked (via pickf) (a :: r) /\
    (d <= t + total m r \/ pickf (last r a) = None) /\
    (r = [] \/ t + total m (removelast r) < d).
  Proof.
    induction n; intros a t d r H; rewrite gather_eq in H; destruct (Qltb t d) eqn:E; try discriminate.
    - inversion H; subst. apply Qltb_false in E. cbn. repeat split; auto. left; lra.
    - destruct (pickf a) as [b|] eqn:Ep.
      + destruct (gather n b (t + len m b) d) as [r'|] eqn:Er; [| discriminate].
        inversion H; subst r; clear H. apply IHn in Er. destruct Er as (H1 & H2 & H3).
        apply Qltb_true in E.
        split; [split; auto|]. split.
        * destruct H2 as [H2 | H2]; [left; cbn; lra | right].
          destruct r' as [| c r']; [exact H2|].
          rewrite last_cons by congruence. rewrite (last_default _ a b) by congruence. exact H2.
        * right. destruct r' as [| c r']; [cbn; lra|].
          rewrite removelast_cons by congruence.
          destruct H3 as [H3 | H3]; [discriminate|]. cbn [total]. lra.
      + inversion H; subst. cbn. repeat split; auto.
    - inversion H; subst. apply Qltb_false in E. cbn. repeat split; auto. left; lra.
  Qed.

  Lemma gather_more : forall n n' a t d r, (n <= n')%nat -> gather n a t d = Some r ->
    gather n' a t d = Some r.
  Proof.
    induction n; intros n' a t d r Hn H; rewrite gather_eq in H |- *;
      destruct (Qltb t d); auto; try discriminate.
    destruct n'; [lia|]. destruct (pickf a) as [b|]; auto.
    destruct (gather n b (t + len m b) d) eqn:E; [| discriminate].
    rewrite (IHn n' _ _ _ _ ltac:(lia) E). auto.
  Qed.

  Lemma gather_terminates : forall e, 0 < e -> (forall a, e <= len m a) ->
    forall n a t d, d - t <= inject_Z (Z.of_nat n) * e -> exists r, gather n a t d = Some r.
  Proof.
    intros e He Hl; induction n; intros a t d Hd; rewrite gather_eq.
    - change (inject_Z (Z.of_nat 0)) with 0 in Hd.
      assert (E : Qltb t d = false) by (apply Qltb_false; lra). rewrite E; eauto.
    - destruct (Qltb t d); [| eauto]. destruct (pickf a) as [b|]; [| eauto].
      pose proof (scaled_step n e _ (len m b) He (Hl b) Hd) as Hs.
      destruct (IHn b (t + len m b) d) as (r & Hr); [lra|]. rewrite Hr; eauto.
  Qed.
End Follow.

Lemma follow_gather : forall m n a t d, follow m n a t d = gather m (pick_next m) n a t d.
Proof.
  induction n; intros a t d; cbn; destruct (Qltb t d); auto.
  destruct (pick_next m a); auto. rewrite IHn; reflexivity.
Qed.
Lemma follow_back_gather : forall m n a t d,
  follow_back m n a t d = gather m (pick_previous m) n a t d.
Proof.
  induction n; intros a t d; cbn; destruct (Qltb t d); auto.
  destruct (pick_previous m a); auto. rewrite IHn; reflexivity.
Qed.

Lemma linked_via_next : forall m l, linked (via (pick_next m)) l <-> linked (straight_next m) l.
Proof. intros; split; apply linked_mono; intros x y H; apply pick_next_spec; exact H. Qed.
Lemma linked_via_previous : forall m l,
  linked (via (pick_previous m)) l <-> linked (straight_previous m) l.
Proof. intros; split; apply linked_mono; intros x y H; apply pick_next_spec; exact H. Qed.

(** ** Along a route *)
Lemma collect_ok : forall m horizon route last0 t l t',
  collect m last0 route t horizon = Ok (l, t') ->
  exists post, route = l ++ post /\ linked (follows m) (last0 :: l) /\ t' == t + total m l /\
    (post = [] \/ horizon < t') /\ (l = [] \/ t + total m (removelast l) <= horizon \/ length l = 1%nat).
Proof.
  intros m horizon; induction route as [| a r IH]; intros last0 t l t' H; cbn in H.
  - inversion H; subst. exists []. cbn. repeat split; auto. lra.
  - destruct (in_route (next m last0) a) eqn:Ei; [| discriminate].
    apply in_route_In in Ei.
    destruct (Qltb horizon (t + len m a)) eqn:E.
    + inversion H; subst. apply Qltb_true in E. exists r. cbn. repeat split; auto. lra.
    + apply Qltb_false in E.
      destruct (collect m a r (t + len m a) horizon) as [[l1 t1] | | |] eqn:Ec; try discriminate.
      inversion H; subst l t'. destruct (IH _ _ _ _ Ec) as (post & H1 & H2 & H3 & H4 & H5).
      exists post. subst r. split; [reflexivity|]. split; [split; auto|].
      split; [cbn; lra|]. split; [auto|]. right.
      destruct l1 as [| b l1]; [auto|]. left.
      rewrite removelast_cons by congruence. cbn [total].
      destruct H5 as [H5 | [H5 | H5]]; [discriminate | lra |].
      destruct l1; [cbn in *; lra | discriminate].
Qed.

Lemma collect_linked : forall m horizon route last0 t,
  linked (follows m) (last0 :: route) ->
  exists l t', collect m last0 route t horizon = Ok (l, t').
Proof.
  intros m horizon; induction route as [| a r IH]; intros last0 t H; cbn.
  - eauto.
  - destruct H as (H1 & H2). apply in_route_In in H1. rewrite H1.
    destruct (Qltb _ _); [eauto|].
    destruct (IH a (t + len m a) H2) as (l & t' & E). rewrite E. eauto.
Qed.

Lemma collect_from_ok : forall m horizon include route a l t,
  collect_from m a route horizon include = Ok (l, t) ->
  (~ In a route /\ l = [] /\ t = 0) \/
  exists pre mid post, route = pre ++ a :: mid ++ post /\ ~ In a pre /\
    linked (follows m) (a :: mid) /\ l = (if include then a :: mid else mid) /\
    t == total m mid /\ (post = [] \/ horizon < t).
Proof.
  intros m horizon include; induction route as [| b r IH]; intros a l t H; cbn in H.
  - left. inversion H; auto.
  - destruct (Z.eqb_spec b a) as [-> | Hn].
    + destruct (collect m a r 0 horizon) as [[l1 t1] | | |] eqn:Ec; try discriminate.
      inversion H; subst. right.
      apply collect_ok in Ec. destruct Ec as (post & -> & H2 & H3 & H4 & _).
      exists [], l1, post. repeat split; auto. lra.
    + destruct (IH _ _ _ H) as [(H1 & H2) | (pre & mid & post & -> & H1 & H2)].
      * left. split; [| auto]. intros [E | E]; auto.
      * right. exists (b :: pre), mid, post. split; [reflexivity|]. split; [| exact H2].
        intros [E | E]; auto.
Qed.

Lemma collect_from_defined : forall m horizon include route a,
  linked (follows m) route -> exists l t, collect_from m a route horizon include = Ok (l, t).
Proof.
  intros m horizon include; induction route as [| b r IH]; intros a H; cbn.
  - eauto.
  - destruct (Z.eqb_spec b a) as [-> | Hn].
    + destruct (collect_linked m horizon r a 0 H) as (l & t & E). rewrite E; eauto.
    + apply IH. destruct r; [exact I | exact (proj2 H)].
Qed.

Lemma linked_app : forall (R : id -> id -> Prop) l a l',
  linked R (l ++ [a]) -> linked R (a :: l') -> linked R (l ++ a :: l').
Proof.
  induction l as [| x l IH]; intros a l' H1 H2; [exact H2|].
  destruct l as [| y l].
  - cbn in *. destruct l'; tauto.
  - cbn [app] in *. destruct H1 as (H1 & H3). split; [exact H1|]. exact (IH a l' H3 H2).
Qed.

Lemma last_app_cons : forall (l l' : list id) a d, last (l ++ a :: l') d = last (a :: l') d.
Proof.
  induction l as [| x l IH]; intros l' a d; [reflexivity|].
  cbn [app]. rewrite last_cons by (destruct l; discriminate). apply IH.
Qed.

Lemma last_cons_any : forall (l : list id) a d, last (a :: l) d = last l a.
Proof.
  induction l as [| b l IH]; intros a d; [reflexivity|].
  rewrite last_cons by congruence. rewrite (IH b d), (IH b a). reflexivity.
Qed.

Lemma straight_follows : forall m a b, straight_next m a b -> follows m a b.
Proof. intros m a b H. eapply prefers_in; exact H. Qed.

(** The shape of what followingLanelets along a route returns. *)
Lemma following_route_shape : forall m n a route horizon include l,
  route <> [] -> following_route m n a route horizon include = Ok l ->
  exists pre mid post ext,
    route = pre ++ a :: mid ++ post /\ ~ In a pre /\
    l = (if include then [a] else []) ++ mid ++ ext /\
    linked (follows m) (a :: mid) /\ linked (straight_next m) (last mid a :: ext) /\
    ((ext = [] /\ horizon < total m mid) \/
     (post = [] /\ total m mid <= horizon /\
      (horizon <= total m mid + total m ext \/ next m (last ext (last mid a)) = []) /\
      (ext = [] \/ total m mid + total m (removelast ext) < horizon))).
Proof.
  intros m n a route horizon include l Hne H. unfold following_route in H.
  destruct route as [| r0 r]; [congruence|].
  remember (r0 :: r) as route eqn:Er.
  destruct (collect_from m a route horizon include) as [[l0 t] | | |] eqn:Ec; try discriminate.
  destruct (collect_from_ok _ _ _ _ _ _ _ Ec) as [(H1 & H2 & _) | (pre & mid & post & H1 & H2 & H3 & H4 & H5 & H6)].
  { subst l0. discriminate. }
  assert (Hl : l0 <> [] /\ (if Qle_bool t horizon then
            match following m n (last route r0) (horizon - t) false with
            | Some r => Ok (l0 ++ r) | None => NoFuel end else Ok l0) = Ok l).
  { destruct l0; [discriminate | split; [congruence | exact H]]. }
  clear H. destruct Hl as (Hl0 & H).
  exists pre, mid, post.
  destruct (Qle_bool t horizon) eqn:Et.
  - apply Qle_bool_iff in Et.
    assert (Hp : post = []) by (destruct H6 as [H6 | H6]; [auto | lra]). subst post.
    assert (Hlast : last route r0 = last mid a).
    { rewrite H1, app_nil_r, last_app_cons. apply last_cons_any. }
    rewrite Hlast in H. unfold following in H. rewrite follow_gather in H.
    destruct (gather m (pick_next m) n (last mid a) 0 (horizon - t)) as [ext|] eqn:Eg; [| discriminate].
    inversion H; subst l; clear H.
    apply gather_sound in Eg. destruct Eg as (G1 & G2 & G3).
    exists ext. split; [exact H1|]. split; [auto|].
    split; [rewrite H4; destruct include; reflexivity|].
    split; [auto|]. split; [apply linked_via_next; auto|].
    right. split; [auto|]. split; [lra|]. split.
    + destruct G2 as [G2 | G2]; [left; lra | right]. apply pick_none in G2. auto.
    + destruct G3 as [G3 | G3]; [auto | right; lra].
  - apply Qle_bool_false in Et. inversion H; subst l. exists [].
    split; [exact H1|]. split; [auto|].
    split; [rewrite H4, app_nil_r; destruct include; reflexivity|].
    split; [auto|]. split; [exact I|]. left; split; [auto | lra].
Qed.

(** ** The route planner *)
Lemma drop_same_suffix : forall ws p, exists dropped,
  ws = dropped ++ drop_same ws p /\ (forall w, In w dropped -> lane w = lane p) /\
  (forall w r, drop_same ws p = w :: r -> lane w <> lane p).
Proof.
  induction ws as [| w r IH]; intros p; cbn.
  - exists []. repeat split; [intros ? [] | discriminate].
  - unfold same_lane. destruct (Z.eqb_spec (lane w) (lane p)) as [E | E].
    + destruct (IH p) as (d & H1 & H2 & H3). exists (w :: d). cbn. rewrite <- H1.
      repeat split; auto. intros x [<- | Hx]; auto.
    + exists []. repeat split; [intros ? [] |]. intros w' r' H; inversion H; subst; auto.
Qed.
