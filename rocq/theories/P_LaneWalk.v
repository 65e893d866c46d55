(** More facts about walks: reversing a chain, walking along a route, going back and forth. *)
From Coq Require Import ZArith QArith List Bool Lia Lqa.
From Verif Require Import M_Lane S_Lane P_Lane.
Import ListNotations.
Local Open Scope Q_scope.

Lemma linked_app_one : forall (R : id -> id -> Prop) l a b,
  linked R (l ++ [a]) -> R a b -> linked R ((l ++ [a]) ++ [b]).
Proof.
  induction l as [| x l IH]; intros a b H1 H2; [cbn; auto|].
  destruct l as [| y l].
  - cbn in *. tauto.
  - cbn [app] in *. destruct H1 as (H1 & H3). split; [exact H1|]. exact (IH a b H3 H2).
Qed.

Lemma linked_rev : forall (R R' : id -> id -> Prop) l,
  (forall a b, R a b -> R' b a) -> linked R l -> linked R' (rev l).
Proof.
  intros R R' l H; induction l as [| a l IH]; [exact (fun x => x)|].
  destruct l as [| b l]; [exact (fun _ => I)|].
  intros (H1 & H2). specialize (IH H2). cbn [rev] in *.
  apply linked_app_one; auto.
Qed.

Lemma hd_rev : forall (l : list id) a, l <> [] -> hd_error (rev l) = Some (last l a).
Proof.
  intros l a H. destruct (@exists_last _ l H) as (l' & x & ->).
  rewrite rev_app_distr, last_last. reflexivity.
Qed.
Lemma last_rev : forall (l : list id) a d, hd_error l = Some a -> last (rev l) d = a.
Proof.
  destruct l as [| x l]; intros a d H; inversion H; subst. cbn. apply last_last.
Qed.

Lemma chain_rev : forall (R R' : id -> id -> Prop) a l b,
  (forall a b, R a b -> R' b a) -> chain R a l b -> chain R' b (rev l) a.
Proof.
  intros R R' a l b H (H1 & H2 & H3). repeat split.
  - rewrite (hd_rev l a) by (destruct l; [discriminate | congruence]). congruence.
  - apply last_rev; auto.
  - eapply linked_rev; eauto.
Qed.

Lemma total_app : forall m l l', total m (l ++ l') == total m l + total m l'.
Proof. induction l; intros l'; cbn; [lra | rewrite IHl; lra]. Qed.
Lemma total_rev : forall m l, total m (rev l) == total m l.
Proof. induction l; cbn; [lra | rewrite total_app; cbn; lra]. Qed.

Lemma removelast_rev : forall (l : list id), removelast (rev l) = rev (tl l).
Proof.
  destruct l as [| a l]; [reflexivity|]. cbn [rev tl].
  rewrite removelast_app by discriminate. cbn. apply app_nil_r.
Qed.
Lemma tl_rev : forall (l : list id), tl (rev l) = rev (removelast l).
Proof.
  intros l. destruct l as [| a l]; [reflexivity|].
  assert (H : a :: l <> []) by discriminate.
  destruct (@exists_last _ _ H) as (l' & x & E).
  rewrite E, rev_app_distr, removelast_last. reflexivity.
Qed.

(** A walk backwards read the other way is a walk forwards. *)
Lemma behind_ahead : forall m p l q, behind m p l q -> ahead m q (rev l) p.
Proof.
  intros m p l q H. unfold behind, ahead in *. rewrite removelast_rev, total_rev. lra.
Qed.
Lemma ahead_behind : forall m p l q, ahead m p l q -> behind m q (rev l) p.
Proof.
  intros m p l q H. unfold behind, ahead in *. rewrite tl_rev, total_rev. lra.
Qed.

(** ** Along a route *)
Lemma in_route_In : forall r a, in_route r a = true <-> In a r.
Proof.
  intros r a; unfold in_route; rewrite existsb_exists; split.
  - intros (x & H1 & H2). apply Z.eqb_eq in H2. subst; auto.
  - intros H; exists a; split; auto. apply Z.eqb_refl.
Qed.

Lemma move_over_none : forall m route l f p,
  (forall a, In a l -> ~ In a route) -> move_over m route l f p = (f, p).
Proof.
  induction l as [| a l IH]; intros f p H; [reflexivity|]. cbn.
  assert (E : in_route route a = false).
  { destruct (in_route route a) eqn:E; auto. apply in_route_In in E.
    exfalso; apply (H a); [left | ]; auto. }
  rewrite E. apply IH. intros; apply H; right; auto.
Qed.

Lemma move_over_one : forall m route l p,
  (forall l1 l2 l3 b c, l = l1 ++ b :: l2 ++ c :: l3 -> In b route -> In c route -> False) ->
  move_over m route l false p =
  match find (in_route route) l with
  | Some a => (true, at_lane p a (sval p - len m (lane p)))
  | None => (false, p)
  end.
Proof.
  induction l as [| a l IH]; intros p H; [reflexivity|]. cbn.
  destruct (in_route route a) eqn:E.
  - apply in_route_In in E.
    apply move_over_none. intros b Hb Hb'.
    apply in_split in Hb. destruct Hb as (l1 & l2 & ->).
    exact (H [] l1 l2 a b eq_refl E Hb').
  - apply IH. intros l1 l2 l3 b c -> Hb Hc.
    exact (H (a :: l1) l2 l3 b c eq_refl Hb Hc).
Qed.

Definition route_step (m : road) (route : list id) (a : id) : option id :=
  find (in_route route) (next m a).

Lemma canon_route_forth_fwd : forall m route, no_fork m route ->
  forall n p, canon_route_forth m route n p = fwd (len m) (route_step m route) Qltb n p.
Proof.
  intros m route H n; induction n; intros p; cbn; destruct (Qltb _ _); auto.
  rewrite move_over_one by (intros l1 l2 l3 b c E; exact (H (lane p) l1 l2 l3 b c E)).
  unfold route_step. destruct (find _ _) as [a|]; auto.
Qed.

(** [b] follows [a] and lies on the route. *)
Definition on_route (m : road) (route : list id) (a b : id) : Prop := In b (next m a) /\ In b route.

Lemma route_step_some : forall m route a b,
  route_step m route a = Some b -> on_route m route a b.
Proof.
  intros m route a b H. apply find_some in H. destruct H as (H1 & H2).
  apply in_route_In in H2. split; auto.
Qed.
Lemma route_step_complete : forall m route, no_fork m route -> forall a b,
  on_route m route a b -> route_step m route a = Some b.
Proof.
  intros m route H a b (H1 & H2). unfold route_step.
  destruct (find (in_route route) (next m a)) as [c|] eqn:E.
  - f_equal. destruct (Z.eq_dec c b) as [| Hn]; auto. exfalso.
    apply find_some in E. destruct E as (E1 & E2). apply in_route_In in E2.
    apply in_split in H1. destruct H1 as (l1 & l2 & Hs).
    rewrite Hs in E1. apply in_app_or in E1. destruct E1 as [E1 | [E1 | E1]].
    + apply in_split in E1. destruct E1 as (l3 & l4 & ->).
      rewrite <- app_assoc in Hs. exact (H a l3 l4 l2 c b Hs E2 H2).
    + congruence.
    + apply in_split in E1. destruct E1 as (l3 & l4 & ->).
      exact (H a l1 l3 l4 b c Hs H2 E2).
  - apply (find_none _ _ E) in H1. apply in_route_In in H2. congruence.
Qed.
Lemma route_step_none : forall m route a,
  route_step m route a = None <-> (forall b, In b (next m a) -> ~ In b route).
Proof.
  intros m route a; unfold route_step; split.
  - intros H b Hb Hb'. apply (find_none _ _ H) in Hb. apply in_route_In in Hb'. congruence.
  - intros H. destruct (find _ _) as [c|] eqn:E; auto. exfalso.
    apply find_some in E. destruct E as (E1 & E2). apply in_route_In in E2. exact (H c E1 E2).
Qed.

(** ** Back and forth *)
Section BackAndForth.
  Variable m : road.
  Hypothesis positive : forall a, 0 < len m a.
  Variable stepF stepB : id -> option id.

  Notation Fw := (fwd (len m) stepF (leave false)).
  Notation Bw := (bwd (len m) stepB).

  Lemma back_again :
    (forall a b, stepF a = Some b -> stepB b = Some a) ->
    forall n p q d, 0 <= sval p < len m (lane p) -> 0 <= d ->
    Fw n (at_lane p (lane p) (sval p + d)) = Canonical q ->
    exists n', canon_eq (Bw n' (at_lane q (lane q) (sval q - d))) (Canonical p).
  Proof.
    intros Hinv n p q d Hp Hd H.
    apply (fwd_sound m stepF false) in H.
    destruct H as (l & Hc & Ha & Hf & Ho & Hl). cbn in *.
    exists (length (rev l)).
    apply bwd_complete; auto; cbn.
    - apply (chain_rev (via stepF) (via stepB)); auto.
    - apply ahead_behind. unfold ahead in *; cbn in *. lra.
    - lra.
    - rewrite Ho; reflexivity.
    - right; lra.
  Qed.

  Lemma forth_again :
    (forall a b, stepB a = Some b -> stepF b = Some a) ->
    forall n p q d, 0 <= sval p < len m (lane p) -> d <= 0 -> sval p + d < 0 ->
    Bw n (at_lane p (lane p) (sval p + d)) = Canonical q ->
    exists n', canon_eq (Fw n' (at_lane q (lane q) (sval q - d))) (Canonical p).
  Proof.
    intros Hinv n p q d Hp Hd Hn H.
    apply (bwd_sound m stepB) in H.
    destruct H as (l & Hc & Ha & Hf & Ho & Hl). cbn in *.
    exists (length (rev l)).
    apply (fwd_complete m stepF false positive); auto; cbn.
    - apply (chain_rev (via stepB) (via stepF)); auto.
    - apply behind_ahead in Ha. unfold ahead in *; cbn in *. lra.
    - lra.
    - rewrite Ho; reflexivity.
    - right; lra.
  Qed.
End BackAndForth.

Lemma canon_eq_running : forall x y, canon_eq x y -> y <> Running -> x <> Running.
Proof. destruct x, y; cbn; congruence. Qed.

(** ** along: facts used by the theorems *)
Lemma along_eq : forall m n p d, along m n p d =
  if Qle_bool 0 (sval p + d)
  then fwd (len m) (pick_next m) (leave false) n (at_lane p (lane p) (sval p + d))
  else bwd (len m) (pick_previous m) n (at_lane p (lane p) (sval p + d)).
Proof.
  intros. unfold along. cbn [at_lane sval].
  destruct (Qle_bool _ _); [apply along_forth_fwd | apply along_back_bwd].
Qed.

Lemma along_forward : forall m n p d, 0 <= sval p + d ->
  along m n p d = fwd (len m) (pick_next m) (leave false) n (at_lane p (lane p) (sval p + d)).
Proof. intros m n p d H. rewrite along_eq. apply Qle_bool_iff in H. rewrite H. reflexivity. Qed.
Lemma along_backward : forall m n p d, sval p + d < 0 ->
  along m n p d = bwd (len m) (pick_previous m) n (at_lane p (lane p) (sval p + d)).
Proof. intros m n p d H. rewrite along_eq. apply Qle_bool_false in H. rewrite H. reflexivity. Qed.

Lemma along_more : forall m n n' p d, (n <= n')%nat -> along m n p d <> Running ->
  along m n' p d = along m n p d.
Proof.
  intros m n n' p d Hn H. rewrite !along_eq in *. destruct (Qle_bool _ _).
  - apply fwd_more; auto.
  - apply bwd_more; auto.
Qed.

Lemma along_morph : forall m n p q d d', pose_eq p q -> d == d' ->
  canon_eq (along m n p d) (along m n q d').
Proof.
  intros m n p q d d' H Hd. pose proof H as (H1 & H2 & H3). rewrite !along_eq.
  rewrite (Qle_bool_morph 0 (sval p + d) 0 (sval q + d')) by lra.
  assert (E : pose_eq (at_lane p (lane p) (sval p + d)) (at_lane q (lane q) (sval q + d')))
    by (repeat split; cbn; [auto | lra | auto]).
  destruct (Qle_bool _ _); [apply fwd_morph | apply bwd_morph]; auto.
Qed.

Lemma along_shift : forall m n p d1 d2,
  canon_eq (along m n p (d1 + d2)) (along m n (at_lane p (lane p) (sval p + d1)) d2).
Proof.
  intros m n p d1 d2. rewrite !along_eq. cbn [at_lane lane sval].
  rewrite (Qle_bool_morph 0 (sval p + (d1 + d2)) 0 (sval p + d1 + d2)) by lra.
  destruct (Qle_bool _ _); [apply fwd_morph | apply bwd_morph]; repeat split; cbn; lra.
Qed.

Lemma along_lands : forall m n p q d, (forall a, 0 < len m a) ->
  along m n p d = Canonical q -> 0 <= sval q < len m (lane q).
Proof.
  intros m n p q d Hpos H. rewrite along_eq in H. destruct (Qle_bool _ _) eqn:E.
  - apply fwd_sound in H. destruct H as (l & Hc & Ha & Hf & Ho & Hl). cbn in Hf.
    apply Qle_bool_iff in E. split; auto.
    destruct Hl as [-> | Hl]; [| exact Hl]. unfold ahead in Ha; cbn in Ha. lra.
  - apply bwd_sound in H. destruct H as (l & Hc & Ha & Hf & Ho & Hl). cbn in Hf.
    apply Qle_bool_false in E. split; auto.
    destruct Hl as [-> | Hl]; [| exact Hl]. unfold behind in Ha; cbn in Ha. lra.
Qed.

Lemma along_stays : forall m n p d, 0 <= sval p + d < len m (lane p) ->
  along m n p d = Canonical (at_lane p (lane p) (sval p + d)).
Proof.
  intros m n p d H. rewrite along_forward by lra. rewrite fwd_eq. cbn [at_lane lane sval].
  assert (E : leave false (len m (lane p)) (sval p + d) = false) by (apply leave_false; cbn; lra).
  rewrite E; reflexivity.
Qed.

(** A walk that gets somewhere gets to every place before it. *)
Lemma fwd_prefix : forall m step k n p d x,
  fwd (len m) step (leave k) n (at_lane p (lane p) (sval p + d)) = Canonical x -> 0 <= d ->
  exists q, fwd (len m) step (leave k) n p = Canonical q.
Proof.
  intros m step k; induction n; intros p d x H Hd; rewrite fwd_eq in H |- *;
    cbn [at_lane lane sval] in H.
  - destruct (leave k (len m (lane p)) (sval p + d)) eqn:E; [discriminate|].
    assert (E' : leave k (len m (lane p)) (sval p) = false).
    { apply leave_false in E; apply leave_false; destruct k; cbn in *; lra. }
    rewrite E'; eauto.
  - destruct (leave k (len m (lane p)) (sval p)) eqn:E'; [| eauto].
    assert (E : leave k (len m (lane p)) (sval p + d) = true).
    { apply leave_true in E'; apply leave_true; destruct k; cbn in *; lra. }
    rewrite E in H. destruct (step (lane p)) as [a|]; [| discriminate].
    set (y := at_lane p a (sval p - len m (lane p))) in *.
    assert (Hm : canon_eq (fwd (len m) step (leave k) n (at_lane y (lane y) (sval y + d)))
                          (Canonical x)).
    { rewrite <- H. apply fwd_morph. repeat split; cbn; lra. }
    destruct (fwd (len m) step (leave k) n (at_lane y (lane y) (sval y + d))) eqn:Ey; cbn in Hm;
      try contradiction.
    exact (IHn _ _ _ Ey Hd).
Qed.
Lemma bwd_prefix : forall m step n p d x,
  bwd (len m) step n (at_lane p (lane p) (sval p + d)) = Canonical x -> d <= 0 ->
  exists q, bwd (len m) step n p = Canonical q.
Proof.
  intros m step; induction n; intros p d x H Hd; rewrite bwd_eq in H |- *;
    cbn [at_lane lane sval] in H.
  - destruct (Qltb (sval p + d) 0) eqn:E; [discriminate|].
    assert (E' : Qltb (sval p) 0 = false).
    { apply Qltb_false in E; apply Qltb_false; lra. }
    rewrite E'; eauto.
  - destruct (Qltb (sval p) 0) eqn:E'; [| eauto].
    assert (E : Qltb (sval p + d) 0 = true).
    { apply Qltb_true in E'; apply Qltb_true; lra. }
    rewrite E in H. destruct (step (lane p)) as [a|]; [| discriminate].
    set (y := at_lane p a (sval p + len m a)) in *.
    assert (Hm : canon_eq (bwd (len m) step n (at_lane y (lane y) (sval y + d)))
                          (Canonical x)).
    { rewrite <- H. apply bwd_morph. repeat split; cbn; lra. }
    destruct (bwd (len m) step n (at_lane y (lane y) (sval y + d))) eqn:Ey; cbn in Hm;
      try contradiction.
    exact (IHn _ _ _ Ey Hd).
Qed.

Lemma along_compose_pos : forall m p q d1 d2 n1 n2, 0 <= sval p + d1 -> 0 <= d2 ->
  (forall a, 0 < len m a) ->
  along m n1 p d1 = Canonical q -> along m n2 q d2 <> Running ->
  canon_eq (along m (n1 + n2) p (d1 + d2)) (along m n2 q d2).
Proof.
  intros m p q d1 d2 n1 n2 H1 H2 Hpos Hq Hr.
  pose proof (along_lands _ _ _ _ _ Hpos Hq) as Hl.
  rewrite along_forward in Hq by auto. rewrite along_forward in Hr by lra.
  rewrite (along_forward m n2) by lra. rewrite along_forward by lra.
  eapply canon_eq_trans; [| apply (fwd_compose m _ false _ _ _ _ H2 Hq _ Hr)].
  apply fwd_morph. repeat split; cbn; lra.
Qed.

Lemma along_compose_neg : forall m p q d1 d2 n1 n2,
  0 <= sval p < len m (lane p) -> d1 <= 0 -> d2 <= 0 ->
  along m n1 p d1 = Canonical q -> along m n2 q d2 <> Running ->
  canon_eq (along m (n1 + n2) p (d1 + d2)) (along m n2 q d2).
Proof.
  intros m p q d1 d2 n1 n2 Hp H1 H2 Hq Hr.
  destruct (Qlt_le_dec (sval p + d1) 0) as [Hn | Hn].
  - rewrite along_backward in Hq by auto. rewrite along_backward by lra.
    pose proof (bwd_sound _ _ _ _ _ Hq) as (l & Hc & Hb & H0 & Ho & Hl).
    destruct (Qlt_le_dec (sval q + d2) 0) as [Hm | Hm].
    + rewrite along_backward in Hr by auto. rewrite (along_backward m n2) by auto.
      eapply canon_eq_trans; [| apply (bwd_compose m _ _ _ _ _ H2 Hq _ Hr)].
      apply bwd_morph. repeat split; cbn; lra.
    + assert (Hs : 0 <= sval q + d2 < len m (lane q)).
      { split; auto. destruct Hl as [-> | Hl]; [| lra]. unfold behind in Hb; cbn in Hb. lra. }
      rewrite (along_stays m n2) by auto.
      assert (Hb2 : bwd (len m) (pick_previous m) n2 (at_lane q (lane q) (sval q + d2))
                    = Canonical (at_lane q (lane q) (sval q + d2))).
      { rewrite bwd_eq. cbn [at_lane sval].
        assert (E : Qltb (sval q + d2) 0 = false) by (apply Qltb_false; auto).
        rewrite E; reflexivity. }
      rewrite <- Hb2.
      eapply canon_eq_trans; [| apply (bwd_compose m _ _ _ _ _ H2 Hq n2)].
      * apply bwd_morph. repeat split; cbn; lra.
      * rewrite Hb2. discriminate.
  - rewrite along_stays in Hq by lra. inversion Hq; subst q. clear Hq. cbn [at_lane lane sval].
    rewrite <- (along_more m n2 (n1 + n2)) by (auto; lia). apply along_shift.
Qed.

(** Round trips and free composition on a road without branches. *)
Definition one_way (m : road) : Prop :=
  forall a b, pick_next m a = Some b <-> pick_previous m b = Some a.

Lemma along_round_trip : forall m n p q d, (forall a, 0 < len m a) -> one_way m ->
  0 <= sval p < len m (lane p) -> along m n p d = Canonical q ->
  exists n', canon_eq (along m n' q (- d)) (Canonical p).
Proof.
  intros m n p q d Hpos Hw Hp H.
  pose proof (along_lands _ _ _ _ _ Hpos H) as Hq.
  destruct (Qlt_le_dec (sval p + d) 0) as [Hn | Hn].
  - rewrite along_backward in H by auto.
    pose proof (bwd_sound _ _ _ _ _ H) as (l & Hc & Hb & H0 & Ho & Hl).
    destruct (forth_again m Hpos (pick_next m) (pick_previous m)
                (fun a b E => proj2 (Hw b a) E) n p q d Hp) as (n' & Hn'); auto; [lra|].
    exists n'. rewrite along_forward by lra. exact Hn'.
  - destruct (Qlt_le_dec d 0) as [Hd | Hd].
    + rewrite along_stays in H by lra. inversion H; subst q. exists 0%nat.
      rewrite along_stays by (cbn; lra). cbn. repeat split; cbn; lra.
    + rewrite along_forward in H by auto.
      destruct (back_again m Hpos (pick_next m) (pick_previous m)
                  (fun a b E => proj1 (Hw a b) E) n p q d Hp Hd H) as (n' & Hn').
      destruct (Qlt_le_dec (sval q - d) 0) as [Hm | Hm].
      * exists n'. rewrite along_backward by lra. exact Hn'.
      * exists 0%nat. rewrite along_stays by lra.
        rewrite bwd_eq in Hn'. cbn [at_lane sval] in Hn'.
        assert (E : Qltb (sval q - d) 0 = false) by (apply Qltb_false; auto).
        rewrite E in Hn'. exact Hn'.
Qed.

Lemma canonical_eq : forall x p, canon_eq x (Canonical p) -> exists q, x = Canonical q /\ pose_eq q p.
Proof. intros [q | e |] p H; cbn in H; try contradiction. eauto. Qed.

Lemma along_prefix : forall m n p d x e, (forall a, 0 < len m a) ->
  0 <= sval p < len m (lane p) -> along m n p d = Canonical x ->
  (0 <= e <= d \/ d <= e <= 0) -> exists y, along m n p e = Canonical y.
Proof.
  intros m n p d x e Hpos Hp H Hd.
  destruct (Qlt_le_dec (sval p + e) 0) as [Hn | Hn].
  - assert (Hd' : d <= e <= 0) by lra.
    rewrite along_backward in H |- * by lra.
    assert (Hm : canon_eq (bwd (len m) (pick_previous m) n
                   (at_lane (at_lane p (lane p) (sval p + e)) (lane p) (sval p + e + (d - e))))
                   (Canonical x)).
    { rewrite <- H. apply bwd_morph. repeat split; cbn; lra. }
    apply canonical_eq in Hm. destruct Hm as (y & Hy & _).
    apply (bwd_prefix m (pick_previous m) n (at_lane p (lane p) (sval p + e)) (d - e) y); [exact Hy | lra].
  - destruct (Qlt_le_dec e 0) as [He | He].
    + rewrite along_stays by lra. eauto.
    + destruct Hd as [Hd | Hd].
      * rewrite along_forward in H |- * by lra.
        assert (Hm : canon_eq (fwd (len m) (pick_next m) (leave false) n
                       (at_lane (at_lane p (lane p) (sval p + e)) (lane p) (sval p + e + (d - e))))
                       (Canonical x)).
        { rewrite <- H. apply fwd_morph. repeat split; cbn; lra. }
        apply canonical_eq in Hm. destruct Hm as (y & Hy & _).
        apply (fwd_prefix m (pick_next m) false n (at_lane p (lane p) (sval p + e)) (d - e) y);
          [exact Hy | lra].
      * rewrite along_stays by lra. eauto.
Qed.

(** Two results for different fuel agree. *)
Lemma along_same : forall m n n' p d x y,
  along m n p d = x -> along m n' p d = y -> x <> Running -> y <> Running -> x = y.
Proof.
  intros m n n' p d x y H H' Hx Hy. subst.
  destruct (Nat.le_ge_cases n n') as [L | L].
  - symmetry; apply along_more; auto.
  - apply along_more; auto.
Qed.

Lemma along_terminates : forall m p d, real_lengths m -> exists n, along m n p d <> Running.
Proof.
  intros m p d (e & He & Hl).
  destruct (Qlt_le_dec (sval p + d) 0) as [Hn | Hn].
  - destruct (enough e (- (sval p + d)) He) as (n & H). exists n.
    rewrite along_backward by auto. eapply bwd_terminates; eauto.
  - destruct (enough e (sval p + d) He) as (n & H). exists n.
    rewrite along_forward by auto. eapply fwd_terminates; eauto.
Qed.

(** [q] is what moving from [p] by [d] gives. *)
Definition goes (m : road) (p : pose) (d : Q) (q : pose) : Prop :=
  exists n, canon_eq (along m n p d) (Canonical q).

Section Goes.
  Variable m : road.
  Hypothesis lengths : real_lengths m.

  Lemma lengths_pos : forall a, 0 < len m a.
  Proof. destruct lengths as (e & He & Hl). intro a; specialize (Hl a); lra. Qed.

  Lemma goes_morph : forall p p' d d' q q',
    pose_eq p p' -> d == d' -> pose_eq q q' -> goes m p d q -> goes m p' d' q'.
  Proof.
    intros p p' d d' q q' Hp Hd Hq (n & H). exists n.
    apply (canon_eq_trans _ (Canonical q)); [| exact Hq].
    apply (canon_eq_trans _ (along m n p d)); [| exact H].
    apply along_morph; [apply pose_eq_sym; auto | lra].
  Qed.

  Lemma goes_det : forall p d q r, goes m p d q -> goes m p d r -> pose_eq q r.
  Proof.
    intros p d q r (n & H) (n' & H').
    apply canonical_eq in H. destruct H as (q' & H & Eq).
    apply canonical_eq in H'. destruct H' as (r' & H' & Er).
    assert (E : Canonical q' = Canonical r')
      by (apply (along_same m n n' p d); auto; discriminate).
    inversion E; subst. eapply pose_eq_trans; [apply pose_eq_sym; exact Eq | exact Er].
  Qed.

  Lemma goes_lands : forall p d q, goes m p d q -> 0 <= sval q < len m (lane q).
  Proof.
    intros p d q (n & H). apply canonical_eq in H. destruct H as (q' & H & (E1 & E2 & _)).
    apply along_lands in H; [| exact lengths_pos]. rewrite <- E1. lra.
  Qed.

  Lemma goes_then : forall p q d1 d2 r,
    (0 <= sval p + d1 /\ 0 <= d2) \/ (0 <= sval p < len m (lane p) /\ d1 <= 0 /\ d2 <= 0) ->
    goes m p d1 q -> (goes m q d2 r <-> goes m p (d1 + d2) r).
  Proof.
    intros p q d1 d2 r Hs (n & H).
    apply canonical_eq in H. destruct H as (q' & H & Eq).
    assert (C : forall n2, along m n2 q' d2 <> Running ->
                canon_eq (along m (n + n2) p (d1 + d2)) (along m n2 q' d2)).
    { intros n2 Hr. destruct Hs as [(H1 & H2) | (H0 & H1 & H2)].
      - apply along_compose_pos; auto. exact lengths_pos.
      - apply along_compose_neg; auto. }
    destruct (along_terminates m q' d2 lengths) as (n2 & Hr).
    specialize (C n2 Hr). split; intros G.
    - destruct G as (n3 & G). apply canonical_eq in G. destruct G as (r' & G & Er).
      assert (G' : canon_eq (along m n3 q' d2) (Canonical r')).
      { rewrite <- G. apply along_morph; [exact Eq | lra]. }
      apply canonical_eq in G'. destruct G' as (r2 & G' & Er2).
      assert (E : along m n2 q' d2 = Canonical r2)
        by (apply (along_same m n2 n3 q' d2); auto; discriminate).
      exists (n + n2)%nat. eapply canon_eq_trans; [exact C|]. rewrite E. cbn.
      eapply pose_eq_trans; eauto.
    - destruct G as (n3 & G). apply canonical_eq in G. destruct G as (r' & G & Er).
      assert (NR : along m (n + n2) p (d1 + d2) <> Running)
        by (eapply canon_eq_running; [exact C | exact Hr]).
      assert (E : along m (n + n2) p (d1 + d2) = Canonical r')
        by (apply (along_same m (n + n2) n3 p (d1 + d2)); auto; discriminate).
      rewrite E in C. exists n2.
      apply (canon_eq_trans _ (along m n2 q' d2)).
      + apply along_morph; [apply pose_eq_sym; exact Eq | lra].
      + apply canon_eq_sym in C. eapply canon_eq_trans; [exact C | exact Er].
  Qed.

  Lemma goes_back : forall p q d, one_way m -> 0 <= sval p < len m (lane p) ->
    goes m p d q -> goes m q (- d) p.
  Proof.
    intros p q d Hw Hp (n & H). apply canonical_eq in H. destruct H as (q' & H & Eq).
    destruct (along_round_trip m n p q' d lengths_pos Hw Hp H) as (n' & Hn').
    exists n'. eapply canon_eq_trans; [| exact Hn'].
    apply along_morph; [apply pose_eq_sym; auto | lra].
  Qed.

  Lemma goes_between : forall p q d e, 0 <= sval p < len m (lane p) -> goes m p d q ->
    (0 <= e <= d \/ d <= e <= 0) -> exists r, goes m p e r.
  Proof.
    intros p q d e Hp (n & H) Hd. apply canonical_eq in H. destruct H as (q' & H & Eq).
    destruct (along_prefix m n p d q' e lengths_pos Hp H Hd) as (y & Hy).
    exists y, n. rewrite Hy. apply pose_eq_refl.
  Qed.

  Lemma goes_compose : forall p q r d1 d2, one_way m -> 0 <= sval p < len m (lane p) ->
    goes m p d1 q -> goes m q d2 r -> goes m p (d1 + d2) r.
  Proof.
    intros p q r d1 d2 Hw Hp H1 H2.
    pose proof (goes_lands _ _ _ H1) as Hq.
    pose proof (goes_lands _ _ _ H2) as Hr.
    destruct (Qlt_le_dec d1 0) as [S1 | S1]; destruct (Qlt_le_dec d2 0) as [S2 | S2].
    - apply (goes_then p q d1 d2 r); auto. right; lra.
    - destruct (Qlt_le_dec (d1 + d2) 0) as [S3 | S3].
      + destruct (goes_between p q d1 (d1 + d2) Hp H1) as (r' & Hr'); [lra|].
        assert (G : goes m r' (- d2) q).
        { apply (goes_then p r' (d1 + d2) (- d2) q); [right; lra | exact Hr' |].
          eapply goes_morph; [apply pose_eq_refl | | apply pose_eq_refl | exact H1]. lra. }
        pose proof (goes_lands _ _ _ Hr') as Hl.
        apply goes_back in G; auto.
        assert (E : pose_eq r' r).
        { apply (goes_det q d2); [| exact H2].
          eapply goes_morph; [apply pose_eq_refl | | apply pose_eq_refl | exact G]. lra. }
        eapply goes_morph; [apply pose_eq_refl | reflexivity | exact E | exact Hr'].
      + apply (goes_then q p (- d1) (d1 + d2) r).
        * left; lra.
        * apply goes_back; auto.
        * eapply goes_morph; [apply pose_eq_refl | | apply pose_eq_refl | exact H2]. lra.
    - destruct (Qlt_le_dec (d1 + d2) 0) as [S3 | S3].
      + apply (goes_then q p (- d1) (d1 + d2) r).
        * right; lra.
        * apply goes_back; auto.
        * eapply goes_morph; [apply pose_eq_refl | | apply pose_eq_refl | exact H2]. lra.
      + destruct (goes_between p q d1 (d1 + d2) Hp H1) as (r' & Hr'); [lra|].
        assert (G : goes m r' (- d2) q).
        { apply (goes_then p r' (d1 + d2) (- d2) q); [left; lra | exact Hr' |].
          eapply goes_morph; [apply pose_eq_refl | | apply pose_eq_refl | exact H1]. lra. }
        pose proof (goes_lands _ _ _ Hr') as Hl.
        apply goes_back in G; auto.
        assert (E : pose_eq r' r).
        { apply (goes_det q d2); [| exact H2].
          eapply goes_morph; [apply pose_eq_refl | | apply pose_eq_refl | exact G]. lra. }
        eapply goes_morph; [apply pose_eq_refl | reflexivity | exact E | exact Hr'].
    - apply (goes_then p q d1 d2 r); auto. left; lra.
  Qed.
End Goes.
