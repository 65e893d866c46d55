(** C37, C38, C39: canonical lanelet poses and moving along the road. *)
From Coq Require Import ZArith QArith List Bool Lia Lqa.
From Verif Require Import M_Lane S_Lane P_Lane P_LaneWalk.
Import ListNotations.
Local Open Scope Q_scope.

(** ** C37: canonicalizeLaneletPose *)

(** A pose with s >= 0 becomes the pose that lies the same distance down the road: going over the
    first following lanelet each time, leaving [removelast l] behind. *)
Theorem canonicalize_forward : forall m n p q,
  0 <= sval p -> canonicalize m n p = Canonical q ->
  on_lane m q /\ offset q = offset p /\
  exists l, chain (first_next m) (lane p) l (lane q) /\ ahead m p l q /\
            (l = [lane p] \/ 0 < sval q).
Proof.
  intros m n p q Hp H. rewrite canonicalize_nonneg, canon_forth_fwd in H by auto.
  apply (fwd_sound m _ true) in H. destruct H as (l & Hc & Ha & Hf & Ho & Hl). cbn in Hf, Hl.
  apply chain_via_first_next in Hc.
  split; [| split; [auto | exists l; auto]].
  split; auto. destruct Hl as [-> | Hl]; [| lra]. unfold ahead in Ha; cbn in Ha. lra.
Qed.

(** A pose with s < 0 becomes the pose that lies the same distance up the road. *)
Theorem canonicalize_backward : forall m n p q,
  sval p < 0 -> canonicalize m n p = Canonical q ->
  on_lane m q /\ offset q = offset p /\
  exists l, chain (first_previous m) (lane p) l (lane q) /\ behind m p l q /\
            sval q < len m (lane q).
Proof.
  intros m n p q Hp H. rewrite canonicalize_neg, canon_back_bwd in H by auto.
  apply bwd_sound in H. destruct H as (l & Hc & Ha & Hf & Ho & Hl).
  apply chain_via_first_previous in Hc.
  assert (Hq : sval q < len m (lane q)).
  { destruct Hl as [-> | Hl]; auto. unfold behind in Ha; cbn in Ha. lra. }
  split; [| split; [auto | exists l; auto]]. split; lra.
Qed.

(** On a consistent road the pose the backward search gives is one from which driving forward
    leads to the original place. *)
Theorem canonicalize_backward_is_upstream : forall m n p q,
  consistent m -> sval p < 0 -> canonicalize m n p = Canonical q ->
  exists l, chain (follows m) (lane q) l (lane p) /\ ahead m q l p.
Proof.
  intros m n p q Hm Hp H. destruct (canonicalize_backward m n p q Hp H) as (_ & _ & l & Hc & Hb & _).
  exists (rev l); split; [| apply behind_ahead; auto].
  eapply chain_rev; [| exact Hc]. intros a b Hab. apply Hm.
  unfold first_previous in Hab. destruct (previous m a); cbn in Hab; inversion Hab; left; auto.
Qed.

(** It gives up only where the road ends before the place is reached, and names that lanelet. *)
Theorem canonicalize_fails : forall m n p e,
  canonicalize m n p = EndOfRoad e ->
  (0 <= sval p /\ next m e = [] /\
     exists l, chain (first_next m) (lane p) l e /\ total m l < sval p) \/
  (sval p < 0 /\ previous m e = [] /\
     exists l, chain (first_previous m) (lane p) l e /\ sval p + total m (tl l) < 0).
Proof.
  intros m n p e H. destruct (Qlt_le_dec (sval p) 0) as [Hp | Hp].
  - right. rewrite canonicalize_neg, canon_back_bwd in H by auto.
    apply bwd_end in H. destruct H as (l & Hc & Hs & Ho).
    apply chain_via_first_previous in Hc. apply hd_error_none in Hs. eauto 6.
  - left. rewrite canonicalize_nonneg, canon_forth_fwd in H by auto.
    apply (fwd_end m _ true) in H. destruct H as (l & Hc & Hs & Ho).
    apply chain_via_first_next in Hc. apply hd_error_none in Hs. eauto 6.
Qed.

(** Conversely, if the road does not end before the place, the place is found. *)
Theorem canonicalize_finds : forall m p q l, (forall a, 0 < len m a) ->
  offset q == offset p ->
  (0 <= sval p /\ chain (first_next m) (lane p) l (lane q) /\ ahead m p l q /\
     on_lane m q /\ (l = [lane p] \/ 0 < sval q)) \/
  (sval p < 0 /\ chain (first_previous m) (lane p) l (lane q) /\ behind m p l q /\
     0 <= sval q < len m (lane q)) ->
  exists n q', canonicalize m n p = Canonical q' /\ pose_eq q' q.
Proof.
  intros m p q l Hpos Ho [(H0 & Hc & Ha & (H1 & H2) & Hl) | (H0 & Hc & Ha & (H1 & H2))];
    exists (length l); apply canonical_eq.
  - rewrite canonicalize_nonneg, canon_forth_fwd by auto.
    apply (fwd_complete m _ true Hpos); auto.
  - rewrite canonicalize_neg, canon_back_bwd by auto.
    apply bwd_complete; auto.
Qed.
Theorem canonicalize_fails_when : forall m p e l, (forall a, 0 < len m a) ->
  (0 <= sval p /\ next m e = [] /\ chain (first_next m) (lane p) l e /\ total m l < sval p) \/
  (sval p < 0 /\ previous m e = [] /\ chain (first_previous m) (lane p) l e /\
     sval p + total m (tl l) < 0) ->
  exists n, canonicalize m n p = EndOfRoad e.
Proof.
  intros m p e l Hpos [(H0 & Hn & Hc & Ht) | (H0 & Hn & Hc & Ht)]; exists (length l).
  - rewrite canonicalize_nonneg, canon_forth_fwd by auto.
    apply (fwd_end_complete m _ true Hpos); auto.
    apply hd_error_none; auto.
  - rewrite canonicalize_neg, canon_back_bwd by auto.
    apply bwd_end_complete; auto.
    apply hd_error_none; auto.
Qed.

(** It always comes to an end, also on circular roads, and the result does not depend on how long
    one is prepared to wait. *)
Theorem canonicalize_terminates : forall m p, real_lengths m ->
  exists n x, x <> Running /\ forall n', (n <= n')%nat -> canonicalize m n' p = x.
Proof.
  intros m p (e & He & Hl). destruct (Qlt_le_dec (sval p) 0) as [Hp | Hp].
  - destruct (enough e (- sval p) He) as (n & H).
    pose proof (bwd_terminates m (fun a => hd_error (previous m a)) e He Hl n p H) as T.
    exists n, (canonicalize m n p). split.
    + rewrite canonicalize_neg, canon_back_bwd by auto. exact T.
    + intros n' Hn. rewrite !canonicalize_neg, !canon_back_bwd by auto. apply bwd_more; auto.
  - destruct (enough e (sval p) He) as (n & H).
    pose proof (fwd_terminates m (fun a => hd_error (next m a)) true e He Hl n p H) as T.
    exists n, (canonicalize m n p). split.
    + rewrite canonicalize_nonneg, canon_forth_fwd by auto. exact T.
    + intros n' Hn. rewrite !canonicalize_nonneg, !canon_forth_fwd by auto.
      apply (fwd_more m _ true); auto.
Qed.

(** A pose that lies on its lanelet is left alone; so doing it twice changes nothing. *)
Theorem canonicalize_keeps : forall m n p, on_lane m p -> canonicalize m n p = Canonical p.
Proof.
  intros m n p (H1 & H2). rewrite canonicalize_nonneg, canon_forth_fwd by auto.
  rewrite (fwd_eq m _ true).
  assert (E : leave true (len m (lane p)) (sval p) = false) by (apply leave_false; auto).
  rewrite E; reflexivity.
Qed.
Theorem canonicalize_idempotent : forall m n n' p q,
  canonicalize m n p = Canonical q -> canonicalize m n' q = Canonical q.
Proof.
  intros m n n' p q H. apply canonicalize_keeps.
  destruct (Qlt_le_dec (sval p) 0) as [Hp | Hp].
  - exact (proj1 (canonicalize_backward m n p q Hp H)).
  - exact (proj1 (canonicalize_forward m n p q Hp H)).
Qed.

(** ** C38: canonicalizeLaneletPose along a route *)

(** As long as each lanelet has at most one continuation on the route, the pose stays on the
    route and on the same place. *)
Theorem route_canonicalize_forward : forall m route n p q,
  no_fork m route -> 0 <= sval p -> canonicalize_route m route n p = Canonical q ->
  on_lane m q /\ offset q = offset p /\
  exists l, chain (fun a b => follows m a b /\ In b route) (lane p) l (lane q) /\ ahead m p l q /\
            (l = [lane p] \/ 0 < sval q).
Proof.
  intros m route n p q Hf Hp H. unfold canonicalize_route in H.
  assert (E : Qltb (sval p) 0 = false) by (apply Qltb_false; auto). rewrite E in H.
  rewrite canon_route_forth_fwd in H by auto.
  apply (fwd_sound m _ true) in H. destruct H as (l & Hc & Ha & Hq & Ho & Hl). cbn in Hq, Hl.
  split; [| split; [auto | exists l; split; [| auto]]].
  - split; auto. destruct Hl as [-> | Hl]; [| lra]. unfold ahead in Ha; cbn in Ha. lra.
  - eapply chain_mono; [| exact Hc]. intros a b Hab. apply route_step_some; auto.
Qed.

Theorem route_canonicalize_fails : forall m route n p e,
  no_fork m route -> 0 <= sval p -> canonicalize_route m route n p = EndOfRoad e ->
  (forall b, follows m e b -> ~ In b route) /\
  exists l, chain (fun a b => follows m a b /\ In b route) (lane p) l e /\ total m l < sval p.
Proof.
  intros m route n p e Hf Hp H. unfold canonicalize_route in H.
  assert (E : Qltb (sval p) 0 = false) by (apply Qltb_false; auto). rewrite E in H.
  rewrite canon_route_forth_fwd in H by auto.
  apply (fwd_end m _ true) in H. destruct H as (l & Hc & Hs & Ho). cbn in Ho.
  split; [apply route_step_none; auto|]. exists l; split; auto.
  eapply chain_mono; [| exact Hc]. intros a b Hab. apply route_step_some; auto.
Qed.

Theorem route_canonicalize_finds : forall m route p q l, (forall a, 0 < len m a) ->
  no_fork m route -> offset q == offset p -> 0 <= sval p ->
  chain (fun a b => follows m a b /\ In b route) (lane p) l (lane q) -> ahead m p l q ->
  on_lane m q -> (l = [lane p] \/ 0 < sval q) ->
  exists n q', canonicalize_route m route n p = Canonical q' /\ pose_eq q' q.
Proof.
  intros m route p q l Hpos Hf Ho Hp Hc Ha (H1 & H2) Hl.
  exists (length l). apply canonical_eq. unfold canonicalize_route.
  assert (E : Qltb (sval p) 0 = false) by (apply Qltb_false; auto). rewrite E.
  rewrite canon_route_forth_fwd by auto.
  apply (fwd_complete m _ true Hpos); auto.
  eapply chain_mono; [| exact Hc]. intros a b Hab. apply route_step_complete; auto.
Qed.

Theorem route_canonicalize_terminates : forall m route p, real_lengths m -> no_fork m route ->
  exists n x, x <> Running /\ forall n', (n <= n')%nat -> canonicalize_route m route n' p = x.
Proof.
  intros m route p Hl Hf. destruct (Qlt_le_dec (sval p) 0) as [Hp | Hp].
  - destruct (canonicalize_terminates m p Hl) as (n & x & H1 & H2). exists n, x; split; auto.
    intros n' Hn. unfold canonicalize_route. apply Qltb_true in Hp. rewrite Hp. auto.
  - destruct Hl as (e & He & Hl). destruct (enough e (sval p) He) as (n & H).
    pose proof (fwd_terminates m (route_step m route) true e He Hl n p H) as T.
    assert (E : Qltb (sval p) 0 = false) by (apply Qltb_false; auto).
    exists n, (canonicalize_route m route n p). unfold canonicalize_route; rewrite E. split.
    + rewrite canon_route_forth_fwd by auto. exact T.
    + intros n' Hn. rewrite !canon_route_forth_fwd by auto. apply (fwd_more m _ true); auto.
Qed.

(** Without that condition the statement is false: where two continuations lie on the route, both
    lengths are taken off and the "canonical" pose has a negative coordinate on a lanelet the
    place is not on. *)
Definition C38_claim : Prop :=
  forall m route n p q, real_lengths m -> consistent m -> on_lane m {| lane := lane p; sval := 0; offset := 0 |} ->
    0 <= sval p -> canonicalize_route m route n p = Canonical q -> on_lane m q.

Definition fork_road : road :=
  {| next := fun a => if (a =? 1)%Z then [2; 3]%Z else [];
     previous := fun a => if (a =? 2)%Z then [1]%Z else if (a =? 3)%Z then [1]%Z else [];
     straight := fun a => (a =? 3)%Z;
     len := fun _ => 10 |}.

Lemma fork_real : real_lengths fork_road.
Proof. exists 1; split; [reflexivity | intro; cbn; lra]. Qed.
Lemma fork_consistent : consistent fork_road.
Proof.
  intros a b; cbn. destruct (Z.eqb_spec a 1) as [-> | Ha].
  - destruct (Z.eqb_spec b 2) as [-> | H2]; [cbn; tauto|].
    destruct (Z.eqb_spec b 3) as [-> | H3]; cbn; [tauto|].
    split; intros H; [| tauto]. repeat (destruct H as [H | H]; try congruence).
  - destruct (Z.eqb_spec b 2) as [-> | H2]; cbn; [split; [tauto | intros [H | []]; congruence]|].
    destruct (Z.eqb_spec b 3) as [-> | H3]; cbn; [split; [tauto | intros [H | []]; congruence]|].
    tauto.
Qed.

Theorem C38_refuted : ~ C38_claim.
Proof.
  intros H.
  specialize (H fork_road [1; 2; 3]%Z 5%nat {| lane := 1%Z; sval := 11; offset := 0 |}
                {| lane := 3%Z; sval := 11 - 10 - 10; offset := 0 |} fork_real fork_consistent).
  assert (E : on_lane fork_road {| lane := 3%Z; sval := 11 - 10 - 10; offset := 0 |}).
  { apply H; [split; cbn; lra | cbn; lra | reflexivity]. }
  destruct E as (E & _); cbn in E. lra.
Qed.

(** A pose before the start of its lanelet is canonicalised without looking at the route. *)
Theorem route_canonicalize_backward : forall m route n p,
  sval p < 0 -> canonicalize_route m route n p = canonicalize m n p.
Proof.
  intros m route n p H. unfold canonicalize_route. apply Qltb_true in H. rewrite H; reflexivity.
Qed.

(** Moving along a route always ends on a lanelet: at the place asked for, or else at the very end
    (or the very start) of a lanelet from which the route does not go on (or before which there is
    no road). *)
Theorem along_route_lands : forall m route n p d r, (forall a, 0 < len m a) -> no_fork m route ->
  along_route m route n p d = Some r ->
  on_lane m r /\ offset r = offset p /\
  (canonicalize_route m route n (shifted p d) = Canonical r \/
   (0 <= sval p + d /\ sval r == len m (lane r) /\ (forall b, follows m (lane r) b -> ~ In b route) /\
    exists l d', chain (fun a b => follows m a b /\ In b route) (lane p) l (lane r) /\
                 d' < d /\ ahead m (shifted p d') l r) \/
   (sval p + d < 0 /\ sval r == 0 /\ previous m (lane r) = [] /\
    exists l d', chain (first_previous m) (lane p) l (lane r) /\
                 d < d' /\ behind m (shifted p d') l r)).
Proof.
  intros m route n p d r Hpos Hf H. unfold along_route in H.
  change (at_lane p (lane p) (sval p + d)) with (shifted p d) in H.
  destruct (canonicalize_route m route n (shifted p d)) as [q | e |] eqn:E; [| | discriminate].
  - inversion H; subst q. destruct (Qlt_le_dec (sval p + d) 0) as [Hp | Hp].
    + rewrite route_canonicalize_backward in E by exact Hp.
      pose proof (canonicalize_backward m n (shifted p d) _ Hp E) as (H1 & H2 & _). auto.
    + pose proof (route_canonicalize_forward m route n (shifted p d) _ Hf Hp E) as (H1 & H2 & _). auto.
  - inversion H; subst r; clear H. cbn [at_lane lane sval offset shifted].
    pose proof (Hpos e) as He.
    destruct (Qlt_le_dec (sval p + d) 0) as [Hp | Hp].
    + assert (B : Qle_bool (sval p + d) 0 = true) by (apply Qle_bool_iff; lra).
      rewrite B. split; [split; cbn; lra|]. split; [reflexivity|]. right; right.
      rewrite route_canonicalize_backward in E by exact Hp.
      apply canonicalize_fails in E.
      destruct E as [(F & _) | (_ & Hn & l & Hc & Ht)]; [cbn in F; lra|]. cbn in Ht, Hc.
      split; auto. split; [reflexivity|]. split; auto.
      exists l, (- sval p - total m (tl l)). split; auto. split; [lra|].
      unfold behind; cbn. lra.
    + destruct (route_canonicalize_fails m route n (shifted p d) _ Hf Hp E) as (Hn & l & Hc & Ht).
      cbn in Ht, Hc.
      assert (Hne : l <> []) by (eapply chain_nonempty; eauto).
      assert (Hl : total m l == total m (removelast l) + len m e).
      { rewrite (total_split m l (lane p)) by auto. destruct Hc as (_ & -> & _). reflexivity. }
      assert (H0 : 0 <= total m (removelast l)).
      { apply total_nonneg. intro x; specialize (Hpos x); lra. }
      assert (B : Qle_bool (sval p + d) 0 = false) by (apply Qle_bool_false; lra).
      rewrite B. split; [split; cbn; lra|]. split; [reflexivity|]. right; left.
      split; auto. split; [reflexivity|]. split; auto.
      exists l, (total m l - sval p). split; auto. split; [lra|].
      unfold ahead; cbn. lra.
Qed.

(** ** C39: alongLaneletPose *)

Theorem along_forward_lands : forall m n p d q,
  0 <= sval p + d -> along m n p d = Canonical q ->
  0 <= sval q < len m (lane q) /\ offset q = offset p /\
  exists l, chain (straight_next m) (lane p) l (lane q) /\ ahead m (shifted p d) l q.
Proof.
  intros m n p d q Hp H. rewrite along_forward in H by auto.
  apply (fwd_sound m _ false) in H. destruct H as (l & Hc & Ha & Hf & Ho & Hl). cbn in *.
  split; [| split; [auto | exists l; split; [apply chain_via_straight_next; auto | exact Ha]]].
  split; auto. destruct Hl as [-> | Hl]; [| lra]. unfold ahead in Ha; cbn in Ha. lra.
Qed.
Theorem along_backward_lands : forall m n p d q,
  sval p + d < 0 -> along m n p d = Canonical q ->
  0 <= sval q < len m (lane q) /\ offset q = offset p /\
  exists l, chain (straight_previous m) (lane p) l (lane q) /\ behind m (shifted p d) l q.
Proof.
  intros m n p d q Hp H. rewrite along_backward in H by auto.
  apply bwd_sound in H. destruct H as (l & Hc & Ha & Hf & Ho & Hl). cbn in *.
  split; [| split; [auto | exists l; split; [apply chain_via_straight_previous; auto | exact Ha]]].
  split; auto. destruct Hl as [-> | Hl]; [| lra]. unfold behind in Ha; cbn in Ha. lra.
Qed.
Theorem along_fails : forall m n p d e, along m n p d = EndOfRoad e ->
  (0 <= sval p + d /\ next m e = [] /\
     exists l, chain (straight_next m) (lane p) l e /\ total m l <= sval p + d) \/
  (sval p + d < 0 /\ previous m e = [] /\
     exists l, chain (straight_previous m) (lane p) l e /\ sval p + d + total m (tl l) < 0).
Proof.
  intros m n p d e H. destruct (Qlt_le_dec (sval p + d) 0) as [Hp | Hp].
  - right. rewrite along_backward in H by auto.
    apply bwd_end in H. destruct H as (l & Hc & Hs & Ho).
    apply chain_via_straight_previous in Hc. apply pick_none in Hs. eauto 6.
  - left. rewrite along_forward in H by auto.
    apply (fwd_end m _ false) in H. destruct H as (l & Hc & Hs & Ho).
    apply chain_via_straight_next in Hc. apply pick_none in Hs. eauto 6.
Qed.
Theorem along_ends : forall m p d, real_lengths m ->
  exists n x, x <> Running /\ forall n', (n <= n')%nat -> along m n' p d = x.
Proof.
  intros m p d H. destruct (along_terminates m p d H) as (n & Hn).
  exists n, (along m n p d); split; auto. intros; apply along_more; auto.
Qed.

(** Moving by d1 and then by d2 is moving by d1 + d2, in either direction; also when the road ends
    under way. *)
Theorem along_composes : forall m p q d1 d2 n1 n2 x, (forall a, 0 < len m a) ->
  0 <= sval p < len m (lane p) ->
  (0 <= d1 /\ 0 <= d2) \/ (d1 <= 0 /\ d2 <= 0) ->
  along m n1 p d1 = Canonical q -> along m n2 q d2 = x -> x <> Running ->
  exists n y, along m n p (d1 + d2) = y /\
    match x, y with
    | Canonical r, Canonical r' => pose_eq r r'
    | EndOfRoad a, EndOfRoad b => a = b
    | _, _ => False
    end.
Proof.
  intros m p q d1 d2 n1 n2 x Hpos Hp Hd H1 H2 Hx.
  exists (n1 + n2)%nat, (along m (n1 + n2) p (d1 + d2)). split; auto.
  assert (C : canon_eq x (along m (n1 + n2) p (d1 + d2))).
  { apply canon_eq_sym. rewrite <- H2. destruct Hd as [(A & B) | (A & B)].
    - apply along_compose_pos; auto; [lra | congruence].
    - apply along_compose_neg; auto. congruence. }
  destruct x, (along m (n1 + n2) p (d1 + d2)); cbn in C; try contradiction; auto.
Qed.

(** On a road without branches it does not matter which way one goes first, and every move can be
    undone. *)
Theorem along_composes_both_ways : forall m p q r d1 d2 n1 n2, real_lengths m -> unbranched m ->
  0 <= sval p < len m (lane p) ->
  along m n1 p d1 = Canonical q -> along m n2 q d2 = Canonical r ->
  exists n r', along m n p (d1 + d2) = Canonical r' /\ pose_eq r' r.
Proof.
  intros m p q r d1 d2 n1 n2 Hl Hu Hp H1 H2.
  assert (Hw : one_way m).
  { intros a b. split; intro E; apply pick_next_spec; apply Hu; apply pick_next_spec; exact E. }
  destruct (goes_compose m Hl p q r d1 d2 Hw Hp) as (n & H).
  - exists n1. rewrite H1. apply pose_eq_refl.
  - exists n2. rewrite H2. apply pose_eq_refl.
  - apply canonical_eq in H. destruct H as (r' & H & E). eauto.
Qed.
Theorem along_can_be_undone : forall m p q d n1, real_lengths m -> unbranched m ->
  0 <= sval p < len m (lane p) -> along m n1 p d = Canonical q ->
  exists n p', along m n q (- d) = Canonical p' /\ pose_eq p' p.
Proof.
  intros m p q d n1 Hl Hu Hp H1.
  assert (Hw : one_way m).
  { intros a b. split; intro E; apply pick_next_spec; apply Hu; apply pick_next_spec; exact E. }
  destruct (along_round_trip m n1 p q d (lengths_pos m Hl) Hw Hp H1) as (n & H).
  apply canonical_eq in H. destruct H as (r' & H & E). eauto.
Qed.

(** Where lanes merge it does matter: going on over a merge and back again ends on another lane. *)
Definition C39_claim : Prop :=
  forall m p q r d1 d2 n1 n2, real_lengths m -> consistent m ->
    0 <= sval p < len m (lane p) ->
    along m n1 p d1 = Canonical q -> along m n2 q d2 = Canonical r ->
    exists n r', along m n p (d1 + d2) = Canonical r' /\ pose_eq r' r.

Definition merge_road : road :=
  {| next := fun a => if (a =? 2)%Z then [1]%Z else if (a =? 3)%Z then [1]%Z else [];
     previous := fun a => if (a =? 1)%Z then [2; 3]%Z else [];
     straight := fun a => false;
     len := fun _ => 10 |}.
Lemma merge_consistent : consistent merge_road.
Proof. intros a b; symmetry. apply fork_consistent. Qed.

Theorem C39_refuted : ~ C39_claim.
Proof.
  intros H.
  destruct (H merge_road {| lane := 3%Z; sval := 5; offset := 0 |}
              {| lane := 1%Z; sval := 5 + 6 - 10; offset := 0 |}
              {| lane := 2%Z; sval := 5 + 6 - 10 + -(6) + 10; offset := 0 |} 6 (-(6)) 3%nat 3%nat)
    as (n & r' & E & E').
  - exists 1; split; [reflexivity | intro; cbn; lra].
  - exact merge_consistent.
  - cbn; lra.
  - reflexivity.
  - reflexivity.
  - rewrite along_stays in E by (cbn; lra). inversion E; subst r'.
    destruct E' as (E1 & _). discriminate E1.
Qed.

(** How the two ways of normalising a pose relate: on a road where every lanelet has at most one
    continuation they give the same pose, except that a place exactly between two lanelets is the
    end of the first for one and the start of the second for the other. *)
Lemma fwd_strictness : forall m step, (forall a, 0 < len m a) -> forall n p q,
  fwd (len m) step (leave false) n p = Canonical q ->
  exists q', fwd (len m) step (leave true) n p = Canonical q' /\
    (q' = q \/ (sval q == 0 /\ step (lane q') = Some (lane q) /\ sval q' == len m (lane q'))).
Proof.
  intros m step Hpos; induction n; intros p q H; rewrite fwd_eq in H; rewrite fwd_eq.
  - destruct (leave false _ _) eqn:E; [discriminate|]. inversion H; subst.
    apply leave_false in E; cbn in E.
    assert (E' : leave true (len m (lane q)) (sval q) = false) by (apply leave_false; cbn; lra).
    rewrite E'. eauto.
  - destruct (leave false _ _) eqn:E.
    + destruct (step (lane p)) as [a|] eqn:Es; [| discriminate].
      destruct (leave true (len m (lane p)) (sval p)) eqn:E'; [auto|].
      apply leave_true in E. apply leave_false in E'. cbn in E, E'.
      exists p; split; [reflexivity|]. right.
      rewrite fwd_eq in H. cbn [at_lane lane sval] in H.
      assert (F : leave false (len m a) (sval p - len m (lane p)) = false).
      { apply leave_false; cbn. specialize (Hpos a). lra. }
      rewrite F in H. inversion H; subst q. cbn. repeat split; auto; lra.
    + inversion H; subst. apply leave_false in E; cbn in E.
      assert (E' : leave true (len m (lane q)) (sval q) = false) by (apply leave_false; cbn; lra).
      rewrite E'. eauto.
Qed.

Lemma fwd_step_ext : forall m s1 s2 k, (forall a, s1 a = s2 a) ->
  forall n p, fwd (len m) s1 (leave k) n p = fwd (len m) s2 (leave k) n p.
Proof.
  intros m s1 s2 k H n; induction n; intros p; rewrite !fwd_eq; auto.
  rewrite H. destruct (leave k _ _); auto. destruct (s2 (lane p)); auto.
Qed.

Theorem along_and_canonicalize_agree : forall m n p d q, (forall a, 0 < len m a) ->
  (forall a, (length (next m a) <= 1)%nat) -> 0 <= sval p + d ->
  along m n p d = Canonical q ->
  exists q', canonicalize m n (shifted p d) = Canonical q' /\
    (q' = q \/ (sval q == 0 /\ follows m (lane q') (lane q) /\ sval q' == len m (lane q'))).
Proof.
  intros m n p d q Hpos Hone Hp H. rewrite along_forward in H by auto.
  assert (Es : forall a, pick_next m a = hd_error (next m a)).
  { intro a. unfold pick_next, next_straight, pick. specialize (Hone a).
    destruct (next m a) as [| b [| c l]]; cbn in *; try lia; auto.
    destruct (straight m b); reflexivity. }
  rewrite (fwd_step_ext m _ _ false Es) in H.
  destruct (fwd_strictness m _ Hpos n _ _ H) as (q' & H1 & H2).
  exists q'; split.
  - rewrite canonicalize_nonneg, canon_forth_fwd by (cbn; auto). exact H1.
  - destruct H2 as [H2 | (A & B & C)]; auto. right; repeat split; auto.
    unfold follows. destruct (next m (lane q')); cbn in B; inversion B; left; auto.
Qed.

(** At a fork they can disagree about the lanelet. *)
Definition along_is_canonicalize_claim : Prop :=
  forall m n p d q q', real_lengths m -> consistent m -> 0 <= sval p + d ->
    along m n p d = Canonical q -> canonicalize m n (shifted p d) = Canonical q' ->
    0 < sval q -> lane q = lane q'.
Theorem along_is_canonicalize_refuted : ~ along_is_canonicalize_claim.
Proof.
  intros H.
  assert (E : (3 = 2)%Z).
  { refine (H fork_road 3%nat {| lane := 1%Z; sval := 5; offset := 0 |} 6
              {| lane := 3%Z; sval := 5 + 6 - 10; offset := 0 |}
              {| lane := 2%Z; sval := 5 + 6 - 10; offset := 0 |} fork_real fork_consistent _ _ _ _).
    - cbn; lra.
    - reflexivity.
    - reflexivity.
    - cbn; lra. }
  discriminate.
Qed.

(** ** The hypotheses are met *)
Definition ring : road :=
  {| next := fun a => [if (a =? 4)%Z then 1%Z else (a + 1)%Z];
     previous := fun a => [if (a =? 1)%Z then 4%Z else (a - 1)%Z];
     straight := fun _ => true;
     len := fun a => if (a =? 2)%Z then 7 else 5 |}.
Example ring_forward : exists q, canonicalize ring 20 {| lane := 3%Z; sval := 31; offset := 1 |} = Canonical q
  /\ lane q = 4%Z /\ sval q == 4 /\ offset q = 1.
Proof. eexists; split; [reflexivity|]. repeat split; reflexivity. Qed.
Example ring_backward : exists q, canonicalize ring 20 {| lane := 3%Z; sval := -(20); offset := 0 |} = Canonical q
  /\ lane q = 3%Z /\ sval q == 2.
Proof. eexists; split; [reflexivity|]. repeat split; reflexivity. Qed.
Example ring_real : real_lengths ring.
Proof. exists 5; split; [reflexivity|]. intro a; cbn. destruct (a =? 2)%Z; lra. Qed.
Example ring_unbranched_part : forall a b, (1 <= a <= 4)%Z -> (1 <= b <= 4)%Z ->
  (straight_next ring a b <-> straight_previous ring b a).
Proof.
  intros a b Ha Hb. unfold straight_next, straight_previous.
  rewrite <- !pick_next_spec. cbn.
  destruct (Z.eqb_spec a 4); destruct (Z.eqb_spec b 1); cbn; split; intro H; inversion H; subst;
    f_equal; lia.
Qed.
Example fork_fails : exists n, canonicalize fork_road n {| lane := 1%Z; sval := 25; offset := 0 |} = EndOfRoad 2%Z.
Proof. exists 3%nat; reflexivity. Qed.
Example route_used : canonicalize_route fork_road [1; 3]%Z 3 {| lane := 1%Z; sval := 11; offset := 0 |}
  = Canonical {| lane := 3%Z; sval := 11 - 10; offset := 0 |}.
Proof. reflexivity. Qed.
Example no_fork_met : no_fork fork_road [1; 3]%Z.
Proof.
  intros a l1 l2 l3 b c E Hb Hc. cbn in E. destruct (Z.eqb_spec a 1).
  - destruct l1 as [| x [| y l1]]; cbn in E; inversion E; subst.
    + cbn in Hb. intuition congruence.
    + destruct l2; discriminate.
    + destruct l1; discriminate.
  - destruct l1; discriminate.
Qed.
Example route_end : along_route fork_road [1; 3]%Z 5 {| lane := 1%Z; sval := 5; offset := 0 |} 100
  = Some {| lane := 3%Z; sval := 10; offset := 0 |}.
Proof. reflexivity. Qed.
(** An infinite straight road, on which every move can be undone. *)
Definition line : road :=
  {| next := fun a => [(a + 1)%Z]; previous := fun a => [(a - 1)%Z];
     straight := fun _ => true; len := fun _ => 10 |}.
Example line_unbranched : unbranched line.
Proof.
  intros a b. unfold straight_next, straight_previous. rewrite <- !pick_next_spec. cbn.
  split; intro H; inversion H; f_equal; lia.
Qed.
Example line_moves : exists q, along line 9 {| lane := 1%Z; sval := 3; offset := 0 |} 28 = Canonical q
  /\ lane q = 4%Z /\ sval q == 1.
Proof. eexists; split; [reflexivity|]. repeat split; reflexivity. Qed.

Print Assumptions canonicalize_forward.
Print Assumptions canonicalize_terminates.
Print Assumptions C38_refuted.
Print Assumptions along_route_lands.
Print Assumptions along_composes_both_ways.
