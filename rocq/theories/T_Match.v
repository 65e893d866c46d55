(** * Matching poses to lanes (C201-C206). *)
From Coq Require Import String List Bool Arith ZArith Reals Lia Lra.
From Verif Require Import M_Match S_Match.
Import ListNotations.
Local Open Scope R_scope.

Lemma le_spec : forall a b, le a b = true <-> a <= b.
Proof. intros a b. unfold le. destruct (Rle_dec a b); split; intros; try discriminate; auto; contradiction. Qed.
Lemma lt_spec : forall a b, lt a b = true <-> a < b.
Proof. intros a b. unfold lt. destruct (Rlt_dec a b); split; intros; try discriminate; auto; contradiction. Qed.
Lemma le_false : forall a b, le a b = false <-> b < a.
Proof. intros a b. unfold le. destruct (Rle_dec a b); split; intros; try discriminate; auto; lra. Qed.
Lemma lt_false : forall a b, lt a b = false <-> b <= a.
Proof. intros a b. unfold lt. destruct (Rlt_dec a b); split; intros; try discriminate; auto; lra. Qed.

Lemma pair_lt_spec : forall a b, pair_lt a b = true <-> fst a < fst b \/ (fst a = fst b /\ (snd a < snd b)%Z).
Proof.
  intros [a m] [b n]. unfold pair_lt. cbn. rewrite orb_true_iff, andb_true_iff, negb_true_iff, !lt_spec, lt_false, Z.ltb_lt.
  split.
  - intros [H|[H K]]; [left; lra|]. destruct (Req_dec a b); [right; auto|left; lra].
  - intros [H|[H K]]; [left; lra|right; split; [lra|exact K]].
Qed.
Lemma pair_lt_false : forall a b, pair_lt a b = false <-> ~ (fst a < fst b \/ (fst a = fst b /\ (snd a < snd b)%Z)).
Proof. intros a b. rewrite <- pair_lt_spec. destruct (pair_lt a b); split; intros; congruence. Qed.

Definition below (a b : R * Z) : Prop := fst a < fst b \/ (fst a = fst b /\ (snd a < snd b)%Z).
Fixpoint ascending (l : list (R * Z)) : Prop :=
  match l with [] => True | a :: l => (forall b, In b l -> below a b) /\ ascending l end.
Lemma below_trans : forall a b c, below a b -> below b c -> below a c.
Proof. unfold below. intros a b c [H|[H K]] [G|[G L]]; [left|left|left|right]; try lra. split; [lra|lia]. Qed.

Lemma insert_in : forall a l x, In x (insert a l) <-> x = a \/ In x l.
Proof.
  intros a l x. induction l as [|b l IH]; cbn [insert].
  - cbn. intuition.
  - destruct (pair_lt a b) eqn:A; [cbn; intuition|]. destruct (pair_lt b a) eqn:B.
    + cbn. rewrite IH. intuition.
    + apply pair_lt_false in A, B.
      assert (a = b) as <-.
      { destruct a as [a m], b as [b n]. cbn in *.
        assert (a = b) as <- by (destruct (Rtotal_order a b) as [H|[H|H]]; [exfalso; auto|exact H|exfalso; auto]).
        f_equal. destruct (Z.lt_trichotomy m n) as [H|[H|H]]; [exfalso; auto|exact H|exfalso; auto]. }
      cbn. intuition.
Qed.
Lemma insert_ascending : forall a l, ascending l -> ascending (insert a l).
Proof.
  intros a l. induction l as [|b l IH]; intros LS; cbn [insert].
  - split; [contradiction|exact I].
  - destruct LS as [L S']. destruct (pair_lt a b) eqn:A.
    + apply pair_lt_spec in A. cbn. repeat split; auto.
      intros c [<-|C]; [exact A|]. exact (below_trans _ _ _ A (L c C)).
    + destruct (pair_lt b a) eqn:B.
      * apply pair_lt_spec in B. split; [|apply IH; exact S'].
        intros c C. apply insert_in in C. destruct C as [->|C]; [exact B|exact (L c C)].
      * split; assumption.
Qed.
Lemma as_set_in : forall l x, In x (as_set l) <-> In x l.
Proof.
  intros l x. unfold as_set.
  assert (G : forall l acc, In x (fold_left (fun s a => insert a s) l acc) <-> In x acc \/ In x l).
  { clear l. induction l as [|a l IH]; intros acc; cbn [fold_left].
    - cbn. intuition.
    - rewrite IH, insert_in. cbn. intuition. }
  rewrite G. cbn. intuition.
Qed.
Lemma as_set_ascending : forall l, ascending (as_set l).
Proof.
  intros l. unfold as_set.
  assert (G : forall l acc, ascending acc -> ascending (fold_left (fun s a => insert a s) l acc)).
  { clear l. induction l as [|a l IH]; intros acc A; cbn [fold_left]; [exact A|]. apply IH, insert_ascending, A. }
  apply G. exact I.
Qed.

Section Pose.
Variable altitude : R.
Variable project : Z -> R -> option foot.
Variable ranked : list (R * Z).
Variable touched : R -> list Z.
Variable subtype : Z -> option string.
Variable passable : Z -> bool.
Variable length : Z -> R.
Notation on_lane := (on_lane altitude project).
Notation first_on := (first_on altitude project).
Notation lies_on := (lies_on altitude project).
Notation nearby := (nearby ranked subtype).
Notation by_position := (by_position altitude project ranked subtype).
Notation matching := (matching altitude project touched passable).
Notation match_box := (match_box altitude project touched passable).
Notation by_box := (by_box altitude project ranked touched subtype passable).

Lemma lies_on_det : forall d l p q, lies_on d l p -> lies_on d l q -> p = q.
Proof.
  intros d l [i x o y] [i' x' o' y'] (t & P & _ & _ & A & B & C & D & E) (t' & P' & _ & _ & A' & B' & C' & D' & E').
  rewrite P in P'. injection P' as <-. cbn in *. subst. f_equal.
  destruct (Rle_dec 0 (f_side t)) as [G|G]; [rewrite D, D' by exact G; reflexivity|].
  rewrite E, E' by lra. reflexivity.
Qed.

(** A pose has a position on a lane exactly when it is on it, and there it is. *)
Theorem C201_lane : forall d l p, on_lane d l = Some p <-> lies_on d l p.
Proof.
  assert (F : forall d l p, on_lane d l = Some p -> lies_on d l p).
  { intros d l p H. unfold M_Match.on_lane in H. destruct (project l d) as [t|] eqn:P; [|discriminate].
    destruct (le (Rabs (altitude - f_height t)) 1) eqn:A; [|discriminate]. cbn [negb] in H.
    apply le_spec in A. assert (- 1 <= altitude - f_height t <= 1) as A'
      by (destruct (Rcase_abs (altitude - f_height t)) as [N|N];
          [rewrite Rabs_left in A by exact N|rewrite Rabs_right in A by exact N]; lra).
    clear A. rename A' into A.
    destruct (lt (PI * 45 / 180) (Rabs (f_yaw t)) && lt (Rabs (f_yaw t)) (PI - PI * 45 / 180)) eqn:Y; [discriminate|].
    injection H as <-. exists t. split; [exact P|]. split; [exact A|]. cbn. split.
    - unfold heads_along. apply andb_false_iff in Y. rewrite !lt_false in Y. destruct Y as [Y|Y]; [left|right]; lra.
    - split; [reflexivity|]. split; [reflexivity|]. split; [reflexivity|].
      destruct (lt (f_side t) 0) eqn:S'; [apply lt_spec in S'|apply lt_false in S']; split; intros; lra. }
  intros d l p. split; [apply F|]. intros L.
  destruct (on_lane d l) as [q|] eqn:Q.
  - f_equal. exact (lies_on_det _ _ _ _ (F _ _ _ Q) L).
  - exfalso. destruct L as (t & P & A & Y & _). unfold M_Match.on_lane in Q. rewrite P in Q.
    replace (le (Rabs (altitude - f_height t)) 1) with true in Q
      by (symmetry; apply le_spec; apply Rabs_le; exact A).
    cbn [negb] in Q.
    destruct (lt (PI * 45 / 180) (Rabs (f_yaw t)) && lt (Rabs (f_yaw t)) (PI - PI * 45 / 180)) eqn:W; [|discriminate].
    apply andb_true_iff in W. rewrite !lt_spec in W. destruct Y as [Y|Y]; lra.
Qed.

Lemma on_lane_none : forall d l, on_lane d l = None <-> forall p, ~ lies_on d l p.
Proof.
  intros d l. split.
  - intros N p L. apply C201_lane in L. congruence.
  - intros N. destruct (on_lane d l) as [p|] eqn:P; [|reflexivity]. apply C201_lane in P. destruct (N p P).
Qed.

(** Of several lanes the first that the pose is on is taken. *)
Theorem C201_first : forall d ls p,
  first_on d ls = Some p <->
  exists l, first_with (fun l => exists p, lies_on d l p) ls l /\ lies_on d l p.
Proof.
  intros d ls p. induction ls as [|a ls IH]; cbn [M_Match.first_on].
  - split; [discriminate|]. intros (l & (b & c & E & _) & _). destruct b; discriminate.
  - destruct (on_lane d a) as [q|] eqn:Q.
    + apply C201_lane in Q. split.
      * intros [= <-]. exists a. split; [|exact Q]. exists [], ls. split; [reflexivity|]. split; [eauto|contradiction].
      * intros (l & ([|b bs] & c & E & _ & N) & L).
        -- injection E as -> _. f_equal. exact (lies_on_det _ _ _ _ Q L).
        -- injection E as -> _. destruct (N b (or_introl eq_refl)). eauto.
    + rewrite IH. pose proof (proj1 (on_lane_none d a) Q) as N. split.
      * intros (l & (b & c & -> & E & M) & L). exists l. split; [|exact L].
        exists (a :: b), c. split; [reflexivity|]. split; [exact E|].
        intros y [<-|Y]; [intros [r X]; exact (N r X)|exact (M y Y)].
      * intros (l & ([|b bs] & c & E & G & M) & L).
        -- injection E as -> _. destruct (N p L).
        -- injection E as <- ->. exists l. split; [|exact L]. exists bs, c. split; [reflexivity|]. split; [exact G|].
           intros y Y. apply M. right. exact Y.
Qed.
Lemma first_on_none : forall d ls, first_on d ls = None <-> forall l p, In l ls -> ~ lies_on d l p.
Proof.
  intros d ls. induction ls as [|a ls IH]; cbn [M_Match.first_on].
  - split; [intros _ l p []|reflexivity].
  - destruct (on_lane d a) as [q|] eqn:Q.
    + split; [discriminate|]. intros N. apply C201_lane in Q. destruct (N a q (or_introl eq_refl) Q).
    + rewrite IH. split.
      * intros N l p [<-|L]; [exact (proj1 (on_lane_none d a) Q p)|exact (N l p L)].
      * intros N l p L. apply N. right. exact L.
Qed.

Notation candidate := (candidate touched passable).
Lemma matching_in : forall crosswalks d o l,
  In (o, l) (matching crosswalks d) <->
  candidate crosswalks d l /\ exists p, lies_on d l p /\ offset p = o.
Proof.
  intros crosswalks d o l. unfold M_Match.matching. rewrite as_set_in, in_flat_map. split.
  - intros (l' & I' & H). destruct (on_lane d l') as [p|] eqn:P; [|contradiction]. destruct H as [E|[]].
    apply C201_lane in P. assert (id p = l') as K by (destruct P as (? & _ & _ & _ & ? & _); assumption).
    injection E as E1 E2. rewrite K in E2. subst l'. split; [|eauto].
    destruct crosswalks; [split; auto|]. apply filter_In in I'. split; [apply I'|right; apply I'].
  - intros [[A B] (p & L & <-)]. exists l. split.
    + destruct crosswalks; [exact A|]. apply filter_In. split; [exact A|]. destruct B; [discriminate|assumption].
    + pose proof (proj2 (C201_lane d l p) L) as ->. left.
      destruct L as (? & _ & _ & _ & -> & _). reflexivity.
Qed.
Lemma match_some : forall crosswalks d l,
  match_box crosswalks d = Some l ->
  candidate crosswalks d l /\ exists p, lies_on d l p /\
    forall l' p', candidate crosswalks d l' -> lies_on d l' p' ->
      Rabs (offset p) < Rabs (offset p') \/ (Rabs (offset p) = Rabs (offset p') /\ (l <= l')%Z).
Proof.
  intros crosswalks d l H. unfold M_Match.match_box in H.
  pose proof (as_set_ascending (map (fun p => (Rabs (fst p), snd p)) (matching crosswalks d))) as A.
  pose proof (as_set_in (map (fun p => (Rabs (fst p), snd p)) (matching crosswalks d))) as N.
  destruct (as_set (map (fun p => (Rabs (fst p), snd p)) (matching crosswalks d))) as [|[o i] rest]; [discriminate|].
  injection H as ->. destruct A as [A _].
  destruct (proj1 (in_map_iff _ _ _) (proj1 (N (o, l)) (or_introl eq_refl))) as ([x i] & E & M).
  cbn in E. injection E as E ->. apply matching_in in M. destruct M as [C (p & L & <-)].
  split; [exact C|]. exists p. split; [exact L|]. intros l' p' C' L'.
  assert (In (Rabs (offset p'), l') ((o, l) :: rest)) as [K|K].
  { apply N. apply in_map_iff. exists (offset p', l'). split; [reflexivity|]. apply matching_in. eauto. }
  - injection K as K <-. right. split; [congruence|lia].
  - destruct (A _ K) as [B|[B D]]; cbn in *; rewrite E; [left; exact B|right; split; [exact B|lia]].
Qed.
Lemma match_none : forall crosswalks d,
  match_box crosswalks d = None <-> forall l p, candidate crosswalks d l -> ~ lies_on d l p.
Proof.
  intros crosswalks d. split.
  - intros H l p C L. unfold M_Match.match_box in H.
    pose proof (as_set_in (map (fun p => (Rabs (fst p), snd p)) (matching crosswalks d)) (Rabs (offset p), l)) as N.
    destruct (as_set (map (fun p => (Rabs (fst p), snd p)) (matching crosswalks d))) as [|[o i] rest]; [|discriminate].
    apply N. apply in_map_iff. exists (offset p, l). split; [reflexivity|]. apply matching_in. eauto.
  - intros N. destruct (match_box crosswalks d) as [l|] eqn:E; [|reflexivity].
    destruct (match_some _ _ _ E) as (C & p & L & _). destruct (N l p C L).
Qed.

(** An entity whose box is on lanes is put on the one whose middle is nearest, whatever lanes precede or follow. *)
Theorem C201_box : forall previous next crosswalks d l q,
  candidate crosswalks d l -> lies_on d l q ->
  exists p, by_box previous next crosswalks d = Some p /\
    candidate crosswalks d (id p) /\ lies_on d (id p) p /\
    forall l' p', candidate crosswalks d l' -> lies_on d l' p' ->
      Rabs (offset p) < Rabs (offset p') \/ (Rabs (offset p) = Rabs (offset p') /\ (id p <= l')%Z).
Proof.
  intros previous next crosswalks d l q C L. unfold M_Match.by_box.
  destruct (match_box crosswalks d) as [m|] eqn:M.
  - destruct (match_some _ _ _ M) as (C' & p & L' & A).
    assert (id p = m) as K by (destruct L' as (? & _ & _ & _ & ? & _); assumption).
    exists p. rewrite (proj2 (C201_lane d m p) L'). rewrite K. auto.
  - exfalso. exact (proj1 (match_none crosswalks d) M l q C L).
Qed.
(** Otherwise its position alone counts. *)
Theorem C201_position : forall previous next crosswalks d,
  (forall l p, candidate crosswalks d l -> ~ lies_on d l p) ->
  by_box previous next crosswalks d = by_position crosswalks d.
Proof.
  intros previous next crosswalks d N. unfold M_Match.by_box. rewrite (proj2 (match_none crosswalks d) N). reflexivity.
Qed.
(** The lanes before and after the matched lane are never looked at. *)
Theorem C201_neighbours_refuted : forall previous next previous' next' crosswalks d,
  by_box previous next crosswalks d = by_box previous' next' crosswalks d.
Proof.
  intros previous next previous' next' crosswalks d. unfold M_Match.by_box.
  destruct (match_box crosswalks d) as [m|] eqn:M; [|reflexivity].
  destruct (match_some _ _ _ M) as (_ & p & L & _). rewrite (proj2 (C201_lane d m p) L). reflexivity.
Qed.
(** An entity that stands across all lanes around it is on none. *)
Theorem C201_across : forall previous next route crosswalks d,
  (forall l t, project l d = Some t -> PI / 4 < Rabs (f_yaw t) < 3 * PI / 4) ->
  by_route altitude project ranked touched subtype passable previous next route crosswalks d = None.
Proof.
  intros previous next route crosswalks d A.
  assert (N : forall l p, ~ lies_on d l p).
  { intros l p (t & P & _ & H & _). specialize (A _ _ P). destruct H; lra. }
  unfold M_Match.by_route. rewrite (proj2 (first_on_none d route) (fun l p _ => N l p)).
  rewrite C201_position by (intros l p _; apply N).
  unfold M_Match.by_position. apply first_on_none. intros l p _. apply N.
Qed.
(** The lanelets of the route come first, whichever is nearer. *)
Theorem C201_route : forall previous next route crosswalks d l p,
  first_with (fun l => exists p, lies_on d l p) route l -> lies_on d l p ->
  by_route altitude project ranked touched subtype passable previous next route crosswalks d = Some p.
Proof.
  intros previous next route crosswalks d l p F L. unfold M_Match.by_route.
  rewrite (proj2 (C201_first d route p) (ex_intro _ l (conj F L))). reflexivity.
Qed.
Theorem C201_off_route : forall previous next route crosswalks d,
  (forall l p, In l route -> ~ lies_on d l p) ->
  by_route altitude project ranked touched subtype passable previous next route crosswalks d
  = by_box previous next crosswalks d.
Proof.
  intros previous next route crosswalks d N. unfold M_Match.by_route. rewrite (proj2 (first_on_none d route) N). reflexivity.
Qed.

(** C202: the lanelets around a position. *)
Notation listed := (listed subtype).
Lemma by_distance_filter : forall f l, by_distance l -> by_distance (filter f l).
Proof.
  intros f l. induction l as [|a l IH]; intros AB; cbn [filter]; [exact I|]. destruct AB as [A B].
  destruct (f a); [|apply IH; exact B]. split; [|apply IH; exact B].
  intros b H. apply filter_In in H. apply A, H.
Qed.
Lemma by_distance_firstn : forall n l, by_distance l -> by_distance (firstn n l).
Proof.
  induction n as [|n IH]; intros [|a l] B; cbn [firstn]; try exact I. destruct B as [A B]. split; [|apply IH; exact B].
  intros b H. apply A. rewrite <- (firstn_skipn n l). apply in_or_app. left. exact H.
Qed.
Lemma beyond_all : forall t l, by_distance l -> beyond t l = true -> forall p, In p l -> t < fst p.
Proof.
  intros t [|[d i] l] B H p P; [destruct P|]. cbn in H. apply lt_spec in H. destruct P as [<-|P]; [exact H|].
  destruct B as [B _]. specialize (B p P). cbn in *. lra.
Qed.
Lemma not_crosswalk_listed : forall p, not_crosswalk subtype p = true <-> listed false (snd p).
Proof.
  intros p. unfold M_Match.not_crosswalk, S_Match.listed. destruct (subtype (snd p)) as [t|] eqn:T.
  - rewrite negb_true_iff, String.eqb_neq. split; [intros H; right; eauto|].
    intros [H|(t' & H & N)]; [discriminate|]. injection H as <-. exact N.
  - split; [discriminate|]. intros [H|(t' & H & N)]; discriminate.
Qed.

(** They are those of the nearest few that are within the threshold (and have a subtype other than
    crosswalk, if crosswalks are not asked for), nearest first. *)
Theorem C202_nearby : forall threshold crosswalks count,
  by_distance ranked ->
  exists found, nearby threshold crosswalks count = map snd found /\ by_distance found /\
    forall d l, In (d, l) found <->
      In (d, l) (firstn count ranked) /\ d <= threshold /\ listed crosswalks l.
Proof.
  intros threshold crosswalks count B.
  pose proof (by_distance_firstn count _ B) as BN. unfold M_Match.nearby.
  destruct (beyond threshold (firstn count ranked)) eqn:E.
  { exists []. split; [reflexivity|]. split; [exact I|]. intros d l. split; [contradiction|].
    intros (A & C & _). pose proof (beyond_all _ _ BN E _ A). cbn in *. lra. }
  set (kept := if crosswalks then firstn count ranked else filter (not_crosswalk subtype) (firstn count ranked)).
  assert (BK : by_distance kept) by (subst kept; destruct crosswalks; [exact BN|apply by_distance_filter, BN]).
  assert (K : forall d l, In (d, l) kept <-> In (d, l) (firstn count ranked) /\ listed crosswalks l).
  { intros d l. subst kept. destruct crosswalks.
    - split; [intros H; split; [exact H|left; reflexivity]|intros H; apply H].
    - rewrite filter_In, not_crosswalk_listed. reflexivity. }
  destruct (beyond threshold kept) eqn:E2.
  { exists []. split; [reflexivity|]. split; [exact I|]. intros d l. split; [contradiction|].
    intros (A & C & D). pose proof (beyond_all _ _ BK E2 (d, l) (proj2 (K d l) (conj A D))). cbn in *. lra. }
  exists (filter (fun p => le (fst p) threshold) kept). split; [reflexivity|]. split; [apply by_distance_filter, BK|].
  intros d l. rewrite filter_In, K, le_spec. cbn. tauto.
Qed.
(** A position is put on the nearest of these lanes that it is on. *)
Theorem C202_position : forall crosswalks d p,
  by_position crosswalks d = Some p <->
  exists l, first_with (fun l => exists p, lies_on d l p) (nearby (1 / 10) crosswalks 5) l /\ lies_on d l p.
Proof. intros crosswalks d p. apply C201_first. Qed.

(** C203: an alternative position to which there is a route. *)
Variable canonicalize : lane_pose -> option lane_pose * option Z.
Variable route : Z -> list Z.
Notation to_canonical := (to_canonical canonicalize).
Notation alternatives := (alternatives altitude project touched passable canonicalize route).
Notation alternative := (alternative altitude project touched passable canonicalize route).
Notation option_at := (option_at altitude project touched passable canonicalize route).

Lemma to_canonical_spec : forall q p, to_canonical q = Some p <->
  ~ zero_pose q /\ fst (canonicalize q) = Some p.
Proof.
  intros q p. unfold M_Match.to_canonical.
  assert (Z' : zero q = true <-> zero_pose q).
  { unfold zero, same, zero_pose. rewrite !andb_true_iff, Z.eqb_eq.
    destruct (Req_EM_T (s q) 0), (Req_EM_T (offset q) 0), (Req_EM_T (yaw q) 0); intuition congruence. }
  rewrite <- Z'. destruct (zero q); intuition congruence.
Qed.
Lemma option_at_iff : forall to l q p, option_at to l q p <->
  candidate false 3 l /\ l <> id to /\ route l <> [] /\ lies_on 3 l q /\ to_canonical q = Some p.
Proof. intros to l q p. rewrite to_canonical_spec. reflexivity. Qed.

Lemma no_route_spec : forall l, no_route route l = true <-> route l = [].
Proof. intros l. unfold no_route. destruct (route l); split; intros; congruence. Qed.

Lemma shortest_spec : forall l best,
  exists before after, best :: l = before ++ shortest best l :: after /\
    (forall a, In a before -> (snd (shortest best l) < snd a)%nat) /\
    (forall a, In a after -> (snd (shortest best l) <= snd a)%nat).
Proof.
  induction l as [|a l IH]; intros best; cbn [shortest].
  - exists [], []. split; [reflexivity|]. split; intros ? [].
  - destruct (Nat.ltb_spec (snd a) (snd best)) as [H|H].
    + destruct (IH a) as (b & c & E & B & C). exists (best :: b), c. cbn [app]. split; [f_equal; exact E|]. split; [|exact C].
      intros x [<-|X]; [|exact (B x X)].
      assert (K : In a (b ++ shortest a l :: c)) by (rewrite <- E; left; reflexivity).
      apply in_app_or in K. destruct K as [K|[K|K]];
        [specialize (B a K); lia|rewrite K; exact H|specialize (C a K); lia].
    + destruct (IH best) as ([|x b] & c & E & B & C).
      * cbn [app] in E. injection E as E1 E2. exists [], (a :: c). cbn [app]. split; [congruence|]. split; [intros ? []|].
        intros y [<-|Y]; [rewrite <- E1; exact H|exact (C y Y)].
      * cbn [app] in E. injection E as <- E2. exists (best :: a :: b), c. cbn [app]. split; [congruence|]. split; [|exact C].
        pose proof (B best (or_introl eq_refl)) as K.
        intros y [<-|[<-|Y]]; [exact K|lia|apply B; right; exact Y].
Qed.

Definition entry (to : lane_pose) (m : R * Z) : list (lane_pose * nat) :=
  if Z.eqb (snd m) (id to) || no_route route (snd m) then []
  else match on_lane 3 (snd m) with
       | None => []
       | Some p => match to_canonical p with
                   | None => []
                   | Some p => [(p, List.length (route (snd m)))]
                   end
       end.
Lemma entry_in : forall to m a, In a (entry to m) <->
  exists q, (snd m <> id to /\ route (snd m) <> [] /\ lies_on 3 (snd m) q /\ to_canonical q = Some (fst a)) /\
    snd a = List.length (route (snd m)).
Proof.
  intros to m [p n]. unfold entry. cbn [fst snd].
  destruct (Z.eqb_spec (snd m) (id to)) as [D|D]; cbn [orb].
  { split; [contradiction|]. intros (q & (A & _) & _). contradiction. }
  destruct (no_route route (snd m)) eqn:N.
  { apply no_route_spec in N. split; [contradiction|]. intros (q & (_ & A & _) & _). contradiction. }
  assert (route (snd m) <> []) as G by (rewrite <- no_route_spec; congruence).
  destruct (on_lane 3 (snd m)) as [q|] eqn:Q.
  - apply C201_lane in Q. destruct (to_canonical q) as [r|] eqn:R'.
    + split.
      * intros [H|[]]. injection H as <- <-. exists q. auto 6.
      * intros (q' & (_ & _ & L & T) & ->). rewrite (lies_on_det _ _ _ _ L Q) in T. left. congruence.
    + split; [contradiction|]. intros (q' & (_ & _ & L & T) & _). rewrite (lies_on_det _ _ _ _ L Q) in T. congruence.
  - split; [contradiction|]. intros (q' & (_ & _ & L & T) & _). destruct (proj1 (on_lane_none 3 (snd m)) Q _ L).
Qed.
Lemma entry_short : forall to m, entry to m = [] \/ exists a, entry to m = [a].
Proof.
  intros to m. unfold entry.
  destruct (Z.eqb (snd m) (id to) || no_route route (snd m)); [left; reflexivity|].
  destruct (on_lane 3 (snd m)) as [q|]; [|left; reflexivity].
  destruct (to_canonical q); [right; eauto|left; reflexivity].
Qed.
Lemma alternatives_in : forall to a, In a (alternatives to) <->
  exists l q, option_at to l q (fst a) /\ snd a = List.length (route l).
Proof.
  intros to a. unfold M_Match.alternatives. fold (entry to). rewrite in_flat_map. split.
  - intros ([o l] & M & E). apply entry_in in E. destruct E as (q & (A & B & C & D) & F). cbn [snd] in *.
    apply matching_in in M. exists l, q. split; [|exact F]. apply option_at_iff. split; [apply M|]. auto.
  - intros (l & q & O & F). apply option_at_iff in O. destruct O as (C & A & B & L & T). exists (offset q, l). split; [apply matching_in; eauto|].
    apply entry_in. cbn [snd]. eauto 8.
Qed.
(** The alternatives are in the order of the offsets. *)
Lemma alternatives_split : forall to before a after, alternatives to = before ++ a :: after ->
  exists l q, option_at to l q (fst a) /\ snd a = List.length (route l) /\
    forall l' q' p', option_at to l' q' p' -> offset q' < offset q -> In (p', List.length (route l')) before.
Proof.
  intros to before a after E. unfold M_Match.alternatives in E. fold (entry to) in E.
  pose proof (as_set_ascending (flat_map (fun l => match on_lane 3 l with Some p => [(offset p, id p)] | None => [] end)
     (filter passable (touched 3)))) as S'. fold (matching false 3) in S'.
  assert (G : forall ms before, ascending ms -> flat_map (entry to) ms = before ++ a :: after ->
    exists m b c, ms = b ++ m :: c /\ before = flat_map (entry to) b /\ entry to m = [a]).
  { clear. induction ms as [|m ms IH]; intros before S' E; cbn [flat_map] in E.
    - destruct before; discriminate.
    - destruct S' as [_ S']. destruct (entry_short to m) as [N|[x N]]; rewrite N in E.
      + destruct (IH before S' E) as (m' & b & c & -> & -> & H). exists m', (m :: b), c. split; [reflexivity|].
        split; [cbn [flat_map]; rewrite N; reflexivity|exact H].
      + cbn [app] in E. destruct before as [|y before].
        * injection E as -> _. exists m, [], ms. split; [reflexivity|]. split; [reflexivity|exact N].
        * injection E as <- E. destruct (IH before S' E) as (m' & b & c & -> & -> & H). exists m', (m :: b), c.
          split; [reflexivity|]. split; [cbn [flat_map]; rewrite N; reflexivity|exact H]. }
  destruct (G _ _ S' E) as ([o l] & b & c & M & -> & H).
  assert (HI : In a (entry to (o, l))) by (rewrite H; left; reflexivity).
  apply entry_in in HI. destruct HI as (q & (A & B & L & T) & F). cbn [snd] in *.
  assert (MI : In (o, l) (matching false 3)) by (rewrite M; apply in_or_app; right; left; reflexivity).
  pose proof (proj1 (matching_in _ _ _ _) MI) as [C (q2 & L2 & O)]. rewrite (lies_on_det _ _ _ _ L2 L) in O.
  exists l, q. split; [apply option_at_iff; split; auto|]. split; [exact F|].
  intros l' q' p' P' O'. apply option_at_iff in P'. destruct P' as (C' & A' & B' & L' & T').
  apply in_flat_map. exists (offset q', l'). split; [|apply entry_in; cbn [fst snd]; eauto 8].
  assert (MI' : In (offset q', l') (matching false 3)) by (apply matching_in; eauto).
  rewrite M in MI'. apply in_app_or in MI'. destruct MI' as [K|[K|K]]; [exact K| |].
  - injection K as K _. lra.
  - exfalso. rewrite M in S'. clear - S' K O O'.
    induction b as [|x b IH]; cbn [app] in S'; destruct S' as [D S']; [|exact (IH S')].
    destruct (D _ K) as [X|[X _]]; cbn in X; lra.
Qed.

(** A lane with a route to it is kept. *)
Theorem C203_own : forall to, route (id to) <> [] -> alternative to = Some to.
Proof.
  intros to N. unfold M_Match.alternative. destruct (no_route route (id to)) eqn:E; [|reflexivity].
  apply no_route_spec in E. contradiction.
Qed.
(** Otherwise one of the lanes around with a shortest route is taken; of equally short ones, that with the
    smallest (signed) offset. *)
Theorem C203_shortest : forall to p, route (id to) = [] -> alternative to = Some p ->
  exists l q, option_at to l q p /\
    forall l' q' p', option_at to l' q' p' ->
      (List.length (route l) < List.length (route l'))%nat \/
      (List.length (route l) = List.length (route l') /\ offset q <= offset q').
Proof.
  intros to p N H. unfold M_Match.alternative in H. rewrite (proj2 (no_route_spec (id to)) N) in H. cbn [negb] in H.
  pose proof (alternatives_in to) as AI. pose proof (alternatives_split to) as AS.
  destruct (alternatives to) as [|a rest]; [discriminate|]. injection H as <-.
  destruct (shortest_spec rest a) as (b & c & E & B & C).
  destruct (AS b _ c E) as (l & q & O & F & P). exists l, q. split; [exact O|].
  intros l' q' p' O'.
  assert (K : In (p', List.length (route l')) (a :: rest)) by (apply AI; cbn [fst snd]; eauto).
  rewrite <- F.
  assert (Q : (snd (shortest a rest) <= List.length (route l'))%nat).
  { rewrite E in K. apply in_app_or in K. destruct K as [K|[K|K]].
    - specialize (B _ K). cbn in B. lia.
    - rewrite K. reflexivity.
    - exact (C _ K). }
  destruct (Rlt_dec (offset q') (offset q)) as [R'|R'].
  - left. exact (B _ (P _ _ _ O' R')).
  - destruct (Nat.eq_dec (snd (shortest a rest)) (List.length (route l'))); [right; split; [assumption|lra]|left; lia].
Qed.
(** There is none only if there is none around. *)
Theorem C203_none : forall to,
  alternative to = None <-> route (id to) = [] /\ forall l q p, ~ option_at to l q p.
Proof.
  intros to. unfold M_Match.alternative. pose proof (alternatives_in to) as AI. split.
  - intros H. destruct (no_route route (id to)) eqn:N; [|discriminate]. cbn [negb] in H. apply no_route_spec in N.
    split; [exact N|]. intros l q p O. destruct (alternatives to) as [|a rest]; [|discriminate].
    apply (AI (p, List.length (route l))). eauto.
  - intros [N O]. rewrite (proj2 (no_route_spec (id to)) N). cbn [negb].
    destruct (alternatives to) as [|a rest]; [reflexivity|].
    destruct (proj1 (AI a) (or_introl eq_refl)) as (l & q & K & _). destruct (O _ _ _ K).
Qed.

(** C204: pedestrians. *)
Notation pedestrian := (pedestrian altitude project ranked touched subtype passable).
Notation canonical_by_route := (canonical_by_route altitude project ranked touched subtype passable).
(** No lane is found for it: none matches, or what matches is no pose or has no canonical form. *)
Definition off_lanes (previous next : Z -> list Z) (way : list Z) (crosswalks : bool) (d : R) : Prop :=
  forall q p, by_route altitude project ranked touched subtype passable previous next way crosswalks d = Some q ->
    ~ zero_pose q -> fst (canonicalize q) <> Some p.
Lemma off_lanes_none : forall previous next way crosswalks d,
  off_lanes previous next way crosswalks d ->
  canonical_by_route previous next canonicalize way crosswalks d = None.
Proof.
  intros previous next way crosswalks d H. unfold M_Match.canonical_by_route.
  destruct (by_route altitude project ranked touched subtype passable previous next way crosswalks d) as [q|] eqn:Q; [|reflexivity].
  destruct (to_canonical q) as [p|] eqn:T; [|reflexivity]. apply to_canonical_spec in T.
  destruct (H q p Q (proj1 T) (proj2 T)).
Qed.
(** A pedestrian on a lane is there. *)
Theorem C204_on_lane : forall previous next way crosswalks d q p,
  by_route altitude project ranked touched subtype passable previous next way crosswalks d = Some q ->
  ~ zero_pose q -> fst (canonicalize q) = Some p ->
  pedestrian previous next length canonicalize way crosswalks d = Found p.
Proof.
  intros previous next way crosswalks d q p H Z' C. unfold M_Match.pedestrian, M_Match.canonical_by_route.
  rewrite H, (proj2 (to_canonical_spec q p) (conj Z' C)). reflexivity.
Qed.
(** One that is nowhere is looked for within two metres, by its position alone. *)
Theorem C204_near : forall previous next way crosswalks d q p,
  off_lanes previous next way crosswalks d ->
  by_position crosswalks 2 = Some q -> ~ zero_pose q -> fst (canonicalize q) = Some p ->
  pedestrian previous next length canonicalize way crosswalks d = Found p.
Proof.
  intros previous next way crosswalks d q p H B Z' C. unfold M_Match.pedestrian.
  rewrite (off_lanes_none _ _ _ _ _ H), B, (proj2 (to_canonical_spec q p) (conj Z' C)).
  destruct (canonicalize q) as [[r|] e]; [reflexivity|discriminate].
Qed.
(** Without a lane there it has none; a lane that neither goes on nor ends is an error. *)
Theorem C204_missing : forall previous next way crosswalks d,
  off_lanes previous next way crosswalks d -> by_position crosswalks 2 = None ->
  pedestrian previous next length canonicalize way crosswalks d = Missing.
Proof.
  intros previous next way crosswalks d H B. unfold M_Match.pedestrian.
  rewrite (off_lanes_none _ _ _ _ _ H), B. reflexivity.
Qed.
Theorem C204_failed : forall previous next way crosswalks d,
  pedestrian previous next length canonicalize way crosswalks d = Failed <->
  off_lanes previous next way crosswalks d /\
  exists q, by_position crosswalks 2 = Some q /\ canonicalize q = (None, None).
Proof.
  intros previous next way crosswalks d. split.
  - unfold M_Match.pedestrian. intros H.
    destruct (canonical_by_route previous next canonicalize way crosswalks d) as [r|] eqn:K; [discriminate|]. split.
    + intros q p Q Z' C. unfold M_Match.canonical_by_route in K.
      rewrite Q, (proj2 (to_canonical_spec q p) (conj Z' C)) in K. discriminate.
    + destruct (by_position crosswalks 2) as [q|]; [|discriminate]. exists q. split; [reflexivity|].
      destruct (canonicalize q) as [[r|] [e|]]; try discriminate; try reflexivity; destruct (to_canonical q); discriminate.
  - intros [H (q & B & C)]. unfold M_Match.pedestrian. rewrite (off_lanes_none _ _ _ _ _ H), B, C. reflexivity.
Qed.
(** One that is nowhere but within two metres of the middle of a lane that ends is kept at its end. *)
Theorem C204_end : forall previous next way crosswalks d q e,
  off_lanes previous next way crosswalks d ->
  by_position crosswalks 2 = Some q -> canonicalize q = (None, Some e) ->
  exists p, pedestrian previous next length canonicalize way crosswalks d = Found p /\
    id p = e /\ offset p = offset q /\ yaw p = yaw q /\
    (s q < 0 -> s p = 0) /\ (0 <= s q -> s p = length e).
Proof.
  intros previous next way crosswalks d q e H B C. unfold M_Match.pedestrian. rewrite (off_lanes_none _ _ _ _ _ H), B, C.
  eexists. split; [reflexivity|]. cbn. split; [reflexivity|]. split; [reflexivity|]. split; [reflexivity|].
  destruct (lt (s q) 0) eqn:L; [apply lt_spec in L|apply lt_false in L]; split; intros; lra || reflexivity.
Qed.
(** Where positions found are within the length of their lanes (the spline is longer than the polygon by which
    the length of a lane is measured, so that this may fail), a pedestrian is only where it was found. *)
Theorem C204_within : forall previous next way crosswalks d p,
  (forall l d t, project l d = Some t -> 0 <= f_s t <= length l) ->
  (forall q, 0 <= s q <= length (id q) -> canonicalize q = (Some q, None)) ->
  pedestrian previous next length canonicalize way crosswalks d = Found p ->
  exists l, lies_on d l p \/ lies_on 2 l p.
Proof.
  intros previous next way crosswalks d p P C H.
  assert (W : forall d l q, lies_on d l q -> canonicalize q = (Some q, None)).
  { intros d' l q (t & Q & _ & _ & A & B & _). apply C. rewrite A, B. exact (P _ _ _ Q). }
  assert (F : forall d' ls q, first_on d' ls = Some q -> exists l, lies_on d' l q).
  { intros d' ls q Q. apply C201_first in Q. destruct Q as (l & _ & L). eauto. }
  assert (BP : forall d' q, by_position crosswalks d' = Some q -> exists l, lies_on d' l q).
  { intros d' q Q. exact (F _ _ _ Q). }
  assert (BB : forall q, by_box previous next crosswalks d = Some q -> exists l, lies_on d l q).
  { intros q. unfold M_Match.by_box. destruct (match_box crosswalks d) as [m|]; [|apply BP].
    destruct (on_lane d m) eqn:O; [intros [= <-]; apply C201_lane in O; eauto|].
    destruct (first_on d (previous m)) eqn:O1; [intros [= <-]; exact (F _ _ _ O1)|].
    destruct (first_on d (next m)) eqn:O2; [intros [= <-]; exact (F _ _ _ O2)|apply BP]. }
  assert (T : forall d' l q r, lies_on d' l q -> to_canonical q = Some r -> r = q).
  { intros d' l q r L Q. unfold M_Match.to_canonical in Q. destruct (zero q); [discriminate|].
    rewrite (W _ _ _ L) in Q. cbn in Q. congruence. }
  unfold M_Match.pedestrian in H.
  destruct (canonical_by_route previous next canonicalize way crosswalks d) as [r|] eqn:K.
  - injection H as ->. unfold M_Match.canonical_by_route in K.
    destruct (by_route altitude project ranked touched subtype passable previous next way crosswalks d) as [q|] eqn:Q; [|discriminate].
    assert (exists l, lies_on d l q) as [l L].
    { unfold M_Match.by_route in Q. destruct (first_on d way) eqn:O; [injection Q as <-; exact (F _ _ _ O)|exact (BB _ Q)]. }
    exists l. left. rewrite (T _ _ _ _ L K). exact L.
  - destruct (by_position crosswalks 2) as [q|] eqn:Q; [|discriminate]. destruct (BP _ _ Q) as [l L].
    rewrite (W _ _ _ L) in H. destruct (to_canonical q) as [r|] eqn:R'; [|discriminate]. injection H as <-.
    exists l. right. rewrite (T _ _ _ _ L R'). exact L.
Qed.

(** C205: crossing into the next lanelet. *)
Theorem C205_stay : forall p l vx vy dt,
  transit length p l vx vy dt = Stay <->
  s p + (cos (yaw p) * vx - sin (yaw p) * vy) * dt <= length (id p).
Proof.
  intros p l vx vy dt. unfold transit. destruct (le _ _) eqn:E.
  - apply le_spec in E. split; [intros _; lra|reflexivity].
  - apply le_false in E. destruct (lt _ _); split; try discriminate; intros; lra.
Qed.
(** The way along the lanes and the way across make up the displacement; the position is in the next lanelet. *)
Theorem C205_next : forall p l vx vy dt q,
  transit length p l vx vy dt = Next q ->
  id q = l /\ yaw q = yaw p /\ 0 < s q < length l /\
  exists along across,
    along = (length (id p) - s p) + s q /\ across = offset q - offset p /\
    along = (cos (yaw p) * vx - sin (yaw p) * vy) * dt /\
    along * along + across * across = (vx * vx + vy * vy) * (dt * dt).
Proof.
  intros p l vx vy dt q H. unfold transit in H. destruct (le _ _) eqn:E; [discriminate|]. apply le_false in E.
  destruct (lt _ _) eqn:F; [|discriminate]. apply lt_spec in F. injection H as <-. cbn.
  split; [reflexivity|]. split; [reflexivity|]. split; [lra|].
  eexists _, _. split; [reflexivity|]. split; [reflexivity|]. split; [lra|].
  pose proof (sin2_cos2 (yaw p)) as SC. unfold Rsqr in SC.
  set (c := cos (yaw p)) in *. set (n := sin (yaw p)) in *.
  replace (length (id p) - s p + ((c * vx - n * vy) * dt - (length (id p) - s p))) with ((c * vx - n * vy) * dt) by lra.
  replace (offset p + (n * vx + c * vy) * dt - offset p) with ((n * vx + c * vy) * dt) by lra.
  replace ((vx * vx + vy * vy) * (dt * dt)) with ((n * n + c * c) * (vx * vx + vy * vy) * (dt * dt)) by (rewrite SC; lra).
  ring.
Qed.
(** An entity that passes the next lanelet in one frame is an error. *)
Theorem C205_short : forall p l vx vy dt,
  0 <= length l ->
  transit length p l vx vy dt = TooShort <->
  ((cos (yaw p) * vx - sin (yaw p) * vy) * dt > length (id p) - s p /\
   length (id p) - s p + length l <= (cos (yaw p) * vx - sin (yaw p) * vy) * dt).
Proof.
  intros p l vx vy dt P. unfold transit. destruct (le _ _) eqn:E.
  - apply le_spec in E. split; [discriminate|]. lra.
  - apply le_false in E. destruct (lt _ _) eqn:F; [apply lt_spec in F|apply lt_false in F]; split; try discriminate; intros; try lra; try (split; lra); reflexivity.
Qed.
End Pose.

(** C206: the direction of a lane at a point. *)
Section Yaw.
Variable point : Type.
Variable distance : point -> R.
Lemma nearest_index_spec : forall l pre best d,
  (exists p, nth_error pre best = Some p /\ distance p = d /\
     (forall i q, nth_error pre i = Some q -> d <= distance q) /\
     (forall i q, (i < best)%nat -> nth_error pre i = Some q -> d < distance q)) ->
  exists p, nth_error (pre ++ l) (nearest_index point distance best d (List.length pre) l) = Some p /\
     (forall i q, nth_error (pre ++ l) i = Some q -> distance p <= distance q) /\
     (forall i q, (i < nearest_index point distance best d (List.length pre) l)%nat ->
        nth_error (pre ++ l) i = Some q -> distance p < distance q).
Proof.
  induction l as [|a l IH]; intros pre best d (p & N & <- & A & B); cbn [nearest_index].
  - rewrite app_nil_r. eauto.
  - assert (E : pre ++ a :: l = (pre ++ [a]) ++ l) by (rewrite <- app_assoc; reflexivity).
    assert (S' : S (List.length pre) = List.length (pre ++ [a])) by (rewrite app_length; cbn; lia).
    assert (Last : nth_error (pre ++ [a]) (List.length pre) = Some a)
      by (rewrite nth_error_app2, Nat.sub_diag by lia; reflexivity).
    assert (Cases : forall i q, nth_error (pre ++ [a]) i = Some q ->
              nth_error pre i = Some q \/ (i = List.length pre /\ q = a)).
    { intros i q Q. destruct (Nat.lt_ge_cases i (List.length pre)) as [L|L].
      - rewrite nth_error_app1 in Q by exact L. left. exact Q.
      - rewrite nth_error_app2 in Q by exact L. destruct (i - List.length pre)%nat as [|n] eqn:D.
        + cbn in Q. injection Q as <-. right. split; [lia|reflexivity].
        + destruct n; discriminate. }
    rewrite E, S'. destruct (lt (distance a) (distance p)) eqn:L; [apply lt_spec in L|apply lt_false in L]; apply IH.
    + exists a. split; [exact Last|]. split; [reflexivity|]. split.
      * intros i q Q. destruct (Cases i q Q) as [Q'|[_ ->]]; [specialize (A i q Q'); lra|lra].
      * intros i q I' Q. destruct (Cases i q Q) as [Q'|[-> _]]; [specialize (A i q Q'); lra|lia].
    + exists p. split; [rewrite nth_error_app1; [exact N|apply nth_error_Some; congruence]|]. split; [reflexivity|]. split.
      * intros i q Q. destruct (Cases i q Q) as [Q'|[_ ->]]; [exact (A i q Q')|exact L].
      * intros i q I' Q. destruct (Cases i q Q) as [Q'|[-> _]]; [exact (B i q I' Q')|].
        assert (best < List.length pre)%nat by (apply nth_error_Some; congruence). lia.
Qed.
(** It is taken from the first of the nearest centre points and the one that follows it; there is none exactly
    if no point follows. *)
Theorem C206_direction : forall l a b,
  lane_direction point distance l = Some (a, b) <->
  exists before after, l = before ++ a :: b :: after /\
    (forall p, In p before -> distance a < distance p) /\
    (forall p, In p (b :: after) -> distance a <= distance p).
Proof.
  assert (U : forall (l : list point) i a b, nth_error l i = Some a -> nth_error l (S i) = Some b ->
            exists before after, l = before ++ a :: b :: after /\ List.length before = i).
  { intros l i a b A B. destruct (nth_error_split l i A) as (x & y & -> & <-).
    rewrite nth_error_app2 in B by lia. replace (S (List.length x) - List.length x)%nat with 1%nat in B by lia.
    destruct y as [|z y]; [discriminate|]. cbn in B. injection B as ->. eauto. }
  intros [|h l] a b.
  { split; [discriminate|]. intros (x & y & E & _). destruct x; discriminate. }
  destruct (nearest_index_spec l [h] 0 (distance h)) as (p & N & A & B).
  { exists h. split; [reflexivity|]. split; [reflexivity|]. split.
    - intros [|[|i]] q Q; cbn in Q; try discriminate. injection Q as <-. lra.
    - intros i q H. lia. }
  cbn [List.length app] in N, A, B. unfold lane_direction.
  set (i := nearest_index point distance 0 (distance h) 1 l) in *. rewrite N. split.
  - destruct (nth_error (h :: l) (S i)) as [q|] eqn:Q; [|discriminate]. intros [= <- <-].
    destruct (U _ _ _ _ N Q) as (x & y & E & Li). exists x, y. split; [exact E|]. split.
    + intros r R'. destruct (In_nth_error _ _ R') as [j J].
      assert (j < List.length x)%nat by (apply nth_error_Some; congruence).
      apply (B j); [lia|]. rewrite E, nth_error_app1 by assumption. exact J.
    + intros r R'. destruct (In_nth_error (h :: l) r) as [j J]; [|exact (A j r J)].
      rewrite E. apply in_or_app. right. right. exact R'.
  - intros (x & y & E & X & Y).
    assert (K : i = List.length x).
    { destruct (Nat.lt_trichotomy i (List.length x)) as [H|[H|H]]; [|exact H|]; exfalso.
      - rewrite E, nth_error_app1 in N by exact H. apply nth_error_In in N. specialize (X _ N).
        assert (J : nth_error (h :: l) (List.length x) = Some a)
          by (rewrite E, nth_error_app2, Nat.sub_diag by lia; reflexivity).
        specialize (A _ _ J). lra.
      - assert (J : nth_error (h :: l) (List.length x) = Some a)
          by (rewrite E, nth_error_app2, Nat.sub_diag by lia; reflexivity).
        specialize (B _ _ H J).
        rewrite E, nth_error_app2 in N by lia. destruct (i - List.length x)%nat as [|n] eqn:D; [lia|].
        cbn [nth_error] in N. apply nth_error_In in N. specialize (Y _ N). lra. }
    rewrite K in *. rewrite E in N. rewrite nth_error_app2, Nat.sub_diag in N by lia. cbn in N. injection N as <-.
    rewrite E, nth_error_app2 by lia. replace (S (List.length x) - List.length x)%nat with 1%nat by lia. reflexivity.
Qed.
End Yaw.

(** A point beyond the last centre point of a lane has no direction: an exception. *)
Theorem C206_last_refuted : exists l (distance : R -> R), l <> [] /\ lane_direction R distance l = None.
Proof.
  exists [0; 1; 2], (fun p => Rabs (3 - p)). split; [discriminate|].
  cbn. rewrite !Rabs_right by lra.
  assert (forall a b, a < b -> lt a b = true) as L by (intros; apply lt_spec; assumption).
  rewrite (L (3 - 1) (3 - 0)) by lra. rewrite (L (3 - 2) (3 - 1)) by lra. reflexivity.
Qed.

(** A lane at the position itself is not found if five crosswalks are as near; neither is a lanelet without a subtype. *)
Theorem C202_hidden_refuted : exists ranked subtype,
  by_distance ranked /\ In (0, 6%Z) ranked /\ subtype 6%Z = Some "road"%string /\
  nearby ranked subtype (1 / 10) false 5 = [].
Proof.
  exists (map (fun i => (0, i)) [1; 2; 3; 4; 5; 6]%Z),
    (fun i => if Z.ltb i 6 then Some "crosswalk"%string else Some "road"%string).
  split; [cbn; repeat split; intros b H; repeat (destruct H as [<-|H]; [cbn; lra|]); contradiction|].
  split; [cbn; tauto|]. split; [reflexivity|].
  assert (L : lt (1 / 10) 0 = false) by (apply lt_false; lra).
  unfold nearby, beyond. cbn [firstn map]. rewrite L. reflexivity.
Qed.
Theorem C202_subtype_refuted : exists ranked subtype,
  by_distance ranked /\ In (0, 1%Z) ranked /\ subtype 1%Z = None /\ nearby ranked subtype (1 / 10) false 5 = [].
Proof.
  exists [(0, 1%Z)], (fun _ => None). split; [split; [intros ? []|exact I]|]. split; [left; reflexivity|].
  split; [reflexivity|].
  assert (L : lt (1 / 10) 0 = false) by (apply lt_false; lra).
  unfold nearby, beyond. cbn [firstn map]. rewrite L. reflexivity.
Qed.

(** Two lanes, whose middles are two metres to the left and one to the right. *)
Definition example_project (l : Z) (d : R) : option foot :=
  if Z.eqb l 1 then Some {| f_s := 5; f_height := 1 / 2; f_yaw := 0; f_gap := 2; f_side := -1 |}
  else if Z.eqb l 2 then Some {| f_s := 6; f_height := 0; f_yaw := 0; f_gap := 1; f_side := 1 |}
  else None.
Lemma straight : heads_along 0.
Proof. left. rewrite Rabs_R0. pose proof PI_RGT_0. lra. Qed.
Lemma example_1 : forall d, lies_on 0 example_project d 1 {| id := 1; s := 5; offset := -2; yaw := 0 |}.
Proof.
  intros d. eexists. split; [reflexivity|]. cbn. split; [lra|]. split; [exact straight|].
  split; [reflexivity|]. split; [reflexivity|]. split; [reflexivity|]. split; intros; lra.
Qed.
Lemma example_2 : forall d, lies_on 0 example_project d 2 {| id := 2; s := 6; offset := 1; yaw := 0 |}.
Proof.
  intros d. eexists. split; [reflexivity|]. cbn. split; [lra|]. split; [exact straight|].
  split; [reflexivity|]. split; [reflexivity|]. split; [reflexivity|]. split; intros; lra.
Qed.
Lemma example_lanes : forall d l p, lies_on 0 example_project d l p -> l = 1%Z \/ l = 2%Z.
Proof.
  intros d l p (t & P & _). unfold example_project in P.
  destruct (Z.eqb_spec l 1); [auto|]. destruct (Z.eqb_spec l 2); [auto|discriminate].
Qed.
(** The box is matched with the right lane, which is nearer; a route over the left lane is followed. *)
Example C201_example :
  by_box 0 example_project [] (fun _ => [1; 2]%Z) (fun _ => None) (fun _ => true) (fun _ => []) (fun _ => []) false 1
  = Some {| id := 2; s := 6; offset := 1; yaw := 0 |} /\
  by_route 0 example_project [] (fun _ => [1; 2]%Z) (fun _ => None) (fun _ => true) (fun _ => []) (fun _ => []) [3; 1]%Z
    false 1
  = Some {| id := 1; s := 5; offset := -2; yaw := 0 |}.
Proof.
  split.
  - destruct (C201_box 0 example_project [] (fun _ => [1; 2]%Z) (fun _ => None) (fun _ => true) (fun _ => [])
      (fun _ => []) false 1 2%Z _ (conj (or_intror (or_introl eq_refl)) (or_intror eq_refl)) (example_2 1))
      as (p & -> & C & L & M). f_equal.
    destruct (example_lanes _ _ _ L) as [E|E].
    + exfalso. rewrite E in L. pose proof (lies_on_det _ _ _ _ _ _ L (example_1 1)) as ->.
      specialize (M 2%Z _ (conj (or_intror (or_introl eq_refl)) (or_intror eq_refl)) (example_2 1)). cbn in M.
      rewrite Rabs_left, Rabs_right in M by lra. lra.
    + rewrite E in L. exact (lies_on_det _ _ _ _ _ _ L (example_2 1)).
  - apply (C201_route 0 example_project [] _ _ _ _ _ _ _ 1 1%Z); [|apply example_1].
    exists [3%Z], []. split; [reflexivity|]. split; [eexists; apply example_1|].
    intros y [<-|[]] [q Q]. destruct (example_lanes _ _ _ Q); discriminate.
Qed.
(** Of two equally short routes, that to the lane further left is taken although the other lane is nearer. *)
Theorem C203_nearest_refuted : exists altitude project touched passable canonicalize route to p l q l' q' p',
  route (id to) = [] /\
  alternative altitude project touched passable canonicalize route to = Some p /\
  option_at altitude project touched passable canonicalize route to l q p /\
  option_at altitude project touched passable canonicalize route to l' q' p' /\
  List.length (route l) = List.length (route l') /\ Rabs (offset q') < Rabs (offset q).
Proof.
  pose (touched := fun _ : R => [1; 2]%Z). pose (passable := fun _ : Z => true).
  pose (canonicalize := fun p : lane_pose => (Some p, @None Z)).
  pose (route := fun l => if Z.eqb l 3 then [] else [l]).
  pose (to := {| id := 3; s := 0; offset := 0; yaw := 0 |}).
  pose (q1 := {| id := 1; s := 5; offset := -2; yaw := 0 |}).
  pose (q2 := {| id := 2; s := 6; offset := 1; yaw := 0 |}).
  assert (O1 : option_at 0 example_project touched passable canonicalize route to 1 q1 q1).
  { split; [split; [left; reflexivity|right; reflexivity]|]. split; [discriminate|]. split; [discriminate|].
    split; [apply example_1|]. split; [cbn; intros [E _]; discriminate|reflexivity]. }
  assert (O2 : option_at 0 example_project touched passable canonicalize route to 2 q2 q2).
  { split; [split; [right; left; reflexivity|right; reflexivity]|]. split; [discriminate|]. split; [discriminate|].
    split; [apply example_2|]. split; [cbn; intros [E _]; discriminate|reflexivity]. }
  assert (N : route (id to) = []) by reflexivity.
  destruct (alternative 0 example_project touched passable canonicalize route to) as [p|] eqn:A.
  - destruct (C203_shortest _ _ _ _ _ _ _ _ N A) as (l & q & O & M).
    exists 0, example_project, touched, passable, canonicalize, route, to, p, l, q, 2%Z, q2, q2.
    split; [exact N|]. split; [exact A|]. split; [exact O|]. split; [exact O2|].
    pose proof (M _ _ _ O1) as M1. destruct O as (_ & _ & _ & L & _).
    destruct (example_lanes _ _ _ L) as [->| ->].
    + split; [reflexivity|]. rewrite (lies_on_det _ _ _ _ _ _ L (example_1 3)). cbn.
      rewrite Rabs_right, Rabs_left by lra. lra.
    + exfalso. rewrite (lies_on_det _ _ _ _ _ _ L (example_2 3)) in M1. cbn in M1. destruct M1 as [M1|[_ M1]]; [lia|lra].
  - exfalso. apply C203_none in A. destruct A as [_ A]. exact (A _ _ _ O1).
Qed.
(** A pedestrian beyond the end of lane 1. *)
Example C204_example : exists project canonicalize p,
  pedestrian 0 project [(0, 1%Z)] (fun _ => []) (fun _ => Some "road"%string) (fun _ => true) (fun _ => []) (fun _ => [])
    (fun _ => 30) canonicalize [] false 1 = Found p /\ s p = 30 /\ id p = 7%Z.
Proof.
  exists (fun (l : Z) d => if Rle_dec d (3 / 2) then None
            else Some {| f_s := 31; f_height := 0; f_yaw := 0; f_gap := 0; f_side := 0 |}),
    (fun _ => (None, Some 7%Z)).
  set (project := fun (l : Z) d => _).
  assert (N : by_position 0 project [(0, 1%Z)] (fun _ => Some "road"%string) false 1 = None).
  { apply first_on_none. intros l p _ (t & P & _). unfold project in P. destruct (Rle_dec 1 (3 / 2)); [discriminate|lra]. }
  assert (B : by_position 0 project [(0, 1%Z)] (fun _ => Some "road"%string) false 2
              = Some {| id := 1; s := 31; offset := 0; yaw := 0 |}).
  { apply C202_position. exists 1%Z.
    assert (L : lies_on 0 project 2 1 {| id := 1; s := 31; offset := 0; yaw := 0 |}).
    { exists {| f_s := 31; f_height := 0; f_yaw := 0; f_gap := 0; f_side := 0 |}.
      split; [unfold project; destruct (Rle_dec 2 (3 / 2)); [lra|reflexivity]|]. cbn. split; [lra|].
      split; [exact straight|]. split; [reflexivity|]. split; [reflexivity|]. split; [reflexivity|]. split; intros; lra. }
    split; [|exact L]. exists [], []. split; [|split; [eauto|intros ? []]].
    assert (G : lt (1 / 10) 0 = false) by (apply lt_false; lra).
    assert (G' : le 0 (1 / 10) = true) by (apply le_spec; lra).
    unfold nearby, beyond. cbn -[lt le Rdiv]. rewrite !G. cbn -[le Rdiv]. rewrite G'. reflexivity. }
  assert (H : off_lanes 0 project [(0, 1%Z)] (fun _ => []) (fun _ => Some "road"%string) (fun _ => true)
    (fun _ => (None, Some 7%Z)) (fun _ => []) (fun _ => []) [] false 1).
  { intros q p Q. exfalso. unfold by_route in Q. cbn [first_on] in Q.
    rewrite C201_position in Q by (intros l r [[] _]). rewrite N in Q. discriminate. }
  destruct (C204_end _ _ _ _ _ _ (fun _ => 30) _ _ _ _ _ _ _ 7%Z H B eq_refl) as (p & E & A & _ & _ & _ & S').
  exists p. split; [exact E|]. split; [apply S'; cbn; lra|exact A].
Qed.
Example C205_example :
  transit (fun _ => 10) {| id := 1; s := 9; offset := 1; yaw := 0 |} 2 20 5 (1 / 10)
  = Next {| id := 2; s := 1; offset := 3 / 2; yaw := 0 |}.
Proof.
  unfold transit. cbn. rewrite cos_0, sin_0.
  replace (le _ _) with false by (symmetry; apply le_false; lra).
  replace (lt _ _) with true by (symmetry; apply lt_spec; lra). do 2 f_equal; lra.
Qed.

Print Assumptions C201_lane.
Print Assumptions C201_first.
Print Assumptions C201_box.
Print Assumptions C201_position.
Print Assumptions C201_neighbours_refuted.
Print Assumptions C201_across.
Print Assumptions C201_route.
Print Assumptions C201_off_route.
Print Assumptions C202_nearby.
Print Assumptions C202_position.
Print Assumptions C202_hidden_refuted.
Print Assumptions C202_subtype_refuted.
Print Assumptions C203_own.
Print Assumptions C203_shortest.
Print Assumptions C203_none.
Print Assumptions C203_nearest_refuted.
Print Assumptions C204_on_lane.
Print Assumptions C204_near.
Print Assumptions C204_missing.
Print Assumptions C204_failed.
Print Assumptions C204_end.
Print Assumptions C204_within.
Print Assumptions C205_stay.
Print Assumptions C205_next.
Print Assumptions C205_short.
Print Assumptions C206_direction.
Print Assumptions C206_last_refuted.
