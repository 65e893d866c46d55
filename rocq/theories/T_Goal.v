(** * C211-C213: the goals and speeds of pedestrians of the context gamma planner. *)
From Coq Require Import List Bool Arith ZArith QArith Qround Lia Lqa.
From Verif Require Import M_Goal S_Goal.
Import ListNotations.
Local Open Scope Q_scope.

Section Theorems.
Variable point : Type.
Notation view := (view point).

Lemma at_least_spec : forall t (v : view) g, at_least (distance _ v g) t = true <-> far t v g.
Proof. intros. unfold at_least, far. apply Qle_bool_iff. Qed.
Lemma at_least_false : forall t (v : view) g, at_least (distance _ v g) t = false <-> ~ far t v g.
Proof. intros. rewrite <- at_least_spec. destruct (at_least _ _); split; congruence. Qed.

Lemma skip_far_spec : forall t (v : view) gs,
  exists before, gs = before ++ skip_far _ t v gs /\ Forall (far t v) before /\
    forall g rest, skip_far _ t v gs = g :: rest -> ~ far t v g.
Proof.
  intros t v. induction gs as [| g gs (b & E & F & N)]; cbn.
  - exists []. repeat split; auto. discriminate.
  - destruct (at_least (distance _ v g) t) eqn:A.
    + exists (g :: b). split; [cbn; f_equal; exact E | ]. split; [constructor; [apply at_least_spec, A | exact F] | exact N].
    + exists []. split; [reflexivity | ]. split; [constructor | ]. intros g' rest [= <- _]. apply at_least_false, A.
Qed.
Lemma drop_reached_spec : forall t (v : view) rest g,
  exists near after, drop_reached _ t v g rest <> [] /\
    ((exists h, drop_reached _ t v g rest = [h] /\ after = [] /\ g :: rest = near ++ [h] /\ Forall (fun g => ~ far t v g) near) \/
     (g :: rest = near ++ after /\ drop_reached _ t v g rest = after /\ Forall (fun g => ~ far t v g) near /\
      exists h r, after = h :: r /\ far t v h)).
Proof.
  intros t v. induction rest as [| h rest IH]; intros g; cbn.
  - exists [], []. split; [discriminate | ]. left. exists g. repeat split; auto.
  - destruct (at_least (distance _ v g) t) eqn:A; cbn.
    + exists [], (g :: h :: rest). split; [discriminate | ]. right. repeat split; auto.
      exists g, (h :: rest). split; [reflexivity | apply at_least_spec, A].
    + destruct (IH h) as (near & after & N & [(x & E & -> & L & F) | (L & E & F & X)]).
      * exists (g :: near), []. split; [exact N | ]. left. exists x. repeat split; auto.
        -- cbn. f_equal. exact L.
        -- constructor; [apply at_least_false, A | exact F].
      * exists (g :: near), after. split; [exact N | ]. right. repeat split; auto.
        -- cbn. f_equal. exact L.
        -- constructor; [apply at_least_false, A | exact F].
Qed.
Lemma last_cons : forall {A} (l : list A) x d, last (l ++ [x]) d = x.
Proof. induction l as [| a l IH]; intros; cbn; [reflexivity | ]. rewrite IH. destruct (l ++ [x]) eqn:E; [destruct l; discriminate | reflexivity]. Qed.

(** ** C211: following lanes. *)
Theorem C211_goal : forall t (v : view) r target gs g s,
  r = NoRequest \/ r = FollowLane ->
  lane_tick _ t v r target gs = Value (Running, Some (Some g, s)) -> lane_goal t v gs g /\ s = target.
Proof.
  intros t v r target gs g s R E. unfold lane_tick, next_on_lane in E.
  assert (X : exists h, (match gs with [] => Error | _ :: _ =>
                match skip_far _ t v gs with [] => Value [] | g :: rest => Value (drop_reached _ t v g rest) end end) = Value (g :: h) /\ s = target).
  { destruct R as [-> | ->]; destruct gs; try discriminate; destruct (skip_far _ t v _); try discriminate;
      destruct (drop_reached _ t v _ _); try discriminate; injection E as -> ->; eauto. }
  clear E. destruct X as (h & X & ->). split; [ | reflexivity].
  destruct (skip_far_spec t v gs) as (b & Eb & Fb & N).
  destruct gs as [| g0 gs]; [discriminate | ]. set (all := g0 :: gs) in *. clearbody all. clear g0 gs.
  destruct (skip_far _ t v all) as [| g1 rest] eqn:S; [discriminate | ]. injection X as X.
  specialize (N g1 rest eq_refl).
  destruct (drop_reached_spec t v rest g1) as (near & after & _ & [(x & E & -> & L & F) | (L & E & F & y & r' & -> & Y)]).
  - rewrite X in E. injection E as -> ->.
    destruct (at_least (distance _ v x) t) eqn:A.
    + apply at_least_spec in A. destruct near as [| n near].
      * cbn in L. injection L as -> ->. contradiction.
      * exists b, (n :: near), [x]. split; [rewrite Eb, L; reflexivity | ]. repeat split; auto; [discriminate | ].
        right. exists []. auto.
    + apply at_least_false in A. exists b, (near ++ [x]), []. rewrite app_nil_r, <- L.
      split; [exact Eb | ]. split; [discriminate | ]. split; [exact Fb | ]. split.
      * rewrite L. apply Forall_app. split; [exact F | constructor; [exact A | constructor]].
      * left. split; [reflexivity | ]. rewrite L. apply last_cons.
  - rewrite X in E. injection E as <- <-. destruct near as [| n near].
    + cbn in L. injection L as -> ->. contradiction.
    + exists b, (n :: near), (g :: h). split; [rewrite Eb, L; reflexivity | ]. repeat split; auto; [discriminate | ].
      right. exists h. auto.
Qed.
(** Far from all points the entity stops; on a route there is a goal whenever one of its points is near. *)
Theorem C211_lost : forall t (v : view) r target gs,
  r = NoRequest \/ r = FollowLane -> gs <> [] ->
  (lane_tick _ t v r target gs = Value (Success, Some (None, Some 0)) <-> Forall (far t v) gs).
Proof.
  intros t v r target gs R NE. destruct (skip_far_spec t v gs) as (b & Eb & Fb & N).
  assert (K : Forall (far t v) gs <-> skip_far _ t v gs = []).
  { split.
    - intros F. destruct (skip_far _ t v gs) as [| g rest]; [reflexivity | exfalso].
      apply (N g rest eq_refl). rewrite Eb in F. apply Forall_app in F as [_ F]. inversion F; assumption.
    - intros S. rewrite Eb, S, app_nil_r. exact Fb. }
  rewrite K. unfold lane_tick, next_on_lane. destruct gs as [| g0 gs]; [contradiction | ].
  set (all := g0 :: gs) in *. clearbody all.
  destruct (skip_far _ t v all) as [| g1 rest].
  - destruct R as [-> | ->]; split; auto.
  - destruct (drop_reached_spec t v rest g1) as (near & after & D & _).
    destruct (drop_reached _ t v g1 rest); [contradiction | ].
    destruct R as [-> | ->]; split; discriminate.
Qed.
(** Every tick either follows a goal, stops, or has no points at all. *)
Theorem C211_total : forall t (v : view) r target gs,
  r = NoRequest \/ r = FollowLane ->
  (lane_tick _ t v r target gs = Error <-> gs = []) /\
  (gs <> [] -> ~ Forall (far t v) gs -> exists g, lane_tick _ t v r target gs = Value (Running, Some (Some g, target))).
Proof.
  intros t v r target gs R. destruct (skip_far_spec t v gs) as (b & Eb & Fb & N).
  unfold lane_tick, next_on_lane. split.
  - destruct gs as [| g gs]; [destruct R as [-> | ->]; split; auto | ].
    destruct (skip_far _ t v (g :: gs)) as [| g1 rest].
    + destruct R as [-> | ->]; split; discriminate.
    + destruct (drop_reached _ t v g1 rest); destruct R as [-> | ->]; split; discriminate.
  - intros NE F. destruct gs as [| g gs]; [contradiction | ].
    destruct (skip_far _ t v (g :: gs)) as [| g1 rest].
    + exfalso. apply F. rewrite Eb, app_nil_r. exact Fb.
    + destruct (drop_reached_spec t v rest g1) as (near & after & D & _).
      destruct (drop_reached _ t v g1 rest) as [| g2 r2]; [contradiction | ]. exists g2. destruct R as [-> | ->]; reflexivity.
Qed.

(** ** C212: following trajectories. *)
Lemma reached_spec : forall t (v : view) g, reached _ t v g = true <-> done t v g.
Proof. intros. unfold reached, done. rewrite andb_true_iff, Qle_bool_iff. reflexivity. Qed.
Lemma reached_false : forall t (v : view) g, reached _ t v g = false <-> ~ done t v g.
Proof. intros. rewrite <- reached_spec. destruct (reached _ t v g); split; congruence. Qed.
(** The first point that is not done with is the next goal; a closed trajectory takes the others up again. *)
Theorem C212_next : forall t (v : view) closed before g after fuel,
  Forall (done t v) before -> ~ done t v g -> (length before <= fuel)%nat ->
  advance _ fuel t v closed (before ++ g :: after) =
  Some (g :: after ++ if closed then before else []).
Proof.
  intros t v closed before. induction before as [| b before IH]; intros g after fuel F N L; cbn.
  - assert (reached _ t v g = false) as R by (apply reached_false, N).
    destruct fuel; cbn; rewrite R; destruct closed; rewrite app_nil_r; reflexivity.
  - inversion F as [| ? ? Fb F']. subst. apply reached_spec in Fb. destruct fuel as [| fuel]; [cbn in L; lia | ].
    cbn. rewrite Fb. destruct closed.
    + rewrite <- app_assoc. cbn. rewrite IH; [ | exact F' | exact N | cbn in L; lia]. rewrite <- app_assoc. reflexivity.
    + rewrite IH; [reflexivity | exact F' | exact N | cbn in L; lia].
Qed.
(** Points behind are never done with, so that the entity turns back to them. *)
Theorem C212_behind : forall t (v : view) closed g after fuel,
  ahead _ v g = false -> advance _ fuel t v closed (g :: after) = Some (g :: after).
Proof.
  intros t v closed g after fuel A. replace (g :: after) with ([] ++ g :: after) at 1 by reflexivity.
  rewrite C212_next; [ | constructor | unfold done; rewrite A; intros [X _]; discriminate | cbn; lia].
  destruct closed; rewrite app_nil_r; reflexivity.
Qed.
Theorem C212_ended : forall t (v : view) gs fuel, Forall (done t v) gs -> (length gs <= fuel)%nat ->
  advance _ fuel t v false gs = Some [].
Proof.
  intros t v gs. induction gs as [| g gs IH]; intros fuel F L; [destruct fuel; reflexivity | ].
  inversion F as [| ? ? Fg F']. subst. apply reached_spec in Fg. destruct fuel as [| fuel]; [cbn in L; lia | ].
  cbn. rewrite Fg. apply IH; [exact F' | cbn in L; lia].
Qed.
(** A closed trajectory of which all points are done with at once is searched for ever. *)
Theorem C212_loop_refuted : forall t (v : view) gs fuel, gs <> [] -> Forall (done t v) gs ->
  advance _ fuel t v true gs = None.
Proof.
  intros t v gs fuel. revert gs. induction fuel as [| fuel IH]; intros gs NE F; destruct gs as [| g gs]; try contradiction;
    inversion F as [| ? ? Fg F']; subst; apply reached_spec in Fg; cbn; rewrite Fg; [reflexivity | ].
  apply IH; [destruct gs; discriminate | ]. apply Forall_app. split; [exact F' | constructor; [apply reached_spec, Fg | constructor]].
Qed.
(** The action never succeeds: at the end of the trajectory it fails. *)
Theorem C212_success_refuted : forall fuel t (v : view) r wanted target now n n' out,
  polyline_tick _ fuel t v r wanted target now n <> Ticked _ n' Success out.
Proof.
  intros fuel t v r wanted target now n n' out. unfold polyline_tick.
  destruct r; try discriminate;
    repeat match goal with
      | |- context [match ?x with _ => _ end] => destruct x eqn:?; try discriminate
      end; cbn in *; congruence.
Qed.
Theorem C212_end : forall fuel t (v : view) wanted target now n,
  goals _ n = [] -> exact _ wanted = true -> closed _ wanted = false -> vertices _ wanted <> [] ->
  Forall (done t v) (map fst (vertices _ wanted)) -> (length (vertices _ wanted) <= fuel)%nat ->
  exists n', polyline_tick _ fuel t v FollowPolyline wanted target now n = Ticked _ n' Failure None /\ goals _ n' = [].
Proof.
  intros fuel t v wanted target now n G X C V F L. unfold polyline_tick. cbn [given].
  destruct (vertices _ wanted) as [| w ws] eqn:E; [contradiction | ].
  assert (A : advance _ fuel t v false (map fst (w :: ws)) = Some []).
  { apply C212_ended; [exact F | rewrite map_length; exact L]. }
  destruct target; cbn [goals planned]; rewrite G; cbn [goals planned];
    unfold waypoints; rewrite X, E; cbn [map]; cbn [map] in A; rewrite C, A; eexists; split; reflexivity.
Qed.
(** With no points left a requested trajectory is followed from its first point that is not done with. *)
Theorem C212_followed : forall fuel t (v : view) wanted target now n before g after,
  goals _ n = [] -> vertices _ wanted <> [] -> waypoints _ wanted = before ++ g :: after ->
  Forall (done t v) before -> ~ done t v g -> (length before <= fuel)%nat ->
  exists n' s, polyline_tick _ fuel t v FollowPolyline wanted target now n = Ticked _ n' Running (Some (g, s)) /\
    planned _ n' = Some wanted /\ goals _ n' = g :: after ++ (if closed _ wanted then before else []).
Proof.
  intros fuel t v wanted target now n before g after G V W F N L. unfold polyline_tick. cbn [given].
  destruct (vertices _ wanted) as [| w ws] eqn:E; [contradiction | ].
  pose proof (C212_next t v (closed _ wanted) before g after fuel F N L) as A.
  assert (S : forall m gs, exists s, target_speed _ v wanted (g :: gs) m now = Value s).
  { intros m gs. unfold target_speed. destruct (base_time _ wanted) as [b | ]; [ | eexists; reflexivity].
    destruct (negb _); [eexists; reflexivity | ]. destruct (fmod _ _); [ | eexists; reflexivity].
    destruct (Qle_bool _ _); eexists; reflexivity. }
  destruct target as [m | ]; cbn [goals planned maximum]; rewrite G; cbn [goals planned maximum]; rewrite W;
    destruct (before ++ g :: after) as [| x xs] eqn:Q; try (destruct before; discriminate); rewrite A.
  - destruct (S m (after ++ if closed _ wanted then before else [])) as (s & ->). eexists _, s. repeat split; reflexivity.
  - destruct (S (maximum _ n) (after ++ if closed _ wanted then before else [])) as (s & ->). eexists _, s. repeat split; reflexivity.
Qed.
(** Refuted: it is followed in any case. What is left of an earlier one is followed first, even if it was given up. *)
Theorem C212_left_refuted : forall fuel t (v : view) wanted target now n old before g after,
  planned _ n = Some old -> vertices _ wanted <> [] -> goals _ n = before ++ g :: after ->
  Forall (done t v) before -> ~ done t v g -> (length before <= fuel)%nat ->
  exists n' s, polyline_tick _ fuel t v FollowPolyline wanted target now n = Ticked _ n' Running (Some (g, s)) /\
    planned _ n' = Some old /\ goals _ n' = g :: after ++ (if closed _ old then before else []).
Proof.
  intros fuel t v wanted target now n old before g after P V W F N L. unfold polyline_tick. cbn [given].
  destruct (vertices _ wanted) as [| w ws] eqn:E; [contradiction | ].
  pose proof (C212_next t v (closed _ old) before g after fuel F N L) as A.
  assert (S : forall m gs, exists s, target_speed _ v old (g :: gs) m now = Value s).
  { intros m gs. unfold target_speed. destruct (base_time _ old) as [b | ]; [ | eexists; reflexivity].
    destruct (negb _); [eexists; reflexivity | ]. destruct (fmod _ _); [ | eexists; reflexivity].
    destruct (Qle_bool _ _); eexists; reflexivity. }
  destruct target as [m | ]; cbn [goals planned maximum]; rewrite W;
    destruct (before ++ g :: after) as [| x xs] eqn:Q; try (destruct before; discriminate); cbn [goals planned maximum];
    rewrite P; try (rewrite W, A); try (rewrite A).
  - destruct (S m (after ++ if closed _ old then before else [])) as (s & ->). eexists _, s. repeat split; reflexivity.
  - destruct (S (maximum _ n) (after ++ if closed _ old then before else [])) as (s & ->). eexists _, s. repeat split; reflexivity.
Qed.

(** What is left is kept while lanes are followed. *)
Theorem C212_kept : forall fuel t (v : view) r centre_points wanted target now n r' n' s out,
  r = NoRequest \/ r = FollowLane ->
  tree_tick _ fuel t v r centre_points wanted target now n = Some (r', Ticked _ n' s out) -> n' = n.
Proof.
  intros fuel t v r cps wanted target now n r' n' s out R. unfold tree_tick, lane_tick.
  destruct R as [-> | ->]; destruct (next_on_lane _ t v cps) as [| [| g gs]]; try discriminate; intros E; injection E; congruence.
Qed.
(** Other requests give up what is left. *)
Theorem C212_cleared : forall fuel t (v : view) wanted target now n,
  exists n', polyline_tick _ fuel t v OtherRequest wanted target now n = Ticked _ n' Failure None /\ goals _ n' = [].
Proof. intros. eexists. split; reflexivity. Qed.
(** Once the trajectory has ended or been given up, nothing is requested any more; until then it stays requested. *)
Theorem C212_request : forall fuel t (v : view) centre_points wanted target now n r' n' s out,
  tree_tick _ fuel t v FollowPolyline centre_points wanted target now n = Some (r', Ticked _ n' s out) ->
  polyline_tick _ fuel t v FollowPolyline wanted target now n = Ticked _ n' s out /\
  (s = Running -> r' = FollowPolyline) /\ (s = Failure -> r' = NoRequest).
Proof.
  intros fuel t v cps wanted target now n r' n' s out. unfold tree_tick, lane_tick.
  destruct (polyline_tick _ fuel t v FollowPolyline wanted target now n) as [| | m s' o]; try discriminate.
  destruct s'; intros [= <- <- <- <-]; repeat split; congruence.
Qed.

(** ** C213: speeds along trajectories. *)
Lemma fmod_small : forall a b, 0 <= a -> a < b -> exists r, fmod (Some a) (Some b) = Some r /\ r == a.
Proof.
  intros a b A B. unfold fmod. destruct (Qeq_bool b 0) eqn:Z; [apply Qeq_bool_iff in Z; lra | ].
  eexists. split; [reflexivity | ].
  assert (L : 0 <= a / b). { apply Qle_shift_div_l; lra. }
  assert (U : a / b < 1). { apply Qlt_shift_div_r; lra. }
  rewrite Z.quot_small.
  - unfold inject_Z. lra.
  - unfold Qle, Qlt in L, U. cbn [Qnum Qden] in L, U. lia.
Qed.
Lemma fmod_once : forall a b, 0 <= a -> a < b -> exists r, fmod (Some (a + b)) (Some b) = Some r /\ r == a.
Proof.
  intros a b A B. unfold fmod. destruct (Qeq_bool b 0) eqn:Z; [apply Qeq_bool_iff in Z; lra | ].
  eexists. split; [reflexivity | ].
  assert (L : 1 <= (a + b) / b). { apply Qle_shift_div_l; lra. }
  assert (U : (a + b) / b < 2). { apply Qlt_shift_div_r; lra. }
  assert (K : Z.quot (Qnum ((a + b) / b)) (Zpos (Qden ((a + b) / b))) = 1%Z).
  { unfold Qle, Qlt in L, U. cbn [Qnum Qden] in L, U.
    symmetry. apply Z.quot_unique with (r := (Qnum ((a + b) / b) - Zpos (Qden ((a + b) / b)))%Z); lia. }
  rewrite K. unfold inject_Z. lra.
Qed.
(** The next vertex ahead is the first of the trajectory that is ahead, or the last one if none is. *)
Lemma first_ahead_spec : forall (v : view) vs i,
  match first_ahead _ v vs i with
  | Some k => exists before p after, vs = before ++ p :: after /\ k = (i + length before)%nat /\
                Forall (fun q => ahead _ v (fst q) = false) before /\ ahead _ v (fst p) = true
  | None => Forall (fun q => ahead _ v (fst q) = false) vs
  end.
Proof.
  intros v. induction vs as [| p vs IH]; intros i; cbn; [constructor | ].
  destruct (ahead _ v (fst p)) eqn:A.
  - exists [], p, vs. cbn. repeat split; auto.
  - specialize (IH (S i)). destruct (first_ahead _ v vs (S i)) as [k | ].
    + destruct IH as (b & q & a & -> & -> & F & Q). exists (p :: b), q, a. cbn. repeat split; auto.
    + constructor; assumption.
Qed.
Theorem C213_vertex : forall (v : view) t before p after d,
  vertices _ t = before ++ p :: after -> Forall (fun q => ahead _ v (fst q) = false) before ->
  ahead _ v (fst p) = true \/ after = [] -> nth (current_index _ v t) (vertices _ t) d = p.
Proof.
  intros v t before p after d E F H. unfold current_index. pose proof (first_ahead_spec v (vertices _ t) 0) as S.
  destruct (first_ahead _ v (vertices _ t) 0) as [k | ].
  - destruct S as (b & q & a & E' & -> & F' & Q). rewrite E'. cbn [Nat.add].
    rewrite app_nth2 by lia. rewrite Nat.sub_diag. cbn [nth].
    (* the first one ahead is unique *)
    rewrite E in E'. clear E. revert b F' E'. induction before as [| x before IH]; intros [| y b] F' E'; cbn in E'.
    + injection E' as E1 E2. auto.
    + injection E' as E1 E2. inversion F' as [| ? ? Y _]. destruct H as [H | H].
      * congruence.
      * rewrite H in E2. destruct b; discriminate.
    + injection E' as E1 E2. inversion F as [| ? ? Y _]. congruence.
    + injection E' as E1 E2. inversion F as [| ? ? _ FB]. inversion F' as [| ? ? _ FB']. apply (IH FB b FB' E2).
  - destruct H as [H | ->].
    + rewrite E in S. apply Forall_app in S as [_ S]. inversion S. congruence.
    + rewrite E, app_length. cbn. rewrite app_nth2 by lia. replace (length before + 1 - 1 - length before)%nat with 0%nat by lia. reflexivity.
Qed.
(** Before its start the entity stands. *)
Theorem C213_wait : forall (v : view) t gs m now b, base_time _ t = Some b -> now < b ->
  target_speed _ v t gs m now = Value (Some 0).
Proof.
  intros v t gs m now b B L. unfold target_speed. rewrite B.
  assert (Qle_bool b now = false) as ->; [ | reflexivity].
  destruct (Qle_bool b now) eqn:E; [apply Qle_bool_iff in E; lra | reflexivity].
Qed.
(** Then the speed covers the way to the next goal in the time left to the next vertex ahead, if that time is not
    over and comes before the time of the last vertex; the greatest speed if it is over. *)
Theorem C213_in_time : forall (v : view) t g gs m now b time total,
  base_time _ t = Some b -> b <= now ->
  snd (nth (current_index _ v t) (vertices _ t) (g, None)) = Some time ->
  snd (last (vertices _ t) (g, None)) = Some total -> 0 <= b + time -> b + time < total ->
  (now < b + time ->
     exists s, target_speed _ v t (g :: gs) m now = Value (Some s) /\ s * (b + time - now) == distance _ v g) /\
  (b + time <= now -> target_speed _ v t (g :: gs) m now = Value (Some m)).
Proof.
  intros v t g gs m now b time total B BN T L P S. unfold target_speed. rewrite B.
  assert (Qle_bool b now = true) as -> by (apply Qle_bool_iff; exact BN). cbn [negb]. rewrite T, L. cbn [lift].
  destruct (fmod_small (b + time) total P S) as (r & E & R). rewrite E. split; intros H.
  - destruct (Qle_bool r now) eqn:Q; [apply Qle_bool_iff in Q; lra | ]. eexists. split; [reflexivity | ].
    setoid_replace (b + time) with r by (symmetry; exact R). field. lra.
  - destruct (Qle_bool r now) eqn:Q; [reflexivity | exfalso].
    assert (N : ~ r <= now) by (intros X; apply Qle_bool_iff in X; congruence). apply N. lra.
Qed.
(** Refuted: the time of the last vertex is kept. Towards it the entity always goes as fast as it may. *)
Theorem C213_last_refuted : forall (v : view) t g gs m now b total,
  base_time _ t = Some b -> 0 <= b -> b <= now -> b < total ->
  snd (nth (current_index _ v t) (vertices _ t) (g, None)) = Some total ->
  snd (last (vertices _ t) (g, None)) = Some total ->
  target_speed _ v t (g :: gs) m now = Value (Some m).
Proof.
  intros v t g gs m now b total B P BN S T L. unfold target_speed. rewrite B.
  assert (Qle_bool b now = true) as -> by (apply Qle_bool_iff; exact BN). cbn [negb]. rewrite T, L. cbn [lift].
  destruct (fmod_once b total P S) as (r & -> & R).
  assert (Qle_bool r now = true) as ->; [apply Qle_bool_iff; lra | reflexivity].
Qed.
(** Refuted: absolute times, or none, are possible: the speed is not a number. *)
Theorem C213_absolute_refuted : forall (v : view) t g gs m now,
  base_time _ t = None -> target_speed _ v t (g :: gs) m now = Value None.
Proof. intros v t g gs m now B. unfold target_speed. rewrite B. reflexivity. Qed.
Theorem C213_untimed_refuted : forall (v : view) t g gs m now b,
  base_time _ t = Some b -> b <= now -> (forall p, In p (vertices _ t) -> snd p = None) ->
  target_speed _ v t (g :: gs) m now = Value None.
Proof.
  intros v t g gs m now b B BN N. unfold target_speed. rewrite B.
  assert (Qle_bool b now = true) as -> by (apply Qle_bool_iff; exact BN). cbn [negb].
  assert (E : snd (nth (current_index _ v t) (vertices _ t) (g, None)) = None).
  { destruct (nth_in_or_default (current_index _ v t) (vertices _ t) (g, None)) as [I | ->]; [apply N, I | reflexivity]. }
  rewrite E. reflexivity.
Qed.
(** ... and likewise if the time of the last vertex is zero. *)
Theorem C213_zero_refuted : forall (v : view) t g gs m now b z,
  base_time _ t = Some b -> b <= now -> snd (last (vertices _ t) (g, None)) = Some z -> z == 0 ->
  target_speed _ v t (g :: gs) m now = Value None.
Proof.
  intros v t g gs m now b z B BN L Z. unfold target_speed. rewrite B.
  assert (Qle_bool b now = true) as -> by (apply Qle_bool_iff; exact BN). cbn [negb]. rewrite L.
  unfold fmod. apply Qeq_bool_iff in Z. rewrite Z. destruct (lift _ _ _); reflexivity.
Qed.
End Theorems.

(** Points on a line; the entity at [x] looks towards greater numbers. *)
Definition see (x : Q) : view Q := View Q (fun p => Qle_bool x p) (fun p => if Qle_bool x p then p - x else x - p).
Definition ride (vs : list (Q * option Q)) (b : option Q) : trajectory Q :=
  {| vertices := vs; base_time := b; closed := false; exact := true; samples := [] |}.
(** Refuted: with points of the spline as goals, the speed is that for the next point, a metre away, instead of that
    for the vertex: 0.1 m/s where 9.5 m are left for ten seconds. *)
Theorem C213_sampled_refuted :
  exists t s, vertices Q t = [(0, Some 0); (10, Some 10); (20, Some 20)] /\ exact _ t = false /\
    base_time _ t = Some 0 /\ (target_speed Q (see (1 # 2)) t [3 # 2; 5 # 2] 2 0 = Value (Some s)) /\ (s == 1 # 10).
Proof.
  exists {| vertices := [(0, Some 0); (10, Some 10); (20, Some 20)]; base_time := Some 0; closed := false;
            exact := false; samples := [1 # 2; 3 # 2; 5 # 2] |}.
  eexists. repeat (split; [reflexivity | ]). vm_compute. reflexivity.
Qed.
(** A trajectory that is given up for another one after its first point: the second one is not followed. *)
Example C212_left_example :
  let first := ride [(1, Some 1); (5, Some 5)] (Some 0) in
  let second := ride [(2, Some 2); (9, Some 9)] (Some 2) in
  exists n1 n2 n3 s1 s3,
    tree_tick Q 10 (1 # 1) (see 0) FollowPolyline [0; 1] first (Some 1) 0 (initial Q)
      = Some (FollowPolyline, Ticked Q n1 Running (Some (5, s1))) /\
    tree_tick Q 10 (1 # 1) (see 0) NoRequest [0; 1] second (Some 1) 1 n1
      = Some (NoRequest, Ticked Q n2 Running (Some (1, Some 1))) /\
    tree_tick Q 10 (1 # 1) (see 0) FollowPolyline [0; 1] second (Some 1) 2 n2
      = Some (FollowPolyline, Ticked Q n3 Running (Some (5, s3))).
Proof. eexists _, _, _, _, _. repeat split; vm_compute; reflexivity. Qed.
Example C212_end_example : exists n',
  polyline_tick Q 10 (1 # 1) (see 0) FollowPolyline (ride [(0, Some 1); (1, Some 5)] (Some 0)) (Some 1) 0 (initial Q)
  = Ticked Q n' Failure None.
Proof. eexists. vm_compute. reflexivity. Qed.
Example C212_loop_example : Forall (done (1 # 1) (see 0)) [0; 1 # 2; 1].
Proof. repeat constructor; vm_compute; congruence. Qed.
Example C211_example :
  lane_tick Q 1 (see 5) NoRequest (Some 1) [0; 2; 5; 11 # 2; 7; 9] = Value (Running, Some (Some 7, Some 1)) /\
  lane_tick Q 1 (see 20) NoRequest (Some 1) [0; 2; 5] = Value (Success, Some (None, Some 0)).
Proof. split; vm_compute; reflexivity. Qed.
Example C213_example : exists s,
  target_speed Q (see 0) (ride [(10, Some 5); (20, Some 20)] (Some 0)) [10; 20] 2 1 = Value (Some s) /\ s == 10 # 4.
Proof. eexists. split; [reflexivity | vm_compute; reflexivity]. Qed.

Print Assumptions C211_goal.
Print Assumptions C211_lost.
Print Assumptions C211_total.
Print Assumptions C212_next.
Print Assumptions C212_behind.
Print Assumptions C212_ended.
Print Assumptions C212_loop_refuted.
Print Assumptions C212_success_refuted.
Print Assumptions C212_end.
Print Assumptions C212_followed.
Print Assumptions C212_left_refuted.
Print Assumptions C212_kept.
Print Assumptions C212_cleared.
Print Assumptions C212_request.
Print Assumptions C213_vertex.
Print Assumptions C213_zero_refuted.
Print Assumptions C213_wait.
Print Assumptions C213_in_time.
Print Assumptions C213_last_refuted.
Print Assumptions C213_absolute_refuted.
Print Assumptions C213_untimed_refuted.
Print Assumptions C213_sampled_refuted.
