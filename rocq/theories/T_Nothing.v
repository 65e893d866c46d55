(** C217, C218: entities that do nothing but follow a trajectory. *)
From Coq Require Import Reals Lra List String.
From Verif Require Import M_Ego M_Quaternion S_Quaternion P_Quaternion M_Nothing S_Nothing.
Import ListNotations.
Local Open Scope R_scope.

(** *** C217 *)
Fixpoint updates (times : list R) (p : Plugin) : option Plugin :=
  match times with
  | [] => Some p
  | t :: r => match update t p with Some p' => updates r p' | None => None end
  end.

(** Without a request the entity stays where it is however long the simulation goes on, and it is
    reported to stand still. *)
Theorem C217_still now times p : request p <> FollowPolyline ->
  exists q, updates (now :: times) p = Some q /\ at_ (own q) = at_ (own p) /\ facing (own q) = facing (own p) /\
    speed (own q) = Some 0 /\ turning (own q) = Some 0 /\ acceleration (own q) = Some 0 /\
    turning_acceleration (own q) = Some 0 /\ request q <> FollowPolyline /\ behavior q = "do_nothing"%string.
Proof.
  revert now p. induction times as [| t r IH]; intros now p H; cbn [updates]; unfold update at 1;
    destruct (request p); try (exfalso; apply H; reflexivity).
  - eexists. split; [reflexivity |]. cbn. repeat split; discriminate.
  - specialize (IH t (plugin Other (path p) "do_nothing" (stand (own p)))).
    destruct IH as (q & E & A & F & R); [discriminate |].
    exists q. split; [exact E |]. cbn in A, F. rewrite A, F. repeat split; apply R.
Qed.

(** What it cannot follow is refused when it is to be followed, and nothing else is. *)
Theorem C217_refused now p : update now p = None <->
  request p = FollowPolyline /\
  match path p with
  | None => True
  | Some t => closed t = true \/ ignorable t = false \/ / 2 ^ 52 < Rabs (offset t) \/
              (List.length (vertices t) <= 1)%nat
  end.
Proof.
  unfold update. destruct (request p); [| split; [discriminate | intros [H _]; discriminate]].
  destruct (path p) as [t |]; cbn [check]; [| split; intros; [split; [reflexivity | exact I] | reflexivity]].
  destruct (closed t) eqn:C; [split; intros; [split; [reflexivity |]; left; reflexivity | reflexivity] |].
  destruct (ignorable t) eqn:G; cbn [negb];
    [| split; intros; [split; [reflexivity |]; right; left; reflexivity | reflexivity]].
  unfold epsilon. destruct (Rlt_dec (/ 2 ^ 52) (Rabs (offset t))) as [L | L];
    [split; intros; [split; [reflexivity |]; right; right; left; exact L | reflexivity] |].
  destruct (Nat.ltb 1 (List.length (vertices t))) eqn:N.
  - apply PeanoNat.Nat.ltb_lt in N. split; [discriminate |].
    intros [_ [H | [H | [H | H]]]]; try discriminate; [lra | Lia.lia].
  - apply PeanoNat.Nat.ltb_ge in N. split; intros; [split; [reflexivity |]; right; right; right; exact N | reflexivity].
Qed.

(** The jerk of the last movement is reported for ever. *)
Theorem C217_jerk_refuted : exists p, request p <> FollowPolyline /\
  forall times, exists q, updates times p = Some q /\ jerk (own q) = Some 7.
Proof.
  exists (plugin Other None "do_nothing" (status None None (Some 0) (Some 0) (Some 0) (Some 0) (Some 0) (Some 7))).
  split; [discriminate |]. intros times.
  assert (forall p, request p = Other -> jerk (own p) = Some 7 ->
            exists q, updates times p = Some q /\ jerk (own q) = Some 7) as H.
  { induction times as [| t r IH]; intros p E J; cbn [updates].
    - exists p. split; [reflexivity | exact J].
    - unfold update. rewrite E. apply IH; [reflexivity | exact J]. }
  apply H; reflexivity.
Qed.

(** *** C218 *)
Lemma last_two_app {A} (l : list A) a b : last_two (l ++ [a; b]) = Some (a, b).
Proof.
  induction l as [| x r IH]; [reflexivity |]. cbn [app last_two].
  destruct r as [| y [| z r']]; [reflexivity | | ].
  - cbn in *. exact IH.
  - exact IH.
Qed.
Lemma split_last (l : list Stop) : in_order l -> exists r a b, l = r ++ [a; b].
Proof.
  intros H. destruct l as [| p r]; [destruct H |]. destruct H as [N _].
  destruct (exists_last N) as (r' & b & ->).
  destruct r' as [| x r''].
  - exists [], p, b. reflexivity.
  - destruct (@exists_last _ (p :: x :: r'') ltac:(discriminate)) as (u & a & E).
    exists u, a, b. change (p :: (x :: r'') ++ [b]) with ((p :: x :: r'') ++ [b]). rewrite E, <- app_assoc. reflexivity.
Qed.

Lemma later_split t l1 a l2 : later t (l1 ++ a :: l2) -> t < s_time a /\ later (s_time a) l2.
Proof.
  revert t. induction l1 as [| x r IH]; intros t H; cbn in H; [exact H |].
  destruct H as [H1 H2]. destruct (IH _ H2). split; [lra | assumption].
Qed.
Lemma successive_order l a b : in_order l -> successive l a b -> s_time a < s_time b.
Proof.
  intros O (l1 & l2 & ->). destruct l1 as [| x r]; cbn in O.
  - destruct O as [_ [H _]]. exact H.
  - destruct O as [_ H]. apply later_split in H. destruct H as [_ [H _]]. exact H.
Qed.

(** In which order the legs of a path are. *)
Lemma legs t l a b a' b' : later t l -> successive l a b -> successive l a' b' ->
  (a = a' /\ b = b') \/ b = a' \/ b' = a \/ s_time b < s_time a' \/ s_time b' < s_time a.
Proof.
  revert t. induction l as [| x r IH]; intros t L (l1 & l2 & E) (l3 & l4 & E').
  - destruct l1; discriminate.
  - destruct L as [_ L]. destruct l1 as [| y l1], l3 as [| y' l3]; cbn in E, E'.
    + injection E as -> E. rewrite E in E'. injection E' as -> -> _. left. split; reflexivity.
    + injection E as _ E. injection E' as _ E'. rewrite E in E', L.
      destruct l3 as [| z l3]; cbn in E'.
      * injection E' as E' _. right. left. exact E'.
      * injection E' as _ E'. rewrite E' in L. destruct L as [_ L]. apply later_split in L.
        right. right. right. left. apply L.
    + injection E as _ E. injection E' as _ E'. rewrite E' in E, L.
      destruct l1 as [| z l1]; cbn in E.
      * injection E as E _. right. right. left. exact E.
      * injection E as _ E. rewrite E in L. destruct L as [_ L]. apply later_split in L.
        right. right. right. right. apply L.
    + injection E as _ E. injection E' as _ E'.
      apply (IH _ L); [exists l1, l2; exact E | exists l3, l4; exact E'].
Qed.
Lemma later_of_order l : in_order l -> exists t, later t l.
Proof.
  destruct l as [| p r]; [intros [] |]. intros [_ H]. exists (s_time p - 1). cbn. split; [lra | exact H].
Qed.

Lemma mul_cancel d x y k : d <> 0 -> d * (x - k) = d * (y - k) -> x = y.
Proof. intros D E. apply Rmult_eq_reg_l in E; [lra | exact D]. Qed.
Lemma between_start a b p : s_time a < s_time b -> between a b (s_time a) p -> p = s_at a.
Proof.
  intros L (_ & X & Y & Z). set (d := s_time b - s_time a) in *. assert (d <> 0) by (unfold d; lra).
  replace (s_time a - s_time a) with 0 in X, Y, Z by ring. rewrite Rmult_0_l in X, Y, Z.
  apply Rmult_integral in X, Y, Z. apply vec_eq; lra.
Qed.
Lemma between_end a b p : s_time a < s_time b -> between a b (s_time b) p -> p = s_at b.
Proof.
  intros L (_ & X & Y & Z). set (d := s_time b - s_time a) in *. assert (d <> 0) by (unfold d; lra).
  apply vec_eq; apply Rmult_eq_reg_l in X, Y, Z; try exact H; lra.
Qed.

(** There is at most one place to be at any time. *)
Theorem C218_one l t a b p a' b' p' : in_order l ->
  successive l a b -> between a b t p -> successive l a' b' -> between a' b' t p' -> p = p'.
Proof.
  intros O S B S' B'.
  pose proof (successive_order _ _ _ O S) as L. pose proof (successive_order _ _ _ O S') as L'.
  destruct (later_of_order _ O) as [t0 O'].
  pose proof B as (R & _). pose proof B' as (R' & _).
  destruct (legs _ _ _ _ _ _ O' S S') as [[-> ->] | [-> | [-> | [H | H]]]].
  - destruct B as (_ & X & Y & Z), B' as (_ & X' & Y' & Z').
    assert (s_time b' - s_time a' <> 0) as D by lra.
    rewrite <- X' in X. rewrite <- Y' in Y. rewrite <- Z' in Z.
    apply vec_eq; eapply mul_cancel; eassumption.
  - assert (t = s_time a') as -> by lra.
    rewrite (between_end _ _ _ L B), (between_start _ _ _ L' B'). reflexivity.
  - assert (t = s_time a) as -> by lra.
    rewrite (between_start _ _ _ L B), (between_end _ _ _ L' B'). reflexivity.
  - lra.
  - lra.
Qed.

Lemma le_true a b : a <= b -> le (Some a) (Some b) = true.
Proof. intros H. cbn. destruct (Rle_dec a b); [reflexivity | contradiction]. Qed.
Lemma le_false a b : b < a -> le (Some a) (Some b) = false.
Proof. intros H. cbn. destruct (Rle_dec a b); [lra | reflexivity]. Qed.
Lemma le_iff a b : le (Some a) (Some b) = true <-> a <= b.
Proof. cbn. destruct (Rle_dec a b); split; intros; try discriminate; try contradiction; auto. Qed.

Definition spans (start now : R) (a b : Vertex) : bool :=
  andb (le (plus (Some start) (v_time a)) (Some now)) (le (Some now) (plus (Some start) (v_time b))).

Lemma found start now x r b : s_time x <= now - start -> ends (x :: r) b -> r <> [] -> now - start <= s_time b ->
  exists u v, successive (x :: r) u v /\ s_time u <= now - start <= s_time v /\
    adjacent (spans start now) (map point_of (x :: r)) = Some (point_of u, point_of v).
Proof.
  revert x. induction r as [| y r IH]; intros x X E N B; [contradiction |].
  destruct (Rle_dec (now - start) (s_time y)) as [Y | Y].
  - exists x, y. split; [exists [], r; reflexivity |]. split; [lra |].
    cbn [map adjacent]. unfold spans. cbn [point_of v_time plus].
    rewrite !le_true by lra. reflexivity.
  - destruct r as [| z r].
    + exfalso. destruct E as [l E].
      destruct l as [| ? [| ? l]]; [discriminate | | destruct l; discriminate]. injection E as _ <-. lra.
    + destruct (IH y) as (u & v & (l1 & l2 & S) & T & A); [lra | | discriminate | exact B |].
      { destruct E as [l E]. destruct l as [| ? l]; [discriminate |]. injection E as _ E. exists l. exact E. }
      exists u, v. split; [exists (x :: l1), l2; rewrite S; reflexivity |]. split; [exact T |].
      cbn [map] in A |- *. cbn [adjacent]. unfold spans at 1. cbn [point_of v_time plus] in A |- *.
      rewrite (le_false now (start + s_time y)) by lra. rewrite Bool.andb_false_r. exact A.
Qed.

Lemma interpolate_place s u v t : s_time u < s_time v -> s_time u <= t <= s_time v ->
  exists p, at_ (interpolate s (by_ (Some (t - s_time u)) (Some (s_time v - s_time u))) (point_of u) (point_of v)) = Some p
            /\ between u v t p.
Proof.
  intros L T. unfold by_. destruct (Req_EM_T (s_time v - s_time u) 0) as [Z | Z]; [lra |].
  cbn -[Rdiv]. eexists. split; [reflexivity |]. split; [exact T |]. cbn -[Rdiv].
  repeat split; field; lra.
Qed.

Lemma check_timed start l : in_order l -> check (Some (timed start l)) = true.
Proof.
  intros O. cbn [check timed closed ignorable offset negb]. rewrite Rabs_R0.
  destruct (Rlt_dec epsilon 0) as [L | L].
  - exfalso. unfold epsilon in L. assert (0 < / 2 ^ 52) by (apply Rinv_0_lt_compat, pow_lt; lra). lra.
  - destruct l as [| a [| b r]]; [destruct O | destruct O as [N _]; contradiction | reflexivity].
Qed.

Lemma timed_last start l r a b : l = r ++ [a; b] ->
  last_two (vertices (timed start l)) = Some (point_of a, point_of b).
Proof. intros ->. cbn [timed vertices]. rewrite map_app. apply last_two_app. Qed.

Lemma interpolated_timed start l s now first rest r a b : l = first :: rest -> l = r ++ [a; b] ->
  interpolated (timed start l) s now =
    if le (Some now) (Some (start + s_time first)) then None
    else if le (Some (start + s_time b)) (Some now) then Some (interpolate s (Some 1) (point_of a) (point_of b))
    else match adjacent (spans start now) (map point_of l) with
         | Some (u, v) => Some (interpolate s (by_ (minus (minus (Some now) (Some start)) (v_time u))
                                                  (minus (v_time v) (v_time u))) u v)
         | None => None
         end.
Proof.
  intros E E'. unfold interpolated. rewrite (timed_last start l r a b E'). unfold timed. cbn [vertices base].
  rewrite E. reflexivity.
Qed.

Lemma nonempty l : in_order l -> exists first rest, l = first :: rest.
Proof. destruct l as [| p r]; [intros [] |]. intros _. exists p, r. reflexivity. Qed.

Section following.
Context (start : R) (l : list Stop) (O : in_order l).
Definition follower (s : Status) : Plugin := plugin FollowPolyline (Some (timed start l)) "follow_polyline_trajectory" s.

Lemma update_timed s now r a b : l = r ++ [a; b] ->
  update now (follower s) =
    let s' := match interpolated (timed start l) s now with Some s' => s' | None => s end in
    Some (if le (Some (start + s_time b)) (Some now) then plugin Other (Some (timed start l)) "do_nothing" s'
          else follower s').
Proof.
  intros E'. unfold update, follower. cbn [request path own]. rewrite check_timed by exact O.
  rewrite (timed_last start l r a b E'). reflexivity.
Qed.

(** Before the time of its first point the entity stays where it is. *)
Theorem C218_before now s first : begins l first -> now - start <= s_time first ->
  update now (follower s) = Some (follower s).
Proof.
  intros [r E] T. destruct (split_last l O) as (r' & a & b & E').
  assert (s_time first < s_time b) as L.
  { destruct r' as [| y r']; rewrite E in E'; cbn in E'; injection E' as -> E'; rewrite E in O; destruct O as [_ H];
      rewrite E' in H.
    - destruct H as [H _]. exact H.
    - change (r' ++ [a; b]) with (r' ++ [a] ++ [b]) in H. rewrite app_assoc in H. apply later_split in H. apply H. }
  rewrite (update_timed s now r' a b E'), (interpolated_timed start l s now first r r' a b E E').
  rewrite (le_true now (start + s_time first)) by lra.
  rewrite (le_false (start + s_time b) now) by lra. reflexivity.
Qed.

(** From then on it is on the leg of the path that the time is in, where an even movement along it
    would be; it goes on following. *)
Theorem C218_position now s first last_ : begins l first -> ends l last_ ->
  s_time first < now - start < s_time last_ ->
  exists s' a b p, update now (follower s) = Some (follower s') /\
    at_ s' = Some p /\ successive l a b /\ between a b (now - start) p.
Proof.
  intros [r E] En T. destruct (split_last l O) as (r' & a & b & E').
  assert (last_ = b) as ->.
  { destruct En as [r'' E'']. rewrite E' in E''. change [a; b] with ([a] ++ [b]) in E''. rewrite app_assoc in E''.
    apply app_inj_tail in E''. symmetry. apply E''. }
  assert (r <> []) as N by (rewrite E in O; destruct O; assumption).
  destruct (found start now first r b) as (u & v & S & B & A); try lra; try exact N.
  { rewrite <- E. exact En. }
  rewrite <- E in S, A.
  destruct (interpolate_place s u v (now - start) (successive_order _ _ _ O S) B) as (p & P & W).
  eexists _, u, v, p. split; [| split; [exact P | split; [exact S | exact W]]].
  rewrite (update_timed s now r' a b E'), (interpolated_timed start l s now first r r' a b E E'), A.
  rewrite (le_false now (start + s_time first)) by lra.
  rewrite (le_false (start + s_time b) now) by lra. reflexivity.
Qed.

(** At the time of a point, not the first, it is at that point. *)
Theorem C218_points now s a b : successive l a b -> now = start + s_time b ->
  exists q, update now (follower s) = Some q /\ at_ (own q) = Some (s_at b).
Proof.
  intros S ->. pose proof (successive_order _ _ _ O S) as L.
  destruct (split_last l O) as (r & u & v & E).
  destruct (nonempty l O) as (first & rest & El).
  assert (s_time first <= s_time a) as F.
  { destruct S as (l1 & l2 & S). pose proof O as H. rewrite El in S, H.
    destruct l1 as [| x l1]; injection S as -> S; [lra |].
    rewrite S in H. destruct H as [_ H]. apply later_split in H. lra. }
  destruct (Rlt_dec (s_time b) (s_time v)) as [V | V].
  - destruct (C218_position (start + s_time b) s first v) as (s' & a' & b' & p & U & P & S' & B).
    + exists rest. exact El.
    + exists (r ++ [u]). rewrite E, <- app_assoc. reflexivity.
    + lra.
    + eexists. split; [exact U |]. cbn. rewrite P. f_equal.
      assert (between a b (s_time b) (s_at b)) as W by (split; [lra |]; cbn; repeat split; ring).
      replace (start + s_time b - start) with (s_time b) in B by ring.
      exact (C218_one l _ _ _ _ _ _ _ O S' B S W).
  - assert (b = v) as ->.
    { destruct S as (l1 & l2 & S). rewrite S in E.
      destruct (@exists_last _ (b :: l2) ltac:(discriminate)) as (l3 & w & W).
      assert (w = v) as ->.
      { rewrite W in E. change (l1 ++ a :: l3 ++ [w]) with (l1 ++ (a :: l3) ++ [w]) in E.
        change [u; v] with ([u] ++ [v]) in E. rewrite !app_assoc in E. apply app_inj_tail in E. apply E. }
      destruct l3 as [| z l3]; injection W as W1 W2; [exact W1 |]. exfalso. subst z l2.
      pose proof O as O'. rewrite S in O'. destruct (later_of_order _ O') as [t0 H].
      change (l1 ++ a :: b :: l3 ++ [v]) with (l1 ++ [a] ++ b :: l3 ++ [v]) in H. rewrite app_assoc in H.
      apply later_split in H. destruct H as [_ H]. apply later_split in H. lra. }
    rewrite (update_timed s _ r u v) by exact E.
    rewrite (interpolated_timed start l s _ first rest r u v El) by exact E.
    rewrite (le_false (start + s_time v) (start + s_time first)) by lra.
    rewrite (le_true (start + s_time v) (start + s_time v)) by lra.
    eexists. split; [reflexivity |]. cbn. f_equal. apply vec_eq; cbn; ring.
Qed.

(** From the time of the last point on it is there, and the following is over; not before. *)
Theorem C218_end now s last_ : ends l last_ ->
  (s_time last_ <= now - start -> exists q, update now (follower s) = Some q /\ request q = Other /\
     at_ (own q) = Some (s_at last_)) /\
  (now - start < s_time last_ -> exists q, update now (follower s) = Some q /\ request q = FollowPolyline).
Proof.
  intros [r E]. destruct (split_last l O) as (r' & a & b & E').
  assert (last_ = b) as ->.
  { rewrite E' in E. change [a; b] with ([a] ++ [b]) in E. rewrite app_assoc in E.
    apply app_inj_tail in E. symmetry. apply E. }
  assert (forall first rest, l = first :: rest -> s_time first < s_time b) as F.
  { intros first rest Z. destruct r' as [| y r']; rewrite Z in E'; cbn in E'; injection E' as -> E'; rewrite Z in O;
      destruct O as [_ H]; rewrite E' in H.
    - destruct H as [H _]. exact H.
    - change (r' ++ [a; b]) with (r' ++ [a] ++ [b]) in H. rewrite app_assoc in H. apply later_split in H. apply H. }
  split; intros T; rewrite (update_timed s now r' a b E').
  - destruct (nonempty l O) as (first & rest & El). specialize (F first rest El).
    rewrite (interpolated_timed start l s now first rest r' a b El E').
    rewrite (le_false now (start + s_time first)) by lra.
    rewrite (le_true (start + s_time b) now) by lra.
    eexists. split; [reflexivity |]. split; [reflexivity |]. cbn. f_equal. apply vec_eq; cbn; ring.
  - rewrite (le_false (start + s_time b) now) by lra. eexists. split; reflexivity.
Qed.

(** The speed reported is that of an even movement along the leg. *)
Theorem C218_speed now s first last_ : begins l first -> ends l last_ ->
  s_time first < now - start < s_time last_ ->
  exists s' a b v, update now (follower s) = Some (follower s') /\ successive l a b /\
    s_time a <= now - start <= s_time b /\ speed s' = Some v /\
    v * (s_time b - s_time a) = distance (s_at a) (s_at b).
Proof.
  intros [r E] En T. destruct (split_last l O) as (r' & a & b & E').
  assert (last_ = b) as ->.
  { destruct En as [r'' E'']. rewrite E' in E''. change [a; b] with ([a] ++ [b]) in E''. rewrite app_assoc in E''.
    apply app_inj_tail in E''. symmetry. apply E''. }
  assert (r <> []) as N by (rewrite E in O; destruct O; assumption).
  destruct (found start now first r b) as (u & v & S & B & A); try lra; try exact N.
  { rewrite <- E. exact En. }
  rewrite <- E in S, A. pose proof (successive_order _ _ _ O S) as L.
  eexists _, u, v, (distance (s_at v) (s_at u) / (s_time v - s_time u)).
  split; [| split; [exact S | split; [exact B | split]]].
  - rewrite (update_timed s now r' a b E'), (interpolated_timed start l s now first r r' a b E E'), A.
    rewrite (le_false now (start + s_time first)) by lra.
    rewrite (le_false (start + s_time b) now) by lra. reflexivity.
  - cbn -[Rdiv distance by_]. unfold by_. destruct (Req_EM_T (s_time v - s_time u) 0); [lra | reflexivity].
  - replace (distance (s_at v) (s_at u)) with (distance (s_at u) (s_at v)).
    + field. lra.
    + unfold distance. f_equal. cbn. ring.
Qed.
End following.

(** *** What a FollowTrajectoryAction of a scenario makes of it *)
Definition asked (start : R) (absolute : bool) (here : Vec) (to : Quat) (l : list Vertex) (s : Status) : Plugin :=
  plugin FollowPolyline (Some (requested absolute start true false 0 here to l)) "follow_polyline_trajectory" s.

Lemma last_two_cons {A} (x : A) l p : last_two l = Some p -> last_two (x :: l) = Some p.
Proof.
  intros H. destruct l as [| a [| b r]]; try discriminate. cbn [last_two] in *.
  destruct r; exact H.
Qed.

(** With times relative to the start of the action and at least two points, the entity follows them
    after the time of the first. *)
Theorem C218_action start here to l s first now : in_order l -> begins l first -> s_time first < now - start ->
  exists q q', update now (asked start false here to (map point_of l) s) = Some q /\
    update now (follower start l s) = Some q' /\ own q = own q' /\ request q = request q' /\ behavior q = behavior q'.
Proof.
  intros O [r E] T. destruct (split_last l O) as (r' & a & b & E').
  pose proof (timed_last start l r' a b E') as LT. cbn [timed vertices] in LT.
  unfold update, asked, follower. cbn [request path].
  rewrite check_timed by exact O.
  assert (check (Some (requested false start true false 0 here to (map point_of l))) = true) as C.
  { pose proof (check_timed start l O) as C. cbn [check timed requested closed ignorable offset vertices negb] in C |- *.
    destruct (Rlt_dec epsilon (Rabs 0)); [discriminate |]. cbn [List.length]. rewrite map_length in C |- *.
    destruct (List.length l) as [| [| k]]; [discriminate | discriminate | reflexivity]. }
  rewrite C. unfold interpolated. cbn [requested timed vertices base own].
  rewrite (last_two_cons _ _ _ LT), LT. cbn [v_time plus point_of le].
  rewrite E. cbn [map]. cbn [adjacent v_time plus le andb point_of].
  destruct (Rle_dec now (start + s_time first)) as [X | X]; [lra |].
  destruct (Rle_dec (start + s_time b) now);
    eexists _, _; split; try reflexivity; split; try reflexivity; cbn; repeat split; reflexivity.
Qed.

(** Before that it does not go to the first point: it waits where it is, and is at the first point when
    the time comes, however far away that is. *)
Theorem C218_first_refuted : exists l, in_order l /\ forall s now, s_time (hd (stop 0 (vec 0 0 0) still) l) > now ->
  update now (asked 0 false (vec 0 0 0) still (map point_of l) s) =
    Some (asked 0 false (vec 0 0 0) still (map point_of l) s) /\
  exists q, update (s_time (hd (stop 0 (vec 0 0 0) still) l)) (asked 0 false (vec 0 0 0) still (map point_of l) s) = Some q /\
    at_ (own q) = Some (vec 100 0 0).
Proof.
  exists [stop 1 (vec 100 0 0) still; stop 2 (vec 101 0 0) still].
  split; [cbn; repeat split; [discriminate | lra] |]. cbn [hd s_time]. intros s now T.
  assert (check (Some (requested false 0 true false 0 (vec 0 0 0) still
            (map point_of [stop 1 (vec 100 0 0) still; stop 2 (vec 101 0 0) still]))) = true) as C.
  { cbn [check requested closed ignorable offset vertices negb]. rewrite Rabs_R0.
    destruct (Rlt_dec epsilon 0) as [L | L]; [exfalso | reflexivity].
    unfold epsilon in L. assert (0 < / 2 ^ 52) by (apply Rinv_0_lt_compat, pow_lt; lra). lra. }
  unfold update, asked. cbn [request path]. rewrite C. unfold interpolated.
  cbn [requested vertices base map point_of v_time plus le last_two adjacent s_time andb].
  split.
  - destruct (Rle_dec (0 + 2) now); [lra |]. destruct (Rle_dec (0 + 1) now); [lra |].
    cbn [andb]. reflexivity.
  - destruct (Rle_dec (0 + 2) 1); [lra |]. destruct (Rle_dec (0 + 1) 1); [| lra].
    destruct (Rle_dec 1 (0 + 2)); [| lra]. cbn [andb].
    eexists. split; [reflexivity |]. cbn -[Rdiv].
    repeat match goal with |- context [Req_EM_T ?a ?b] => destruct (Req_EM_T a b); [exfalso; lra |] end.
    f_equal. apply vec_eq; cbn -[Rdiv]; field.
Qed.

(** With absolute times it never moves and the action is never over, whatever the points. *)
Theorem C218_absolute_refuted start here to l s now : l <> [] ->
  update now (asked start true here to (map point_of l) s) = Some (asked start true here to (map point_of l) s).
Proof.
  intros N.
  assert (check (Some (requested true start true false 0 here to (map point_of l))) = true) as C.
  { cbn [check requested closed ignorable offset vertices negb]. rewrite Rabs_R0.
    destruct (Rlt_dec epsilon 0) as [L | L].
    - exfalso. unfold epsilon in L. assert (0 < / 2 ^ 52) by (apply Rinv_0_lt_compat, pow_lt; lra). lra.
    - cbn [List.length]. rewrite map_length. destruct l; [contradiction | reflexivity]. }
  unfold update, asked. cbn [request path]. rewrite C. unfold interpolated. cbn [requested vertices base plus le].
  destruct (last_two (vertex None here to :: map point_of l)) as [[u v] |] eqn:E.
  - cbn [le plus].
    assert (forall w : list Vertex, adjacent (fun a b => andb false (false : bool)) w = None) as A.
    { induction w as [| x [| y w] IH]; [reflexivity | reflexivity |]. cbn [adjacent andb]. apply IH. }
    assert (forall w : list Vertex,
      adjacent (fun a b => andb (le (plus None (v_time a)) (Some now)) (le (Some now) (plus None (v_time b)))) w = None) as A'.
    { induction w as [| x [| y w] IH]; [reflexivity | reflexivity |]. cbn [adjacent plus le andb]. exact IH. }
    cbn [plus le] in A'. rewrite A'. reflexivity.
  - reflexivity.
Qed.

(** With one point the speed reported on arrival is not a number. *)
Theorem C218_single_refuted start here to p s now : s_time p <= now - start ->
  exists q, update now (asked start false here to [point_of p] s) = Some q /\ request q = Other /\
    at_ (own q) = Some (s_at p) /\ speed (own q) = None.
Proof.
  intros T. unfold update, asked. cbn [request path].
  assert (check (Some (requested false start true false 0 here to [point_of p])) = true) as C.
  { cbn [check requested closed ignorable offset vertices negb]. rewrite Rabs_R0.
    destruct (Rlt_dec epsilon 0) as [L | L]; [exfalso | reflexivity].
    unfold epsilon in L. assert (0 < / 2 ^ 52) by (apply Rinv_0_lt_compat, pow_lt; lra). lra. }
  rewrite C. unfold interpolated. cbn [requested vertices base plus v_time le last_two point_of].
  destruct (Rle_dec (start + s_time p) now); [| lra].
  eexists. split; [reflexivity |]. split; [reflexivity |]. cbn. split; [| reflexivity].
  f_equal. apply vec_eq; cbn; ring.
Qed.

(** An entity that stood and now moves is reported to have slowed down. *)
Theorem C218_acceleration_refuted : exists l s now s' a, in_order l /\ speed s = Some 0 /\
  update now (follower 0 l s) = Some (follower 0 l s') /\
  speed s' = Some 10 /\ acceleration s' = Some a /\ a < 0.
Proof.
  exists [stop 0 (vec 0 0 0) still; stop 1 (vec 10 0 0) still],
    (status (Some (vec 0 0 0)) (Some still) (Some 0) (Some 0) (Some 0) (Some 0) (Some 0) (Some 0)), (1 / 2).
  set (l := [stop 0 (vec 0 0 0) still; stop 1 (vec 10 0 0) still]).
  assert (in_order l) as O by (cbn; repeat split; [discriminate | lra]).
  set (s := status (Some (vec 0 0 0)) (Some still) (Some 0) (Some 0) (Some 0) (Some 0) (Some 0) (Some 0)).
  assert (distance (vec 10 0 0) (vec 0 0 0) = 10) as D.
  { unfold distance. cbn. replace ((0 - 10) * (0 - 10) + (0 - 0) * (0 - 0) + (0 - 0) * (0 - 0)) with (10 * 10) by ring.
    apply sqrt_square. lra. }
  eexists _, (-10). split; [exact O |]. split; [reflexivity |]. split; [| split; [| split]].
  - unfold update, follower. cbn [request path]. rewrite check_timed by exact O. unfold interpolated.
    cbn [l timed vertices base map point_of v_time plus le last_two adjacent s_time own].
    destruct (Rle_dec (1 / 2) (0 + 0)); [lra |]. destruct (Rle_dec (0 + 1) (1 / 2)); [lra |].
    destruct (Rle_dec (0 + 0) (1 / 2)); [| lra]. destruct (Rle_dec (1 / 2) (0 + 1)); [| lra].
    cbn [andb]. reflexivity.
  - cbn -[distance by_ Rdiv]. rewrite D. unfold by_. destruct (Req_EM_T (1 - 0) 0); [lra |]. f_equal. field.
  - cbn -[distance by_ Rdiv]. rewrite D. unfold by_. destruct (Req_EM_T (1 - 0) 0); [lra |].
    cbn -[Rdiv]. destruct (Req_EM_T (1 - 0) 0); [lra |]. f_equal. field.
  - lra.
Qed.

Example C218_case : in_order [stop 0 (vec 0 0 0) still; stop 1 (vec 10 0 0) still; stop 3 (vec 10 8 0) still] /\
  between (stop 1 (vec 10 0 0) still) (stop 3 (vec 10 8 0) still) 2 (vec 10 4 0).
Proof.
  split; [cbn; split; [discriminate | lra] |].
  unfold between. cbn [s_time s_at vec_x vec_y vec_z]. repeat split; try lra; ring.
Qed.
Example C217_case : update 1 (plugin FollowPolyline None "do_nothing"
  (status None None None None None None None None)) = None.
Proof. reflexivity. Qed.
