(** * Following a polyline trajectory: order, completion, times, laps, motion *)

From Coq Require Import List Bool ZArith QArith Qabs Qround Qminmax Lqa Lia.
From Verif Require Import M_FollowControl S_FollowControl P_FollowControl P_FollowControl2
  T_FollowControl M_FollowTrajectory S_FollowTrajectory P_FollowTrajectory P_FollowTrajectory2.
Import ListNotations.
Open Scope Q_scope.

(** A straight road: a place is a coordinate, a direction is 1 or -1. *)
Definition road : world Q Q :=
  World Q Q (fun a b => Qabs (a - b)) (fun s b => if le (place s) b then 1 else -(1))
    (fun _ _ h => h) (fun s h length _ => Qred (place s + h * length)).
Definition rules : settings := Settings car_limits (1 # 20) 2000 Qfloor.
Definition at_place (x : Q) : vertex Q := Vertex x None.
Definition timed (x t : Q) : vertex Q := Vertex x (Some t).

(** ** C123: order *)

(** Every frame passes some waypoints, each within reach and, if it has a time, due. *)
Theorem C123_frame :
  forall P H (w : world P H) p wanted depth t s t' r,
  follow depth w p wanted t s = (t', r) ->
  exists passed, passing w p wanted s t passed t'.
Proof.
  intros P H w p wanted depth t s t' r F. apply follow_refines in F.
  destruct F as (passed & Q & _). exists passed. exact Q.
Qed.

(** Over any number of frames, the waypoints of an open trajectory are passed each once and in
    their order. *)
Theorem C123_open :
  forall P H (w : world P H) p t s passed t' s',
  journey w p t s passed t' s' -> closed t = false ->
  tl (vertices t) = passed ++ tl (vertices t').
Proof.
  intros P H w p t s passed t' s' J. induction J as [|t s passed t1 s1 depth wanted t2 s2 s2' more J IH F Q];
    intros C; [reflexivity|].
  rewrite (IH C). rewrite <- app_assoc. f_equal. apply (passing_open _ _ _ _ _ _ _ Q).
  rewrite (journey_closed _ _ _ _ _ _ _ J). exact C.
Qed.

(** Those of a closed one are passed in their order round and round, from the second on; none is
    ever lost. *)
Theorem C123_closed :
  forall P H (w : world P H) p t s passed t' s',
  journey w p t s passed t' s' -> closed t = true ->
  let n := length (vertices t) in
  length (vertices t') = n /\
  (forall i, (i < length passed)%nat ->
     nth_error passed i = nth_error (vertices t) ((i + 1) mod n)) /\
  (forall i, (i < n)%nat ->
     nth_error (vertices t') i = nth_error (vertices t) ((i + length passed) mod n)).
Proof.
  intros P H w p t s passed t' s' J C n.
  assert (G : length (vertices t') = n /\
    (forall i, (i < length passed)%nat -> nth_error passed i = cyclic (vertices t) (S i)) /\
    (forall k, cyclic (vertices t') k = cyclic (vertices t) (k + length passed))).
  { unfold n. clear n.
    induction J as [|t s passed t1 s1 depth wanted t2 s2 s2' more J IH F Q].
    - split; [reflexivity|]. split; [intros i L; simpl in L; lia|].
      intros k. cbn [length]. rewrite Nat.add_0_r. reflexivity.
    - specialize (IH C). destruct IH as (L & A & B).
      assert (C1 : closed t1 = true) by (rewrite (journey_closed _ _ _ _ _ _ _ J); exact C).
      destruct (passing_cyclic _ _ _ _ _ _ _ Q C1) as (L' & A' & B').
      split; [congruence|]. split.
      + intros i LI. rewrite app_length in LI. destruct (Nat.lt_ge_cases i (length passed)).
        * rewrite nth_error_app1 by assumption. apply A. assumption.
        * rewrite nth_error_app2 by assumption. rewrite A' by lia. rewrite B. f_equal. lia.
      + intros k. rewrite B', B, app_length. f_equal. lia. }
  destruct G as (L & A & B). split; [exact L|]. split.
  - intros i LI. rewrite (A i LI). unfold cyclic. fold n. f_equal. f_equal. lia.
  - intros i LI. specialize (B i). unfold cyclic in B. rewrite L in B. fold n in B.
    rewrite Nat.mod_small in B by lia. exact B.
Qed.

(** At 10 m/s two waypoints 0.2 m and 0.4 m ahead are passed in one frame. *)
Example C123_example :
  let t := Trajectory [at_place 0; at_place (1 # 5); at_place (2 # 5); at_place 100] None false true in
  let s := Status 0 0 1 10 0 in
  exists s', follow 3 road rules (Some 10) t s
    = (Trajectory [at_place (2 # 5); at_place 100] None false true, Moved s') /\
    speed s' == 10 /\ place s' == 1 # 2.
Proof. cbv zeta. eexists. split; [vm_compute; reflexivity|]. split; reflexivity. Qed.

(** ** C124: completion *)

Lemma ending_inv {P H} (w : world P H) p wanted t s r :
  ending w p wanted t s r ->
  match r with
  | Finished => exists x y, vertices t = [x; y] /\ handle_final w p wanted t s x y = Finished
  | _ => True
  end.
Proof.
  destruct 1 as [x y V|x y rest v V| | | | ]; try exact I.
  - destruct (handle_final w p wanted t s x y) eqn:E; try exact I. exists x, y. auto.
  - unfold update. rewrite V. destruct (late _ _ _ _); exact I.
Qed.

(** An entity has finished only if two vertices are left and it is at rest within 10 cm of the
    last, not earlier than half a frame before the time of that. *)
Theorem C124_finished :
  forall P H (w : world P H) p wanted depth t s t',
  follow depth w p wanted t s = (t', Finished) ->
  exists previous target,
    vertices t' = [previous; target] /\ at_rest s /\
    gap w (place s) (position target) <= 1 # 10 /\
    forall d, due (base t') target = Some d -> d - time s < dt p / 2.
Proof.
  intros P H w p wanted depth t s t' F. apply follow_refines in F. destruct F as (passed & _ & E).
  apply ending_inv in E. destruct E as (x & y & V & E). exists x, y. split; [exact V|].
  unfold handle_final in E. cbv zeta in E. destruct (still s && _) eqn:N in E.
  - apply andb_true_iff in N. destruct N as [S N]. unfold still in S. deciding.
    split; [split; assumption|]. split; [exact N|]. intros d D.
    pose proof (remaining_due (base t') (time s) y) as R. rewrite D in R.
    destruct R as (r & R & RR). rewrite R in E. destruct (definitely_less r _) eqn:L in E.
    + apply definitely_less_lt in L. pose proof epsilon_positive.
      destruct RR as [RR | [RR ->]]; lra.
    + unfold update in E. rewrite V in E. destruct (late _ _ _ _); discriminate.
  - destruct (still s && _) in E; [discriminate|].
    assert (U : forall v, update w p t' s v <> Finished).
    { intros v. unfold update. rewrite V. destruct (late _ _ _ _); discriminate. }
    destruct (le _ _) in E; [exfalso; exact (U _ E)|].
    destruct (desired_velocity _ _ _ _ _ _ _); [exfalso; exact (U _ E) | discriminate].
Qed.

Lemma is_definitely_less a b : 0 < b -> a < b * (1 - epsilon) -> definitely_less a b = true.
Proof.
  intros B L. unfold definitely_less. apply lt_iff.
  destruct (Qlt_le_dec a (- b)) as [L' | L'].
  - assert (M : Qmax (Qabs a) (Qabs b) == - a).
    { rewrite (Qabs_neg a) by lra. rewrite (Qabs_pos b) by lra. apply Q.max_l. lra. }
    rewrite M. unfold epsilon in *. lra.
  - assert (M : Qmax (Qabs a) (Qabs b) == b).
    { rewrite (Qabs_pos b) by lra. apply Q.max_r. apply Qabs_case; unfold epsilon in *; lra. }
    rewrite M. unfold epsilon in *. lra.
Qed.

(** And in that situation it has. *)
Theorem C124_finishes :
  forall P H (w : world P H) p wanted depth t s previous target,
  vertices t = [previous; target] -> at_rest s ->
  gap w (place s) (position target) <= 1 # 10 -> 4 * epsilon <= dt p ->
  (forall d, due (base t) target = Some d -> d - time s < dt p / 2 * (1 - epsilon)) ->
  follow depth w p wanted t s = (t, Finished).
Proof.
  intros P H w p wanted depth t s x y V [S A] G DT T.
  assert (HF : handle_final w p wanted t s x y = Finished).
  { unfold handle_final. cbv zeta. unfold still. apply lt_iff in S, A. rewrite S, A.
    assert (N : le (gap w (place s) (position y)) remaining_distance_tolerance = true)
      by (apply le_iff; exact G). rewrite N. cbn [andb].
    pose proof (remaining_due (base t) (time s) y) as R. destruct (due (base t) y) as [d|] eqn:D.
    - destruct R as (r & -> & R). rewrite is_definitely_less; [reflexivity | |].
      + pose proof (half (dt p)). unfold epsilon in DT. lra.
      + pose proof (half (dt p)). specialize (T d eq_refl). destruct R as [R | [R ->]]; [lra|].
        unfold epsilon in *. lra.
    - rewrite R. reflexivity. }
  destruct depth; cbn [follow]; rewrite V; rewrite HF; reflexivity.
Qed.

(** A closed trajectory with three or more vertices is never finished; one of two is. *)
Theorem C124_closed :
  forall P H (w : world P H) p wanted depth t s,
  closed t = true -> (3 <= length (vertices t))%nat ->
  snd (follow depth w p wanted t s) <> Finished.
Proof.
  intros P H w p wanted depth t s C L E. destruct (follow depth w p wanted t s) as [t' r] eqn:F.
  cbn [snd] in E. subst r. pose proof F as G. apply C124_finished in G.
  destruct G as (x & y & V & _). apply follow_refines in F. destruct F as (passed & Q & _).
  destruct (passing_cyclic _ _ _ _ _ _ _ Q C) as (LL & _). rewrite V in LL. simpl in LL. lia.
Qed.

Theorem C124_closed_two_refuted :
  exists t s, closed t = true /\
    forall wanted depth, follow depth road rules wanted t s = (t, Finished).
Proof.
  exists (Trajectory [at_place 0; at_place 10] None true true), (Status 0 10 1 0 0).
  split; [reflexivity|]. intros wanted depth.
  apply (C124_finishes _ _ _ _ _ _ _ _ (at_place 0) (at_place 10)); try reflexivity.
  - split; reflexivity.
  - vm_compute. discriminate.
  - vm_compute. discriminate.
  - intros d D. discriminate.
Qed.

(** ** C125: times *)

Lemma update_moved {P H} (w : world P H) p t s v s' :
  update w p t s v = Moved s' ->
  exists x y rest, vertices t = x :: y :: rest /\ late p (base t) (time s) (y :: rest) = false /\
    s' = Status (Qred (time s + dt p)) (displaced w p s v)
           (course w (position x) (position y) (heading s))
           (Qred (Qabs (snd v))) (Qred ((Qabs (snd v) - speed s) / dt p)).
Proof.
  unfold update. destruct (vertices t) as [|x [|y rest]]; try discriminate.
  destruct (late _ _ _ _) eqn:L; [discriminate|]. intros E. exists x, y, rest.
  split; [reflexivity|]. split; [exact L|]. congruence.
Qed.

Lemma ending_moved {P H} (w : world P H) p wanted t s s' :
  ending w p wanted t s (Moved s') -> exists v, update w p t s v = Moved s'.
Proof.
  intros E. remember (Moved s') as r eqn:R.
  destruct E as [x y V|x y rest v V NE D C| | | |]; try discriminate.
  - unfold handle_final in *. cbv zeta in *. destruct (still s && _).
    + destruct (remaining _ _ _) as [q|]; [|discriminate].
      destruct (definitely_less _ _); [discriminate | eauto].
    + destruct (still s && _); [discriminate|]. destruct (le _ _); [eauto|].
      destruct (desired_velocity _ _ _ _ _ _ _); [eauto | discriminate].
  - eauto.
Qed.

Lemma first_from_timed {P} (l : list (vertex P)) u :
  first_timed l u -> exists after, from_timed l = u :: after.
Proof.
  intros (b & a & -> & N & U). induction b as [|x b IH]; simpl.
  - destruct (arrival u); [eauto | congruence].
  - rewrite (N x) by (left; reflexivity). apply IH. intros y I. apply N. right. exact I.
Qed.

(** An entity that moves is not more than a frame late for the next timed waypoint, and if that is
    its next but not its last waypoint, it is not due in this frame. *)
Theorem C125_moved :
  forall P H (w : world P H) p wanted depth t s t' s',
  0 < dt p -> follow depth w p wanted t s = (t', Moved s') ->
  (forall u d, first_timed (tl (vertices t')) u -> due (base t') u = Some d -> time s - dt p <= d) /\
  (4 * epsilon <= dt p -> forall previous target rest d,
   vertices t' = previous :: target :: rest -> rest <> [] -> due (base t') target = Some d ->
   dt p / 2 * (1 - epsilon) <= d - time s).
Proof.
  intros P H w p wanted depth t s t' s' DT F. apply follow_refines in F.
  pose proof (half (dt p)) as HALF.
  destruct F as (passed & _ & E). split.
  - intros u d FT D. apply ending_moved in E. destruct E as (v & U). apply update_moved in U.
    destruct U as (x & y & rest & V & L & _). rewrite V in FT. cbn [tl] in FT.
    apply first_from_timed in FT. destruct FT as (after & FT).
    unfold late, remaining_timed in L. rewrite FT in L.
    pose proof (remaining_due (base t') (time s) u) as R. rewrite D in R.
    destruct R as (r & R & RR). rewrite R in L. deciding.
    destruct RR as [RR | [RR ->]]; [lra|]. lra.
  - intros EPS x y rest d V NE D. remember (Moved s') as r eqn:R.
    destruct E as [a b V'|a b rest' v V' _ _ C | | | | ]; try discriminate.
    + rewrite V' in V. injection V as _ _ <-. congruence.
    + rewrite V' in V. injection V as _ -> _.
      pose proof (remaining_due (base t') (time s) y) as M. rewrite D in M.
      destruct M as (q & M & RR). destruct C as [(C & _) | (q' & C & L)]; [congruence|].
      assert (q' = q) by congruence. subst q'. apply not_definitely_less in L; [|lra].
      destruct RR as [RR | [RR ->]]; [lra|]. exfalso.
      unfold epsilon in *. lra.
Qed.

(** So the first timed waypoint ahead is passed, or the trajectory finished, at a frame that lies
    not more than two frames after and less than half a frame before its time. *)
Theorem C125_window :
  forall P H (w : world P H) p wanted depth t s t1 s1 u d,
  0 < dt p -> follow depth w p wanted t s = (t1, Moved s1) ->
  first_timed (tl (vertices t1)) u -> due (base t1) u = Some d ->
  time s1 - 2 * dt p <= d /\
  forall s2 wanted' depth', same_motion s1 s2 ->
    (forall passed t2 previous rest,
       vertices t1 = previous :: u :: rest ->
       passing w p wanted' s2 t1 (u :: passed) t2 -> d - time s2 < dt p / 2) /\
    (forall previous, vertices t1 = [previous; u] ->
       follow depth' w p wanted' t1 s2 = (t1, Finished) -> d - time s2 < dt p / 2).
Proof.
  intros P H w p wanted depth t s t1 s1 u d DT F FT D. split.
  - pose proof (C125_moved _ _ _ _ _ _ _ _ _ _ DT F) as [M _]. specialize (M u d FT D).
    apply follow_refines in F. destruct F as (passed & _ & E). apply ending_moved in E.
    destruct E as (v & U). apply update_moved in U. destruct U as (x & y & rest & _ & _ & ->).
    cbn [time]. rewrite Qred_correct. lra.
  - intros s2 wanted' depth' SM. split.
    + intros passed t2 x rest V Q. inversion Q as [|? a b rest' ? ? V' _ [_ R] _]; subst.
      apply R. exact D.
    + intros x V G. apply C124_finished in G. destruct G as (a & b & V' & _ & _ & G).
      rewrite V in V'. injection V' as <- <-. apply G, D.
Qed.

(** With absolute times that do not decrease along an open trajectory, this holds of every timed
    waypoint. *)
Theorem C125_absolute :
  forall P H (w : world P H) p wanted depth t s t1 s1 s2 wanted' passed t2 u d,
  0 < dt p -> closed t = false -> base t = None ->
  (forall before a middle b after x y, vertices t = before ++ a :: middle ++ b :: after ->
     arrival a = Some x -> arrival b = Some y -> x <= y) ->
  follow depth w p wanted t s = (t1, Moved s1) -> same_motion s1 s2 ->
  passing w p wanted' s2 t1 passed t2 -> In u passed -> arrival u = Some d ->
  d - dt p / 2 < time s2 /\ time s2 <= d + 2 * dt p.
Proof.
  intros P H w p wanted depth t s t1 s1 s2 wanted' passed t2 u d DT C B SORT F SM Q I A.
  pose proof F as F'. apply follow_refines in F'. destruct F' as (passed1 & Q1 & _).
  pose proof (passing_bases _ _ _ _ _ _ _ Q1 B) as B1.
  assert (C1 : closed t1 = false) by (rewrite (passing_closed _ _ _ _ _ _ _ Q1); exact C).
  pose proof (passing_open _ _ _ _ _ _ _ Q1 C) as O1.
  pose proof (passing_open _ _ _ _ _ _ _ Q C1) as O2.
  split.
  - clear - Q I A B1. induction Q as [|t x y rest passed t' V N [_ R] Q IH]; [destruct I|].
    destruct I as [-> | I].
    + assert (D : due (base t) u = Some d) by (unfold due; rewrite A, B1; reflexivity).
      specialize (R d D). lra.
    + apply IH; [exact I|]. unfold beyond. cbn [base]. rewrite B1. reflexivity.
  - assert (IU : In u (tl (vertices t1))) by (rewrite O2; apply in_or_app; left; exact I).
    destruct (from_timed_split (tl (vertices t1))) as [[_ X] | (b & v & af & E & _ & N & NV)].
    + rewrite (X u IU) in A. discriminate.
    + destruct (arrival v) as [dv|] eqn:AV; [|congruence].
      assert (FT : first_timed (tl (vertices t1)) v)
        by (exists b, af; repeat split; [exact E | exact N | congruence]).
      assert (DV : due (base t1) v = Some dv) by (unfold due; rewrite AV, B1; reflexivity).
      destruct (C125_window _ _ _ _ _ _ _ _ _ _ _ _ DT F FT DV) as [W _].
      destruct SM as (T & _). rewrite T in W.
      assert (LE : dv <= d); [|lra].
      rewrite E in IU. apply in_app_or in IU. destruct IU as [IU | [<- | IU]].
      * rewrite (N u IU) in A. discriminate.
      * rewrite A in AV. injection AV as ->. apply Qle_refl.
      * apply in_split in IU. destruct IU as (m & af' & ->).
        assert (VV : exists h, vertices t = h :: passed1 ++ b ++ v :: m ++ u :: af').
        { rewrite E in O1. destruct (vertices t) as [|h l].
          - simpl in O1. symmetry in O1. apply app_eq_nil in O1. destruct O1 as [_ O1].
            destruct b; discriminate.
          - exists h. simpl in O1. rewrite O1. reflexivity. }
        destruct VV as (h & VV).
        apply (SORT (h :: passed1 ++ b) v m u af' dv d); [|exact AV|exact A].
        rewrite VV. simpl. rewrite <- app_assoc. reflexivity.
Qed.

(** Failures about times are real: more than a frame late, or due but out of reach. *)
Theorem C125_failures :
  forall P H (w : world P H) p wanted depth t s t' f,
  follow depth w p wanted t s = (t', Failed f) ->
  (f = LateArrival -> exists u d, first_timed (tl (vertices t')) u /\
     due (base t') u = Some d /\ d < time s - dt p) /\
  (f = TooFar -> exists previous target rest d, vertices t' = previous :: target :: rest /\
     rest <> [] /\ due (base t') target = Some d /\ d - time s < dt p / 2 /\
     local_epsilon <= gap w (place s) (position target) /\
     exists v, new_speed w p wanted t' s (target :: rest) v /\
       (Qabs (speed s) + Qabs v) / 2 * dt p < gap w (place s) (position target)).
Proof.
  intros P H w p wanted depth t s t' f F. apply follow_refines in F.
  destruct F as (passed & _ & E).
  assert (UP : forall v, update w p t' s v = Failed LateArrival ->
    exists u d, first_timed (tl (vertices t')) u /\ due (base t') u = Some d /\ d < time s - dt p).
  { intros v U. unfold update in U. destruct (vertices t') as [|x [|y rest]]; try discriminate.
    destruct (late _ _ _ _) eqn:L in U; [|discriminate]. cbn [tl].
    unfold late, remaining_timed in L.
    destruct (from_timed_split (y :: rest)) as [[X _] | (b & u & a & EE & X & N & NU)];
      rewrite X in L; [discriminate|].
    pose proof (remaining_due (base t') (time s) u) as R.
    destruct (due (base t') u) as [d|] eqn:D; [|apply due_none in D; congruence].
    destruct R as (r & R & RR). rewrite R in L. deciding.
    exists u, d. split; [exists b, a; auto|]. split; [exact D|].
    destruct RR as [RR | [RR ->]]; [lra|]. pose proof epsilon_positive. lra. }
  assert (DV : forall y rest e, desired_velocity w p wanted t' s y rest = inr e ->
    e <> LateArrival /\ e <> TooFar).
  { intros y rest e. unfold desired_velocity. destruct (negb _).
    - intros X. injection X as <-. split; discriminate.
    - cbv zeta. destruct (accelerate _ _ _ _ _ _ _); intros X; try discriminate;
        injection X as <-; split; discriminate. }
  assert (UF : forall v, update w p t' s v <> Failed TooFar).
  { intros v. unfold update. destruct (vertices t') as [|x [|y rest]]; try discriminate.
    destruct (late _ _ _ _); discriminate. }
  remember (Failed f) as r eqn:R. split; intros ->.
  - destruct E as [x y V|x y rest v V NE D C|x y rest v q V NE D|x y rest e V NE D| |]; try discriminate.
    + unfold handle_final in R. cbv zeta in R. destruct (still s && _) in R.
      * destruct (remaining _ _ _); [|discriminate].
        destruct (definitely_less _ _); [discriminate | eauto].
      * destruct (still s && _) in R; [discriminate|]. destruct (le _ _); [eauto|].
        destruct (desired_velocity _ _ _ _ _ _ _) eqn:D; [eauto|].
        injection R as ->. apply DV in D. destruct D. congruence.
    + eauto.
    + injection R as ->. apply DV in D. destruct D. congruence.
  - destruct E as [x y V|x y rest v V NE D C|x y rest v q V NE D M L S1 S2|x y rest e V NE D| |];
      try discriminate.
    + exfalso. unfold handle_final in R. cbv zeta in R. destruct (still s && _) in R.
      * destruct (remaining _ _ _); [|discriminate].
        destruct (definitely_less _ _); [discriminate | exact (UF _ R)].
      * destruct (still s && _) in R; [discriminate|]. destruct (le _ _); [exact (UF _ R)|].
        destruct (desired_velocity _ _ _ _ _ _ _) eqn:D; [exact (UF _ R)|].
        injection R as ->. apply DV in D. destruct D. congruence.
    + exfalso. exact (UF _ R).
    + pose proof (remaining_due (base t') (time s) y) as RD.
      destruct (due (base t') y) as [d|] eqn:DD; [|congruence].
      destruct RD as (r & RD & RR). assert (r = q) by congruence. subst r.
      apply definitely_less_lt in L.
      exists x, y, rest, d. split; [exact V|]. split; [exact NE|]. split; [exact DD|].
      split. { pose proof epsilon_positive. destruct RR as [RR | [RR ->]]; lra. }
      split; [exact S2|]. exists (snd v). split; [apply (desired_new_speed _ _ _ _ _ _ _ _ D)|].
      unfold step_length in S1.
      setoid_replace ((Qabs (speed s) + Qabs (snd v)) / 2 * dt p)
        with ((Qabs (speed s) + Qabs (snd v)) * (1 # 2) * dt p) by field. exact S1.
    + exfalso. injection R as ->. apply DV in D. destruct D. congruence.
Qed.

(** At 10 m/s, a waypoint at 0.2 m that is due is passed; one at 3 m is out of reach; one that was
    due a tenth of a second ago is too late. *)
Example C125_example :
  let t x := Trajectory [at_place 0; timed x 0; at_place 100] None false true in
  (exists s', follow 3 road rules None (t (1 # 5)) (Status 0 0 1 10 0)
     = (Trajectory [timed (1 # 5) 0; at_place 100] None false true, Moved s')) /\
  follow 3 road rules None (t 3) (Status 0 0 1 10 0) = (t 3, Failed TooFar).
Proof.
  cbv zeta. split.
  - eexists. vm_compute. reflexivity.
  - vm_compute. reflexivity.
Qed.

Print Assumptions C123_frame.
Print Assumptions C123_open.
Print Assumptions C123_closed.
Print Assumptions C124_finished.
Print Assumptions C124_finishes.
Print Assumptions C124_closed.
Print Assumptions C124_closed_two_refuted.
Print Assumptions C125_moved.
Print Assumptions C125_window.
Print Assumptions C125_absolute.
Print Assumptions C125_failures.
