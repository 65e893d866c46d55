(** * Following a polyline trajectory: recursion, laps, motion, the last metres, the action *)

From Coq Require Import List Bool ZArith QArith Qabs Qround Qminmax Lqa Lia.
From Verif Require Import M_FollowControl S_FollowControl P_FollowControl P_FollowControl2
  T_FollowControl M_FollowTrajectory S_FollowTrajectory P_FollowTrajectory P_FollowTrajectory2
  T_FollowTrajectory.
Import ListNotations.
Open Scope Q_scope.

(** ** C126: every frame ends; laps *)

(** The recursion over passed waypoints ends: on an open trajectory it is not deeper than the
    number of vertices. *)
Theorem C126_open_ends :
  forall P H (w : world P H) p wanted depth t s,
  closed t = false -> (length (vertices t) <= depth + 2)%nat ->
  snd (follow depth w p wanted t s) <> Failed Endless.
Proof. intros P H w p wanted depth t s. apply follow_not_endless. Qed.

(** On a closed one whose waypoints all lie where the entity stands it does not end. *)
Theorem C126_endless_refuted :
  exists t s, closed t = true /\ length (vertices t) = 3%nat /\
    forall depth, snd (follow depth road rules None t s) = Failed Endless.
Proof.
  exists (Trajectory [at_place 0; at_place 0; at_place 0] None true true), (Status 0 0 1 0 0).
  split; [reflexivity|]. split; [reflexivity|].
  set (t := Trajectory _ _ _ _). set (s := Status _ _ _ _ _).
  assert (D : exists v, desired_velocity road rules None t s (at_place 0) [at_place 0] = inl v /\
            le 0 (step_length rules s v) = true).
  { eexists. split; [vm_compute; reflexivity|]. vm_compute. reflexivity. }
  destruct D as (v & D & L).
  assert (G : gap road (place s) (position (at_place 0)) = 0) by reflexivity.
  induction depth as [|depth IH].
  - cbn [follow]. change (vertices t) with [at_place 0; at_place 0; at_place 0].
    cbv beta iota. rewrite D. cbv zeta. rewrite G, L. reflexivity.
  - cbn [follow]. change (vertices t) with [at_place 0; at_place 0; at_place 0].
    cbv beta iota. rewrite D. cbv zeta. rewrite G, L. exact IH.
Qed.

(** Absolute times allow one lap only: once all times are more than a frame past, an entity moves
    only while no timed waypoint is ahead of it. *)
Theorem C126_one_lap :
  forall P H (w : world P H) p wanted depth t s t' s',
  0 < dt p -> closed t = true -> base t = None ->
  (forall v d, In v (vertices t) -> arrival v = Some d -> d < time s - dt p) ->
  follow depth w p wanted t s = (t', Moved s') ->
  forall u, In u (tl (vertices t')) -> arrival u = None.
Proof.
  intros P H w p wanted depth t s t' s' DT C B LATE F u I.
  destruct (from_timed_split (tl (vertices t'))) as [[_ X] | (b & v & af & E & _ & N & NV)];
    [exact (X u I)|].
  exfalso. destruct (arrival v) as [d|] eqn:A; [|congruence].
  pose proof (C125_moved _ _ _ _ _ _ _ _ _ _ DT F) as [M _].
  apply follow_refines in F. destruct F as (passed & Q & _).
  assert (D : due (base t') v = Some d)
    by (unfold due; rewrite A, (passing_bases _ _ _ _ _ _ _ Q B); reflexivity).
  assert (FT : first_timed (tl (vertices t')) v)
    by (exists b, af; repeat split; [exact E | exact N | congruence]).
  specialize (M v d FT D).
  assert (IV : In v (vertices t)).
  { assert (IV' : In v (vertices t')).
    { destruct (vertices t') as [|h l]; [destruct b; discriminate|]. right. simpl in E.
      rewrite E. apply in_or_app. right. left. reflexivity. }
    destruct (passing_cyclic _ _ _ _ _ _ _ Q C) as (L & _ & K).
    apply In_nth_error in IV'. destruct IV' as (k & IV').
    assert (KL : (k < length (vertices t'))%nat) by (apply nth_error_Some; congruence).
    specialize (K k). unfold cyclic in K. rewrite (Nat.mod_small k) in K by exact KL.
    rewrite IV' in K. symmetry in K. apply nth_error_In in K. exact K. }
  specialize (LATE v d IV A). lra.
Qed.

(** A loop with a timed waypoint that is past: the entity moves on while that is behind it, and fails
    when it comes ahead. *)
Example C126_example :
  let t := Trajectory [timed 0 1; at_place 10; at_place 20] None true true in
  (exists s', follow 3 road rules None t (Status 9 5 1 10 0) = (t, Moved s')) /\
  (exists t' f, follow 3 road rules None t (Status 9 10 1 10 0) = (t', Failed f)).
Proof.
  cbv zeta. split; [eexists; vm_compute; reflexivity|]. eexists. eexists. vm_compute. reflexivity.
Qed.

(** ** C127: motion *)

(** A frame takes the entity on by the step time.  The reported acceleration is the change of the
    reported speed, which is not negative.  The distance covered is that of the mean of the old
    and the new speed. *)
Theorem C127_motion :
  forall P H (w : world P H) p wanted depth t s t' s',
  0 < dt p -> follow depth w p wanted t s = (t', Moved s') ->
  time s' == time s + dt p /\
  0 <= speed s' /\
  speed s' - speed s == acceleration s' * dt p /\
  exists direction length v,
    place s' = shifted w s direction length v /\
    Qabs length == (Qabs (speed s) + speed s') / 2 * dt p /\ speed s' == Qabs v.
Proof.
  intros P H w p wanted depth t s t' s' DT F. apply follow_refines in F.
  destruct F as (passed & _ & E). apply ending_moved in E. destruct E as (v & U).
  apply update_moved in U. destruct U as (x & y & rest & V & _ & ->).
  cbn [time speed acceleration place].
  split; [apply Qred_correct|].
  split; [rewrite Qred_correct; apply Qabs_nonneg|].
  split. { rewrite !Qred_correct. field. lra. }
  assert (SL : 0 <= step_length p s v).
  { unfold step_length. apply Qmult_le_0_compat; [|lra]. apply Qmult_le_0_compat; [|lra].
    pose proof (Qabs_nonneg (speed s)). pose proof (Qabs_nonneg (snd v)). lra. }
  assert (EQ : Qabs (step_length p s v)
               == (Qabs (speed s) + Qred (Qabs (snd v))) / 2 * dt p).
  { rewrite (Qabs_pos (step_length p s v)) by exact SL. rewrite Qred_correct.
    unfold step_length. field. }
  unfold displaced. destruct (lt epsilon _).
  - destruct (le 0 (snd v)).
    + exists (fst v), (step_length p s v), (snd v). split; [reflexivity|].
      split; [exact EQ | apply Qred_correct].
    + exists (fst v), (- step_length p s v), (snd v). split; [reflexivity|].
      split; [rewrite Qabs_opp; exact EQ | apply Qred_correct].
  - exists (heading s), (step_length p s v), (snd v). split; [reflexivity|].
    split; [exact EQ | apply Qred_correct].
Qed.

(** The entity may be moved away from its waypoint, and backwards, while its reported speed is
    positive: told to stop, it reverses (see C119). *)
Theorem C127_backwards_refuted :
  exists t s t' s',
    follow 0 road rules (Some 0) t s = (t', Moved s') /\
    heading s == 1 /\ 0 < speed s /\ place s < position (nth 1 (vertices t') (at_place 0)) /\
    place s' < place s /\ 0 < speed s'.
Proof.
  exists (Trajectory [at_place 0; at_place 100] None false true), (Status 0 0 1 (9 # 100) (-13 # 5)).
  eexists. eexists. split; [vm_compute; reflexivity|]. repeat split; reflexivity.
Qed.

(** ** C128: the last metres *)

(** Within 10 cm of the last waypoint the entity brakes: it never reverses nor exceeds the limit of
    deceleration, and in each frame it becomes slower by the lesser of jerk limit * step^2 and
    deceleration limit * step, or stands. *)
Theorem C128_braking :
  forall P H (w : world P H) p wanted depth t s t' r previous target,
  0 < dt p -> 0 < max_deceleration (dyn p) -> 0 < max_deceleration_rate (dyn p) ->
  vertices t = [previous; target] -> gap w (place s) (position target) <= 1 # 10 ->
  0 <= speed s -> follow depth w p wanted t s = (t', r) ->
  r = Finished \/ r = Failed LateArrival \/
  exists s', r = Moved s' /\ 0 <= speed s' /\
    (speed s' == 0 \/
     speed s' <= speed s - Qmin (max_deceleration_rate (dyn p) * (dt p * dt p))
                             (max_deceleration (dyn p) * dt p)) /\
    (at_rest s \/ speed s - max_deceleration (dyn p) * dt p <= speed s').
Proof.
  intros P H w p wanted depth t s t' r x y DT A J V G S F.
  assert (HF : r = handle_final w p wanted t s x y).
  { destruct depth; cbn [follow] in F; rewrite V in F; congruence. }
  clear F. subst r.
  assert (UP : forall v, update w p t s v = Failed LateArrival \/
    exists s', update w p t s v = Moved s' /\ speed s' == Qabs (snd v)).
  { intros v. unfold update. rewrite V. destruct (late _ _ _ _); [left; reflexivity|].
    right. eexists. split; [reflexivity|]. cbn [speed]. apply Qred_correct. }
  assert (N : le (gap w (place s) (position y)) remaining_distance_tolerance = true)
    by (apply le_iff; exact G).
  unfold handle_final. cbv zeta. rewrite N.
  destruct (still s) eqn:ST; cbn [andb].
  - unfold still in ST. deciding.
    destruct (remaining _ _ _) as [q|]; [|left; reflexivity].
    destruct (definitely_less _ _); [left; reflexivity|].
    destruct (UP (heading s, 0)) as [-> | (s' & -> & E)]; [right; left; reflexivity|].
    right. right. exists s'. split; [reflexivity|]. cbn [snd] in E. rewrite (Qabs_pos 0) in E by lra.
    split; [lra|]. split; [left; exact E | left; split; assumption].
  - destruct (UP (heading s, brake_speed p (speed s))) as [-> | (s' & -> & E)];
      [right; left; reflexivity|].
    right. right. exists s'. split; [reflexivity|].
    destruct (brake_speed_facts p (speed s) DT A J S) as (B1 & B2 & B3).
    cbn [snd] in E. rewrite Qabs_pos in E by exact B1.
    split; [lra|]. split; [destruct B3; [left | right]; lra | right; lra].
Qed.

(** So it comes to rest: as long as it stays near, its speed is gone after [speed / loss] frames, the
    acceleration one frame later. *)
Theorem C128_stops :
  forall P H (w : world P H) p t previous target n s s',
  let loss := Qmin (max_deceleration_rate (dyn p) * (dt p * dt p))
                (max_deceleration (dyn p) * dt p) in
  0 < dt p -> 0 < max_deceleration (dyn p) -> 0 < max_deceleration_rate (dyn p) ->
  vertices t = [previous; target] -> 0 <= speed s -> speed s <= qn n * loss ->
  near_end w p t target (S n) s s' ->
  speed s' == 0 /\ acceleration s' == 0.
Proof.
  intros P H w p t x y n s s' loss DT A J V S0 SL NE.
  assert (LP : 0 < loss).
  { apply Q.min_glb_lt; repeat apply Qmult_lt_0_compat; assumption. }
  assert (G : forall m s s1, near_end w p t y m s s1 -> 0 <= speed s ->
    0 <= speed s1 /\ (speed s1 == 0 \/ speed s1 <= speed s - qn m * loss)).
  { clear s s' S0 SL NE. intros m s s1 E.
    induction E as [s|m s s1 depth wanted s2 s2' E IH NR F SM]; intros S0.
    - split; [exact S0|]. right. change (qn 0) with 0. lra.
    - destruct (IH S0) as [P1 P2].
      destruct (C128_braking _ _ _ _ _ _ _ _ _ _ x y DT A J V NR P1 F)
        as [X | [X | (s3 & X & Q1 & Q2 & _)]]; try discriminate.
      injection X as <-. destruct SM as (_ & SP & _). rewrite <- SP.
      split; [exact Q1|]. fold loss in Q2. destruct Q2 as [Q2 | Q2]; [left; exact Q2|].
      destruct P2 as [P2 | P2].
      + left. lra.
      + right. rewrite qn_succ. lra. }
  inversion NE as [|m s0 s1 depth wanted s2 s2' E NR F SM]. subst.
  destruct (G _ _ _ E S0) as [P1 P2].
  assert (Z1 : speed s1 == 0) by (destruct P2; lra).
  destruct (G _ _ _ NE S0) as [P3 P4].
  destruct (C128_braking _ _ _ _ _ _ _ _ _ _ x y DT A J V NR P1 F)
    as [X | [X | (s3 & X & Q1 & Q2 & _)]]; try discriminate.
  injection X as <-. fold loss in Q2.
  pose proof (C127_motion _ _ _ _ _ _ _ _ _ _ DT F) as (_ & _ & M & _).
  destruct SM as (_ & SP & AC). rewrite <- SP, <- AC.
  assert (Z2 : speed s2 == 0) by (destruct Q2; lra). split; [exact Z2|].
  assert (AA : acceleration s2 * dt p == 0) by lra.
  apply Qmult_integral in AA. destruct AA as [AA | AA]; [exact AA | lra].
Qed.

(** An entity within 10 cm of a last waypoint without a time has finished after at most one frame
    more than that. *)
Theorem C128_finishes :
  forall P H (w : world P H) p t previous target n m s s',
  let loss := Qmin (max_deceleration_rate (dyn p) * (dt p * dt p))
                (max_deceleration (dyn p) * dt p) in
  4 * epsilon <= dt p -> 0 < max_deceleration (dyn p) -> 0 < max_deceleration_rate (dyn p) ->
  vertices t = [previous; target] -> arrival target = None ->
  0 <= speed s -> speed s <= qn n * loss ->
  near_end w p t target m s s' -> gap w (place s') (position target) <= 1 # 10 ->
  (m <= S n)%nat /\
  (m = S n -> forall depth wanted, follow depth w p wanted t s' = (t, Finished)).
Proof.
  intros P H w p t x y n m s s' loss DT A J V U S0 SL NE G.
  assert (D0 : 0 < dt p) by (unfold epsilon in DT; lra).
  assert (FIN : forall s1, near_end w p t y (S n) s s1 ->
    gap w (place s1) (position y) <= 1 # 10 ->
    forall depth wanted, follow depth w p wanted t s1 = (t, Finished)).
  { intros s1 E N depth wanted.
    destruct (C128_stops _ _ w p t x y n s s1 D0 A J V S0 SL E) as [Z1 Z2].
    apply (C124_finishes _ _ w p wanted depth t s1 x y); try assumption.
    - pose proof epsilon_pos. split; [rewrite Z1 | rewrite Z2]; rewrite Qabs_pos; lra.
    - intros d D. assert (N0 : due (base t) y = None) by (apply due_none; exact U). congruence. }
  split; [|intros ->; apply FIN; assumption].
  assert (CH : forall m s s1, near_end w p t y m s s1 -> (S n < m)%nat ->
    exists s2, near_end w p t y (S n) s s2 /\ gap w (place s2) (position y) <= 1 # 10 /\
      exists depth wanted s3, follow depth w p wanted t s2 = (t, Moved s3)).
  { clear. intros m s s1 E. induction E as [s|m s s1 depth wanted s2 s2' E IH NR F SM]; intros L;
      [lia|].
    destruct (Nat.eq_dec m (S n)) as [-> | NE].
    - exists s1. split; [exact E|]. split; [exact NR|]. exists depth, wanted, s2. exact F.
    - apply IH. lia. }
  destruct (Nat.le_gt_cases m (S n)) as [L | L]; [exact L|]. exfalso.
  destruct (CH _ _ _ NE L) as (s2 & E & N & depth & wanted & s3 & F).
  rewrite (FIN s2 E N) in F. discriminate.
Qed.

(** A car 5 cm before its last waypoint at 1/100 m/s: loss 1/100 m/s per frame, so it is at rest after
    two frames and has finished in the third. *)
Example C128_example :
  let t := Trajectory [at_place 0; at_place 10] None false true in
  let s0 := Status 0 (199 # 20) 1 (1 # 100) 0 in
  let s1 := Status (1 # 20) (39801 # 4000) 1 0 (-1 # 5) in
  let s2 := Status (1 # 10) (39801 # 4000) 1 0 0 in
  near_end road rules t (at_place 10) 2 s0 s2 /\
  follow 0 road rules None t s0 = (t, Moved s1) /\
  follow 0 road rules None t s1 = (t, Moved s2) /\
  follow 0 road rules None t s2 = (t, Finished).
Proof.
  cbv zeta.
  assert (F0 : follow 0 road rules None
    (Trajectory [at_place 0; at_place 10] None false true) (Status 0 (199 # 20) 1 (1 # 100) 0)
    = (Trajectory [at_place 0; at_place 10] None false true,
       Moved (Status (1 # 20) (39801 # 4000) 1 0 (-1 # 5)))) by (vm_compute; reflexivity).
  assert (F1 : follow 0 road rules None
    (Trajectory [at_place 0; at_place 10] None false true)
    (Status (1 # 20) (39801 # 4000) 1 0 (-1 # 5))
    = (Trajectory [at_place 0; at_place 10] None false true,
       Moved (Status (1 # 10) (39801 # 4000) 1 0 0))) by (vm_compute; reflexivity).
  split; [|split; [exact F0|]; split; [exact F1|]; vm_compute; reflexivity].
  eapply near_end_frame; [| | exact F1 | repeat split]; [|vm_compute; discriminate].
  eapply near_end_frame; [| | exact F0 | repeat split]; [|vm_compute; discriminate].
  constructor.
Qed.

(** ** C129: the start *)

(** A written waypoint with time [t] is due at [offset + scale * t], counted from the start if the
    times are relative; one without a time has none.  The entity's own place comes first. *)
Theorem C129_times :
  forall P (g : timing) now is_closed mode (written : list (vertex P)) here,
  let t := start_actor g now is_closed mode written [here] in
  length (vertices t) = S (length written) /\
  nth_error (vertices t) 0 = Some (Vertex here None) /\
  (forall i v, nth_error written i = Some v -> exists u,
     nth_error (vertices t) (S i) = Some u /\ position u = position v /\
     (arrival v = None -> due (base t) u = None) /\
     (forall a, arrival v = Some a -> exists d, due (base t) u = Some d /\
        d == (if relative g then now else 0) + offset g + scale g * a)).
Proof.
  intros P g now is_closed mode written here t.
  unfold t, start_actor. cbn [fold_left prepend repack vertices base].
  split; [cbn [length]; rewrite map_length; reflexivity|]. split; [reflexivity|].
  intros i v I. eexists. cbn [nth_error]. split.
  - apply map_nth_error, I.
  - cbn [position]. split; [reflexivity|]. unfold due. cbn [arrival]. split.
    + intros ->. destruct (relative g); reflexivity.
    + intros a ->. destruct (relative g); eexists; (split; [reflexivity|]); lra.
Qed.

(** Given to an entity selection, one trajectory is shared: it begins with the places of all of
    them, the last one's first. *)
Theorem C129_shared :
  forall P (g : timing) now is_closed mode (written : list (vertex P)) objects,
  map position (vertices (start_actor g now is_closed mode written objects))
  = rev objects ++ map position written.
Proof.
  intros P g now is_closed mode written objects. unfold start_actor.
  assert (X : forall t, map position (vertices (fold_left (fun t here => prepend here t) objects t))
                        = rev objects ++ map position (vertices t)).
  { induction objects as [|o objects IH]; intros t; [reflexivity|]. cbn [fold_left rev].
    rewrite IH. cbn [prepend vertices map position]. rewrite <- app_assoc. reflexivity. }
  rewrite X. unfold repack. cbn [vertices]. rewrite map_map. f_equal.
Qed.

(** So the members of a selection do not each go to the written waypoints: the second of two is
    first sent to the place of the first, and what one passes, the other skips. *)
Theorem C129_selection_refuted :
  exists a b written sa sb t' ra rb,
    let t := start_actor (Timing false 0 1) 0 false true written [a; b] in
    place sa = a /\ place sb = b /\
    nth_error (vertices t) 1 = Some (at_place a) /\
    In (at_place 0) written /\ In (at_place 0) (tl (vertices t)) /\ 100 <= Qabs (b - 0) /\
    follow_together 9 road rules t [(sa, None); (sb, None)] = (t', [Moved ra; Moved rb]) /\
    ~ In (at_place 0) (tl (vertices t')).
Proof.
  exists 0, 300, [at_place 0; at_place 100], (Status 0 0 1 10 0), (Status 0 300 (-1) 10 0).
  eexists. eexists. eexists. cbv zeta.
  split; [reflexivity|]. split; [reflexivity|]. split; [reflexivity|].
  split; [left; reflexivity|]. split; [left; reflexivity|]. split; [vm_compute; discriminate|].
  split; [vm_compute; reflexivity|]. vm_compute. intros [X | []]. discriminate.
Qed.

(** ** C130: when the action is complete *)

Lemma calls_closed {A} (actors : list A) table answers :
  calls true actors table answers = repeat false (length answers).
Proof. revert table. induction answers; intros; [reflexivity|]. cbn. rewrite IHanswers. reflexivity. Qed.

(** The action of a closed trajectory is never complete. *)
Theorem C130_closed :
  forall A (actors : list A) answers r, In r (calls true actors [] answers) -> r = false.
Proof.
  intros A actors answers r I. rewrite calls_closed in I. apply repeat_spec in I. exact I.
Qed.

Lemma calls_true {A} (actors : list A) table answers k (seen : A -> Prop) :
  table <> [] -> (forall a, In (a, true) table -> seen a) ->
  nth_error (calls false actors table answers) k = Some true ->
  forall a, In a (map fst table) -> seen a \/
    exists j running, (j <= k)%nat /\ nth_error answers j = Some running /\ running a = false.
Proof.
  revert table k seen. induction answers as [|running answers IH]; intros table k seen NE SEEN R a I.
  - destruct k; discriminate.
  - cbn [calls] in R. unfold accomplished in R. destruct table as [|x l] eqn:T; [congruence|].
    rewrite <- T in *. clear x l T.
    destruct (all_finished running table) as [table' r] eqn:AF.
    pose proof (all_finished_true running table) as TT.
    pose proof (all_finished_map running table) as MM.
    pose proof (fun a => all_finished_marks running table a) as KK. rewrite AF in *.
    cbn [fst snd] in *. destruct k as [|k].
    + injection R as ->. apply in_map_iff in I. destruct I as ([a' b] & EQ & I).
      cbn [fst] in EQ. subst a'. destruct (proj1 TT eq_refl a b I) as [-> | X].
      * left. apply SEEN, I.
      * right. exists O, running. repeat split; [lia | exact X].
    + cbn [nth_error] in R. rewrite <- MM in I.
      assert (NE' : table' <> []) by (intros ->; destruct I).
      destruct (IH table' k (fun a => seen a \/ running a = false) NE') with (a := a)
        as [[X | X] | (j & rn & L & J & X)]; try assumption.
      * intros x IX. destruct (KK x IX) as [Y | Y]; [left; apply SEEN, Y | right; exact Y].
      * left. exact X.
      * right. exists O, running. repeat split; [lia | exact X].
      * right. exists (S j), rn. repeat split; [lia | exact J | exact X].
Qed.

(** That of an open one is not complete at the first call; it is complete only when each actor has
    been seen to have ended at some later call. *)
Theorem C130_complete :
  forall A (actors : list A) answers k,
  nth_error (calls false actors [] answers) k = Some true ->
  (1 <= k)%nat /\
  forall a, In a actors -> exists j running,
    (1 <= j <= k)%nat /\ nth_error answers j = Some running /\ running a = false.
Proof.
  intros A actors [|running answers] k R; [destruct k; discriminate|].
  cbn [calls accomplished] in R. destruct k as [|k]; [discriminate|]. cbn [nth_error] in R.
  split; [lia|]. intros a I.
  assert (NE : map (fun a : A => (a, false)) actors <> []) by (destruct actors; [destruct I | discriminate]).
  destruct (calls_true actors _ answers k (fun _ => False) NE) with (a := a)
    as [[] | (j & rn & L & J & X)].
  - intros x IX. apply in_map_iff in IX. destruct IX as (y & EQ & _). discriminate.
  - exact R.
  - rewrite map_map. cbn [fst]. rewrite map_id. exact I.
  - exists (S j), rn. repeat split; [lia | lia | exact J | exact X].
Qed.

Lemma calls_all {A} (actors : list A) table answers k running :
  table <> [] -> nth_error answers k = Some running ->
  (forall a, In a (map fst table) -> running a = false) ->
  nth_error (calls false actors table answers) k = Some true.
Proof.
  revert table k. induction answers as [|rn answers IH]; intros table k NE R ALL;
    [destruct k; discriminate|].
  cbn [calls]. unfold accomplished. destruct table as [|x table]; [congruence|].
  pose proof (all_finished_true rn (x :: table)) as TT.
  pose proof (all_finished_map rn (x :: table)) as MM.
  destruct (all_finished rn (x :: table)) as [table' r]. cbn [fst snd] in *.
  destruct k as [|k]; cbn [nth_error] in *.
  - injection R as ->. f_equal. apply TT. intros a b I. right. apply ALL.
    apply in_map_iff. exists (a, b). auto.
  - apply IH; [|exact R | rewrite MM; exact ALL]. intros ->. discriminate.
Qed.

(** It is complete at every later call at which no actor is running. *)
Theorem C130_all_ended :
  forall A (actors : list A) answers k running,
  actors <> [] -> (1 <= k)%nat -> nth_error answers k = Some running ->
  (forall a, In a actors -> running a = false) ->
  nth_error (calls false actors [] answers) k = Some true.
Proof.
  intros A actors [|rn answers] k running NE K R ALL; [destruct k; discriminate|].
  destruct k as [|k]; [lia|]. cbn [calls accomplished nth_error] in *.
  apply (calls_all _ _ _ _ running); [|exact R|].
  - destruct actors; [congruence | discriminate].
  - intros a I. rewrite map_map in I. cbn [fst] in I. rewrite map_id in I. apply ALL, I.
Qed.

Lemma calls_done {A} (actors : list A) table answers r :
  table <> [] -> (forall a b, In (a, b) table -> b = true) ->
  In r (calls false actors table answers) -> r = true.
Proof.
  revert table. induction answers as [|rn answers IH]; intros table NE ALL I; [destruct I|].
  cbn [calls] in I. unfold accomplished in I. destruct table as [|x table]; [congruence|].
  pose proof (all_finished_true rn (x :: table)) as TT.
  pose proof (all_finished_map rn (x :: table)) as MM.
  pose proof (all_finished_done rn (x :: table)) as DD.
  destruct (all_finished rn (x :: table)) as [table' r']. cbn [fst snd] in *.
  assert (R : r' = true) by (apply TT; intros a b J; left; exact (ALL a b J)).
  destruct I as [<- | I]; [exact R|].
  apply (IH table'); [intros ->; discriminate | exact (DD R) | exact I].
Qed.

(** Once complete, it stays complete. *)
Theorem C130_stays :
  forall A (actors : list A) answers j k r,
  nth_error (calls false actors [] answers) j = Some true -> (j <= k)%nat ->
  nth_error (calls false actors [] answers) k = Some r -> r = true.
Proof.
  intros A actors answers j k r J L K.
  assert (G : forall answers table j k, table <> [] ->
    nth_error (calls false actors table answers) j = Some true -> (j <= k)%nat ->
    nth_error (calls false actors table answers) k = Some r -> r = true).
  { clear. induction answers as [|rn answers IH]; intros table j k NE J L K;
      [destruct j; discriminate|].
    cbn [calls] in J, K. unfold accomplished in J, K. destruct table as [|x table]; [congruence|].
    pose proof (all_finished_map rn (x :: table)) as MM.
    pose proof (all_finished_done rn (x :: table)) as DD.
    destruct (all_finished rn (x :: table)) as [table' r']. cbn [fst snd] in *.
    assert (NE' : table' <> []) by (intros ->; discriminate).
    destruct j as [|j].
    - injection J as ->. destruct k as [|k]; cbn [nth_error] in K; [congruence|].
      apply nth_error_In in K. exact (calls_done actors table' answers r NE' (DD eq_refl) K).
    - destruct k as [|k]; [lia|]. cbn [nth_error] in *. apply (IH table' j k); try assumption. lia. }
  destruct answers as [|rn answers]; [destruct j; discriminate|].
  cbn [calls accomplished] in J, K. destruct j as [|j]; [discriminate|].
  destruct k as [|k]; [lia|]. cbn [nth_error] in *.
  destruct actors as [|a actors].
  - exfalso. clear - J. cbn [map] in J. revert j J.
    induction answers as [|x answers IH]; intros [|j] J; cbn [calls accomplished nth_error map] in J;
      try discriminate. exact (IH j J).
  - apply (G answers (map (fun a => (a, false)) (a :: actors)) j k); try assumption; [discriminate|lia].
Qed.

(** An actor that ended is forgotten if it runs again while one before it in the table still runs: at no
    call are both recorded, though each has been seen to have ended. *)
Theorem C130_forgotten_refuted :
  exists answers : list (bool -> bool),
    (forall a, exists j running, (1 <= j)%nat /\ nth_error answers j = Some running /\
       running a = false) /\
    forall r, In r (calls false [false; true] [] answers) -> r = false.
Proof.
  exists [(fun _ => true); (fun a => negb a); (fun a => a)]. split.
  - intros [|].
    + exists 1%nat, (fun a => negb a). repeat split. lia.
    + exists 2%nat, (fun a => a). repeat split. lia.
  - intros r I. vm_compute in I. intuition.
Qed.

(** An action without actors is never complete; nor does an actor without objects ever end; and
    a selection counts as ended as soon as one of its members has ended. *)
Theorem C130_no_actor_refuted :
  forall A answers r, In r (calls false (@nil A) [] answers) -> r = false.
Proof.
  intros A answers. induction answers as [|x answers IH]; intros r I; [destruct I|].
  cbn in I. destruct I as [<- | I]; [reflexivity | exact (IH r I)].
Qed.

Theorem C130_selection_refuted :
  is_running [] = true /\
  (forall objects, objects <> [] -> (is_running objects = false <-> In false objects)) /\
  is_running [true; false] = false.
Proof.
  split; [reflexivity|]. split; [|reflexivity]. intros objects NE.
  unfold is_running. destruct objects as [|o objects]; [congruence|].
  set (l := o :: objects). clearbody l. clear. induction l as [|[|] l IH]; cbn [forallb In].
  - split; [discriminate | intros []].
  - cbn [andb]. rewrite IH. split; [right; assumption | intros [X | X]; [discriminate | exact X]].
  - split; [left; reflexivity | reflexivity].
Qed.

Example C130_example :
  calls false [0%nat; 1%nat] [] [(fun _ => false); (fun _ => true); Nat.eqb 1; Nat.eqb 1; (fun _ => false);
                      (fun _ => true)]
  = [false; false; false; false; true; true].
Proof. reflexivity. Qed.

Print Assumptions C126_open_ends.
Print Assumptions C126_endless_refuted.
Print Assumptions C126_one_lap.
Print Assumptions C127_motion.
Print Assumptions C127_backwards_refuted.
Print Assumptions C128_braking.
Print Assumptions C128_stops.
Print Assumptions C128_finishes.
Print Assumptions C129_times.
Print Assumptions C129_shared.
Print Assumptions C129_selection_refuted.
Print Assumptions C130_closed.
Print Assumptions C130_complete.
Print Assumptions C130_all_ended.
Print Assumptions C130_stays.
Print Assumptions C130_forgotten_refuted.
Print Assumptions C130_no_actor_refuted.
Print Assumptions C130_selection_refuted.
