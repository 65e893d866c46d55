(** * Predictions of the controller and the last frames before a waypoint *)

From Coq Require Import List Bool ZArith QArith Qabs Qround Qminmax Lqa Lia.
From Verif Require Import M_FollowControl S_FollowControl S_FollowPredict P_FollowControl
  P_FollowControl2 T_FollowControl.
Import ListNotations.
Open Scope Q_scope.

(** ** C118: the range of accelerations *)

(** The range is given by six limits: of deceleration and acceleration, of jerk, and the ramps to a
    standstill and to the target speed. *)
Theorem C118_range :
  forall c a v lo hi, limits c a v = Value (lo, hi) ->
  let d := dynamics c in
  let dt := step_time c in
  (forall x, x <= hi <->
     x <= max_acceleration d /\ x <= a + max_acceleration_rate d * dt /\
     x <= with_jerk dt v (target c) (max_acceleration_rate d)) /\
  (forall x, lo <= x <->
     - max_deceleration d <= x /\ a - max_deceleration_rate d * dt <= x /\
     with_jerk dt v 0 (max_deceleration_rate d) <= x).
Proof.
  intros c a v lo hi L. cbv zeta. unfold limits in L. cbv zeta in L.
  destruct (lt _ _) in L; [discriminate|]. destruct (_ || _) in L; [discriminate|].
  set (l := Qmax _ _) in L. set (h := Qmin _ _) in L.
  assert (LO : lo = Qred l) by congruence. assert (HI : hi = Qred h) by congruence.
  subst lo hi. clear L. split; intros x; rewrite Qred_correct; unfold l, h.
  - split.
    + intros X. apply Q.min_glb_iff in X. destruct X as [X Y]. apply Q.min_glb_iff in X. tauto.
    + intros (X & Y & Z). repeat apply Q.min_glb; assumption.
  - split.
    + intros X. apply Q.max_lub_iff in X. destruct X as [X Y]. apply Q.max_lub_iff in X. tauto.
    + intros (X & Y & Z). repeat apply Q.max_lub; assumption.
Qed.

(** ** Steps of the predictions *)

Lemma advance_moved c a p : 0 < step_time c -> moved (step_time c) p a (advance c a p).
Proof.
  intros D. unfold moved, advance. cbn [speed_of acceleration_of took travelled].
  rewrite !Qred_correct. repeat split; try reflexivity; field; lra.
Qed.

Lemma clamp_allowed c x a v b : clamp_acceleration c x a v = Value b -> allowed c x a v b.
Proof.
  unfold clamp_acceleration, allowed. cbv zeta. intros H.
  destruct (lt _ 0) eqn:B in H; deciding.
  { left. split; [assumption|]. congruence. }
  destruct (lt (target c) _) eqn:F in H; deciding.
  { right. left. split; [lra|]. split; [assumption|]. congruence. }
  right. right. split; [lra|]. split; [lra|].
  destruct (limits c a v) as [[lo hi]| | | |] eqn:L; cbn [andthen] in H; try discriminate.
  exists lo, hi. split; [reflexivity|]. unfold clamp in H.
  destruct (lt hi lo) eqn:E1 in H; [discriminate|]. deciding. split; [assumption|].
  destruct (lt x lo) eqn:E2 in H; deciding.
  { right. left. split; [assumption | congruence]. }
  destruct (lt hi x) eqn:E3 in H; deciding.
  - right. right. split; [assumption | congruence].
  - left. split; [split; assumption | congruence].
Qed.

Lemma brake_once_braking c p q :
  0 < step_time c -> brake_once c p = Value q ->
  exists b, braking c (acceleration_of p) (speed_of p) b /\ moved (step_time c) p b q.
Proof.
  intros D H. unfold brake_once in H. cbv zeta in H. follow H. apply clamp_allowed in R.
  destruct (Qeq_bool r (acceleration_of p)) eqn:E; cbn [negb] in H.
  - apply Qeq_bool_eq in E. follow H. destruct r0 as [lo hi].
    assert (q = advance c lo p) by congruence. subst q.
    exists lo. split; [|apply advance_moved, D]. right. exists r. split; [exact R|].
    split; [exact E|]. exists hi. assumption.
  - apply Qeq_bool_neq in E. assert (q = advance c r p) by congruence. subst q.
    exists r. split; [|apply advance_moved, D]. left. split; assumption.
Qed.

Lemma immobile_stands p : immobile p = true <-> stands p.
Proof.
  unfold immobile, stands. rewrite andb_true_iff, !lt_iff. reflexivity.
Qed.

Lemma brake_within_drive fuel c distance p q :
  0 < step_time c -> brake_within fuel c distance p = Value (Some q) ->
  drive (braking c) (step_time c) p q /\ stands q.
Proof.
  intros D. revert p. induction fuel as [|fuel IH]; intros p H; cbn [brake_within] in H;
    destruct (immobile p) eqn:I.
  - injection H as <-. split; [constructor | apply immobile_stands, I].
  - destruct (lt _ _) in H; discriminate.
  - injection H as <-. split; [constructor | apply immobile_stands, I].
  - destruct (lt _ _) in H; [discriminate|]. follow H. apply brake_once_braking in R; [|exact D].
    destruct R as (b & B & M). destruct (IH _ H) as [DR ST]. split; [|exact ST].
    eapply drive_on; eassumption.
Qed.

Lemma brake_until_drive fuel c time p q :
  0 < step_time c -> brake_until fuel c time p = Value (Some q) ->
  drive (braking c) (step_time c) p q /\ stands q.
Proof.
  intros D. revert p. induction fuel as [|fuel IH]; intros p H; cbn [brake_until] in H;
    destruct (immobile p) eqn:I.
  - injection H as <-. split; [constructor | apply immobile_stands, I].
  - destruct (le _ _) in H; discriminate.
  - injection H as <-. split; [constructor | apply immobile_stands, I].
  - destruct (le _ _) in H; [discriminate|]. follow H. apply brake_once_braking in R; [|exact D].
    destruct R as (b & B & M). destruct (IH _ H) as [DR ST]. split; [|exact ST].
    eapply drive_on; eassumption.
Qed.

Lemma level_drive fuel c time p q :
  0 < step_time c -> level fuel c time p = Value q ->
  drive (allowed c 0) (step_time c) p q /\ acceleration_of q == 0.
Proof.
  assert (Z0 : forall p, negb (lt 0 (Qabs (acceleration_of p))) = true -> acceleration_of p == 0).
  { intros p0 E. apply negb_true_iff in E. apply lt_false in E.
    pose proof (Qle_Qabs (acceleration_of p0)). pose proof (Qle_Qabs (- acceleration_of p0)) as Y.
    rewrite Qabs_opp in Y. lra. }
  intros D. revert p. induction fuel as [|fuel IH]; intros p H; cbn [level] in H;
    destruct (negb _) eqn:I in H.
  - injection H as <-. split; [constructor | apply Z0, I].
  - destruct (le _ _) in H; discriminate.
  - injection H as <-. split; [constructor | apply Z0, I].
  - destruct (le _ _) in H; [discriminate|]. follow H. apply clamp_allowed in R.
    destruct (IH _ H) as [DR ST]. split; [|exact ST].
    eapply drive_on; [exact R | apply advance_moved, D | exact DR].
Qed.

(** ** C120: the predicted stop *)

(** The prediction for a candidate is what the entity would do: one frame with it, then braking
    until it stands. *)
Theorem C120_prediction :
  forall fuel c a distance acceleration speed q,
  0 < step_time c -> predict_stop fuel c a distance acceleration speed = Value (Some q) ->
  exists p, moved (step_time c) (Predicted 0 0 speed acceleration) a p /\
    drive (braking c) (step_time c) p q /\ stands q.
Proof.
  intros fuel c a distance acceleration speed q D H. unfold predict_stop in H.
  eexists. split; [apply advance_moved, D|]. apply (brake_within_drive _ _ _ _ _ D H).
Qed.

(** It is given up only if the entity has passed the waypoint by more than 1 m before it stands. *)
Theorem C120_given_up :
  forall fuel c a distance acceleration speed,
  0 < step_time c -> predict_stop fuel c a distance acceleration speed = Value None ->
  exists p q, moved (step_time c) (Predicted 0 0 speed acceleration) a p /\
    drive (braking c) (step_time c) p q /\ distance + 1 < travelled q /\ ~ stands q.
Proof.
  intros fuel c a distance acceleration speed D H. unfold predict_stop in H.
  eexists. cut (exists q, drive (braking c) (step_time c) (advance c a (predict acceleration speed)) q /\
    distance + 1 < travelled q /\ ~ stands q).
  { intros (q & X & Y & Z). exists q. split; [apply advance_moved, D|]. auto. }
  revert H. generalize (advance c a (predict acceleration speed)).
  induction fuel as [|fuel IH]; intros p H; cbn [brake_within] in H;
    destruct (immobile p) eqn:I; try discriminate; destruct (lt _ _) eqn:L in H; try discriminate.
  - deciding. exists p. split; [constructor|]. split; [exact L|].
    rewrite <- immobile_stands, I. discriminate.
  - deciding. exists p. split; [constructor|]. split; [exact L|].
    rewrite <- immobile_stands, I. discriminate.
  - follow H. apply brake_once_braking in R; [|exact D]. destruct R as (b & B & M).
    destruct (IH _ H) as (q & X & Y). exists q. split; [|exact Y].
    eapply drive_on; eassumption.
Qed.

(** If even the least acceleration of the range leads beyond the waypoint in this frame, or the range
    is a single value, that is the answer. *)
Theorem C120_overshoot :
  forall fuel cast c time distance acceleration speed lo hi,
  ordinary c acceleration speed -> limits c acceleration speed = Value (lo, hi) ->
  distance < (speed + (speed + lo * step_time c)) / 2 * step_time c \/
  Qabs (lo - hi) < local_epsilon ->
  accelerate fuel cast c time distance acceleration speed = Value lo.
Proof.
  intros fuel cast c time distance acceleration speed lo hi [B F] L H.
  unfold accelerate. cbv zeta. apply lt_false in B. rewrite B. apply lt_false in F. rewrite F.
  rewrite L. cbn [andthen]. destruct H as [H | H].
  - assert (E : (speed + (speed + lo * step_time c)) / 2 * step_time c
                == (speed + lo * step_time c * (1 # 2)) * step_time c) by field.
    rewrite E in H. apply lt_iff in H. rewrite H. reflexivity.
  - destruct (lt distance _); [reflexivity|]. apply lt_iff in H. rewrite H. reflexivity.
Qed.

(** ** C121: the predicted arrival *)

(** With at least a frame left, the prediction is: one frame with the candidate as far as it is
    allowed; then either braking to a standstill that comes within a frame of the given time, or
    bringing the acceleration to 0, then (only where the entity is to stop) braking to a standstill,
    with as many whole frames at the constant speed in between as the rest of the way takes; if
    that standstill comes within a frame of the given time without them, they are left out. *)
Theorem C121_prediction :
  forall fuel cast c a time distance acceleration speed q,
  0 < step_time c -> step_time c <= time ->
  predict_arrival fuel cast c a time distance acceleration speed = Value (Some q) ->
  exists first p,
    allowed c a acceleration speed first /\
    moved (step_time c) (Predicted 0 0 speed acceleration) first p /\
    ((with_braking c = true /\ drive (braking c) (step_time c) p q /\ stands q /\
      Qabs (took q - time) <= step_time c) \/
     exists m r,
       drive (allowed c 0) (step_time c) p m /\ acceleration_of m == 0 /\
       local_epsilon < Qabs (speed_of m) /\
       (if with_braking c then drive (braking c) (step_time c) m r /\ stands r else r = m) /\
       ((with_braking c = true /\ q = r /\ Qabs (took r - time) <= step_time c) \/
        exists lasting,
          round_time cast c ((distance - travelled r) / speed_of m) step_time_tolerance
            = Value lasting /\
          travelled q == travelled r + lasting * speed_of m /\ took q == took r + lasting /\
          speed_of q = speed_of r /\ acceleration_of q = acceleration_of r)).
Proof.
  intros fuel cast c a time distance acceleration speed q D T H.
  unfold predict_arrival in H. cbv zeta in H. destruct (lt time _) eqn:X in H; [deciding; lra|].
  clear X. follow H. rename r into first. apply clamp_allowed in R.
  exists first, (advance c first (predict acceleration speed)). split; [exact R|].
  split; [apply advance_moved, D|].
  set (p := advance c first (predict acceleration speed)) in *. clearbody p.
  assert (CONST : forall r v, (if le (double_max * v) (distance - travelled r) then Error
              else andthen (round_time cast c ((distance - travelled r) / v) step_time_tolerance)
                (fun lasting => Value (Some (Predicted (Qred (lasting * v + travelled r))
                   (Qred (lasting + took r)) (speed_of r) (acceleration_of r))))) = Value (Some q) ->
    exists lasting,
          round_time cast c ((distance - travelled r) / v) step_time_tolerance
            = Value lasting /\
          travelled q == travelled r + lasting * v /\ took q == took r + lasting /\
          speed_of q = speed_of r /\ acceleration_of q = acceleration_of r).
  { intros r v E. destruct (le _ _) in E; [discriminate|]. follow E.
    match type of E with Value (Some ?x) = _ => assert (EQ : q = x) by congruence end.
    exists r0. split; [assumption|]. rewrite EQ. cbn [travelled took speed_of acceleration_of].
    rewrite !Qred_correct. repeat split; ring. }
  assert (CRUISE : andthen (level fuel c time p) (fun p =>
        if le (Qabs (speed_of p)) local_epsilon then Value None
        else if with_braking c then
            andthen (brake_until fuel c time p) (fun stopped =>
              match stopped with
              | None => Value None
              | Some p0 =>
                  if le (Qabs (took p0 - time)) (step_time c) then Value (Some p0)
                  else if le (double_max * speed_of p) (distance - travelled p0) then Error
              else andthen (round_time cast c ((distance - travelled p0) / speed_of p) step_time_tolerance)
                (fun lasting => Value (Some (Predicted (Qred (lasting * speed_of p + travelled p0))
                   (Qred (lasting + took p0)) (speed_of p0) (acceleration_of p0))))
              end)
          else if le (double_max * speed_of p) (distance - travelled p) then Error
              else andthen (round_time cast c ((distance - travelled p) / speed_of p) step_time_tolerance)
                (fun lasting => Value (Some (Predicted (Qred (lasting * speed_of p + travelled p))
                   (Qred (lasting + took p)) (speed_of p) (acceleration_of p))))) = Value (Some q) ->
     exists m r,
       drive (allowed c 0) (step_time c) p m /\ acceleration_of m == 0 /\
       local_epsilon < Qabs (speed_of m) /\
       (if with_braking c then drive (braking c) (step_time c) m r /\ stands r else r = m) /\
       ((with_braking c = true /\ q = r /\ Qabs (took r - time) <= step_time c) \/
        exists lasting,
          round_time cast c ((distance - travelled r) / speed_of m) step_time_tolerance
            = Value lasting /\
          travelled q == travelled r + lasting * speed_of m /\ took q == took r + lasting /\
          speed_of q = speed_of r /\ acceleration_of q = acceleration_of r)).
  { clear H. intros H. follow H. rename r into m. apply level_drive in R0; [|exact D].
    destruct R0 as [DR Z0]. destruct (le _ _) eqn:E in H; [discriminate|]. deciding.
    exists m. destruct (with_braking c) eqn:WB.
    - follow H. destruct r as [r|]; [|discriminate]. apply brake_until_drive in R0; [|exact D].
      exists r. split; [exact DR|]. split; [exact Z0|]. split; [exact E|]. split; [exact R0|].
      destruct (le _ _) eqn:E2 in H; deciding.
      + left. split; [reflexivity|]. split; [congruence|]. exact E2.
      + right. apply CONST, H.
    - exists m. split; [exact DR|]. split; [exact Z0|]. split; [exact E|]. split; [reflexivity|].
      right. apply CONST, H. }
  destruct (with_braking c) eqn:WB.
  - follow H. destruct r as [b|]; [|discriminate]. apply brake_until_drive in R0; [|exact D].
    destruct (le _ _) eqn:E in H; deciding.
    + left. assert (b = q) by congruence. subst b. split; [reflexivity|]. tauto.
    + right. apply CRUISE. exact H.
  - right. apply CRUISE. exact H.
Qed.

(** The frames at constant speed take the time needed rounded down to whole frames, or up if it
    misses the next by less than the tolerance, and the tolerance more. *)
Theorem C121_rounding :
  forall c time tolerance t,
  0 < step_time c -> 0 < tolerance -> tolerance < 1 ->
  round_time Qfloor c time tolerance = Value t ->
  exists n : Z, t == inject_Z n * step_time c + tolerance /\
    (inject_Z n - tolerance) * step_time c < time /\
    time <= (inject_Z n + 1 - tolerance) * step_time c.
Proof.
  intros c time tolerance t D T0 T1 H. unfold round_time in H. cbv zeta in H.
  destruct (le _ _) in H; [discriminate|]. set (dt := step_time c) in *.
  pose proof (Qfloor_le (time / dt)) as F1. pose proof (Qlt_floor (time / dt)) as F2.
  set (k := Qfloor (time / dt)) in *. rewrite inject_Z_plus in F2. change (inject_Z 1) with 1 in F2.
  assert (TD : time == time / dt * dt) by (field; lra).
  assert (KD : inject_Z k * dt / dt == inject_Z k) by (field; lra).
  set (x := time / dt) in *. clearbody x.
  destruct (lt _ _) eqn:L in H; deciding; rewrite KD in L.
  - assert (t = Qred (inject_Z k * dt + dt + tolerance)) by congruence. subst t.
    exists (k + 1)%Z. rewrite Qred_correct, inject_Z_plus. change (inject_Z 1) with 1.
    split; [ring|]. rewrite TD.
    assert (A : inject_Z k + 1 - tolerance < x) by lra.
    assert (B : x <= inject_Z k + 1 + 1 - tolerance) by lra.
    split; [apply Qmult_lt_compat_r | apply Qmult_le_compat_r]; lra.
  - assert (t = Qred (inject_Z k * dt + tolerance)) by congruence. subst t.
    exists k. rewrite Qred_correct. split; [ring|]. rewrite TD.
    split; [apply Qmult_lt_compat_r | apply Qmult_le_compat_r]; lra.
Qed.

(** ** C121: the last frames *)

(** In the last frames the acceleration is calculated, as far as it is allowed, from the way:
    [time] is the remaining time rounded as above. *)
Theorem C121_last_frames :
  forall fuel cast c source time distance acceleration speed lo hi a,
  0 < step_time c -> ordinary c acceleration speed ->
  limits c acceleration speed = Value (lo, hi) ->
  (speed + lo * step_time c * (1 # 2)) * step_time c <= distance ->
  local_epsilon <= Qabs (lo - hi) ->
  round_time cast c source step_time_tolerance = Value time ->
  time <= step_time c * (if with_braking c then 4 else 3) ->
  accelerate fuel cast c (Some source) distance acceleration speed = Value a ->
  let dt := step_time c in
  exists x, allowed c x acceleration speed a /\
    (time <= 2 * dt -> x == 0 /\ (with_braking c = true -> Qabs speed < local_epsilon)) /\
    (2 * dt < time -> time <= 3 * dt -> with_braking c = true -> speed + x * dt == 0) /\
    (2 * dt < time -> time <= 3 * dt -> with_braking c = false ->
       (speed + (speed + x * dt)) / 2 * dt + (speed + x * dt) * dt == distance) /\
    (3 * dt < time -> (speed + (speed + x * dt)) / 2 * dt == distance).
Proof.
  intros fuel cast c source time distance acceleration speed lo hi a T [B F] L D E RT LATE H dt.
  unfold accelerate in H. cbv zeta in H.
  apply lt_false in B. rewrite B in H. apply lt_false in F. rewrite F in H.
  rewrite L in H. cbn [andthen] in H.
  apply lt_false in D. rewrite D in H. apply lt_false in E. rewrite E in H.
  unfold accelerate_timed in H. rewrite RT in H. cbn [andthen] in H.
  assert (LS : last_steps c time distance acceleration speed = Value a).
  { destruct (with_braking c); cbn [andb] in H.
    - assert (X : le time (step_time c * 4) = true) by (apply le_iff; lra). rewrite X in H. exact H.
    - assert (X : le time (step_time c * 3) = true) by (apply le_iff; lra). rewrite X in H. exact H. }
  clear H. unfold last_steps in LS. cbv zeta in LS. fold dt in LS, LATE, T |- *.
  destruct (le time (dt * 2)) eqn:E2 in LS; deciding.
  { destruct (_ || _) eqn:W in LS; [|discriminate]. apply clamp_allowed in LS.
    exists 0. split; [exact LS|]. split; [|repeat split; intros; lra].
    intros _. split; [reflexivity|]. intros WB. rewrite WB in W. cbn [negb orb] in W.
    deciding. exact W. }
  destruct (le time (dt * 3)) eqn:E3 in LS; deciding.
  { destruct (with_braking c) eqn:WB; apply clamp_allowed in LS; eexists; (split; [exact LS|]).
    - split; [intros; lra|]. split; [intros; field; lra|]. split; [discriminate|]. intros; lra.
    - split; [intros; lra|]. split; [discriminate|]. split; [intros; field; lra|]. intros; lra. }
  destruct (with_braking c) eqn:WB; [|exfalso; lra].
  assert (X : le time (dt * 4) = true) by (apply le_iff; lra). rewrite X in LS. cbn [andb] in LS.
  apply clamp_allowed in LS. eexists. split; [exact LS|].
  split; [intros; lra|]. split; [intros; lra|]. split; [intros; lra|]. intros _. field. lra.
Qed.

(** Predictions exist: a car that starts with 1/5 m/s^2 and 3 m to go stands again after 0.001 m; one that
    passes a waypoint 10 m ahead at 10 m/s takes one second. *)
Example C121_prediction_example :
  (exists q, predict_stop 2000 (car 10) (1 # 5) 3 0 0 = Value (Some q) /\ 0 < travelled q) /\
  (exists q, predict_arrival 2000 Qfloor passing 0 (1000001 # 1000000) 10 0 10 = Value (Some q) /\
     took q == 1000001 # 1000000) /\
  (exists q, predict_stop 2000 (car 10) 0 (1 # 10) 0 9 = Value q /\ q = None).
Proof.
  split; [|split].
  - eexists. split; vm_compute; reflexivity.
  - eexists. split; vm_compute; reflexivity.
  - eexists. split; [vm_compute|]; reflexivity.
Qed.

(** Two frames before it passes a waypoint 1.003 m ahead at 10 m/s, the car is told 4/5 m/s^2 as far as it
    is allowed: 1/5. *)
Example C121_last_example :
  exists lo hi time,
    ordinary passing 0 10 /\ limits passing 0 10 = Value (lo, hi) /\
    (10 + lo * step_time passing * (1 # 2)) * step_time passing <= 1003 # 1000 /\
    local_epsilon <= Qabs (lo - hi) /\
    round_time Qfloor passing (1 # 10) step_time_tolerance = Value time /\
    2 * step_time passing < time /\ time <= step_time passing * 3 /\
    reduced (accelerate 2000 Qfloor passing (Some (1 # 10)) (1003 # 1000) 0 10) = Value (1 # 5) /\
    reduced (accelerate 2000 Qfloor passing (Some (1 # 10)) (10003 # 10000) 0 10) = Value (2 # 25).
Proof.
  exists (-1 # 5), (1 # 5), (100001 # 1000000).
  split; [split; vm_compute; discriminate|]. split; [vm_compute; reflexivity|].
  split; [vm_compute; discriminate|]. split; [vm_compute; discriminate|].
  split; [vm_compute; reflexivity|]. split; [vm_compute; reflexivity|].
  split; [vm_compute; discriminate|]. split; vm_compute; reflexivity.
Qed.

Print Assumptions C118_range.
Print Assumptions C120_prediction.
Print Assumptions C120_given_up.
Print Assumptions C120_overshoot.
Print Assumptions C121_prediction.
Print Assumptions C121_rounding.
Print Assumptions C121_last_frames.
