(** * The acceleration on a polyline trajectory: limits, slowing down, choice *)

From Coq Require Import List Bool ZArith QArith Qabs Qround Qminmax Lqa Lia.
From Verif Require Import M_FollowControl S_FollowControl P_FollowControl P_FollowControl2.
Import ListNotations.
Open Scope Q_scope.

(** ** C118: limits *)

(** The chosen acceleration differs from the present one by no more than the jerk limits allow.
    Unless the entity would go backwards even with the greatest increase of its acceleration, or
    would be faster than the target speed even with the greatest decrease, it also respects the
    limits of acceleration and deceleration, and the speed it leads to lies between 0 and the
    target speed; all up to the tolerance of the code. *)
Theorem C118_limits :
  forall fuel cast c time distance acceleration speed a,
  sane c -> accelerate fuel cast c time distance acceleration speed = Value a ->
  acceleration - max_deceleration_rate (dynamics c) * step_time c - 2 * local_epsilon <= a /\
  a <= acceleration + max_acceleration_rate (dynamics c) * step_time c + 2 * local_epsilon /\
  (speed + (acceleration + max_acceleration_rate (dynamics c) * step_time c) * step_time c < 0 \/
   target c < speed
     + (acceleration - max_deceleration_rate (dynamics c) * step_time c) * step_time c \/
   (- max_deceleration (dynamics c) - 2 * local_epsilon <= a /\
    a <= max_acceleration (dynamics c) + 2 * local_epsilon /\
    - local_epsilon <= speed + a * step_time c /\
    speed + a * step_time c <= target c + local_epsilon)).
Proof.
  intros fuel cast c time distance acceleration speed a C H.
  pose proof epsilon_pos as EP.
  assert (A : 0 < max_acceleration_rate (dynamics c) * step_time c)
    by (apply Qmult_lt_0_compat; apply C).
  assert (D : 0 < max_deceleration_rate (dynamics c) * step_time c)
    by (apply Qmult_lt_0_compat; apply C).
  apply accelerate_cases in H. destruct H as [(B & ->) | [(F & ->) | (_ & lo & hi & L & M)]].
  - repeat split; [lra | lra | left; exact B].
  - repeat split; [lra | lra | right; left; exact F].
  - apply limits_facts in L.
    destruct L as (L1 & L2 & _ & H1 & H2 & _ & LH & (S1 & S2) & (S3 & S4)).
    assert (T : 0 < step_time c) by apply C.
    assert (X : forall x y, x <= y -> speed + x * step_time c <= speed + y * step_time c).
    { intros x y XY. assert (x * step_time c <= y * step_time c)
        by (apply Qmult_le_compat_r; lra). lra. }
    destruct M as [(M1 & M2) | (M1 & M2)]; pose proof (X _ _ M1); pose proof (X _ _ M2);
      (split; [lra|]; split; [lra|]; right; right; repeat split; lra).
Qed.

(** A car of the simulator's usual kind: 50 m/s, 10 m/s^2, 4 m/s^3, frames of 1/20 s. *)
Definition car_limits : constraints := Constraints 50 10 4 10 4.
Definition car (wanted : Q) : controller := make_controller car_limits (1 # 20) true (Some wanted).

Lemma car_sane w : sane (car w).
Proof. constructor; reflexivity. Qed.

(** The answer as a value and the reduced number. *)
Definition reduced (o : outcome Q) : outcome Q := andthen o (fun a => Value (Qred a)).

(** At a standstill, 100 m before the end, the car is told to start with 1/5 m/s^2, the most the
    jerk limit allows; at its target speed it keeps it. *)
Example C118_example :
  reduced (accelerate 2000 Qfloor (car 10) None 100 0 0) = Value (1 # 5) /\
  reduced (accelerate 2000 Qfloor (car 2) None 100 0 2) = Value 0.
Proof. split; vm_compute; reflexivity. Qed.

(** The limit of deceleration is not respected when the target speed is far below the speed. *)
Theorem C118_deceleration_refuted :
  exists c acceleration speed a,
    sane c /\ - max_deceleration (dynamics c) <= acceleration /\ 0 <= target c <= speed /\
    (forall fuel cast time distance,
       accelerate fuel cast c time distance acceleration speed = Value a) /\
    a < - max_deceleration (dynamics c) - (1 # 10).
Proof.
  exists (car 2), (-10), 10, (-10 - 4 * (1 # 20)).
  split; [apply car_sane|]. split; [vm_compute; discriminate|].
  split; [split; vm_compute; discriminate|]. split; [|reflexivity].
  intros. apply accelerate_hard; vm_compute; [discriminate | reflexivity].
Qed.

(** ** C119: slowing down *)

(** As long as the speed exceeds the target, the deceleration grows by the jerk limit in every
    frame: after [n] frames it is [n] times that, however great. *)
Theorem C119_hard_braking :
  forall c v n,
  sane c -> 0 <= target c ->
  target c < v - max_deceleration_rate (dynamics c) * (step_time c * step_time c)
                 * (qn n * (qn n + 1) / 2) ->
  (exists a u, driven (answers c) (step_time c) 0 v n a u) /\
  forall a u, driven (answers c) (step_time c) 0 v n a u ->
  a == - (qn n * (max_deceleration_rate (dynamics c) * step_time c)) /\
  u == v - max_deceleration_rate (dynamics c) * (step_time c * step_time c)
           * (qn n * (qn n + 1) / 2).
Proof.
  intros c v n C T F. split.
  - apply hard_braking_runs; assumption.
  - intros a u D. apply (hard_braking c v n a u C T F D).
Qed.

(** An entity that cruises at [v] and is given the target speed [w], with
    [k(k+1)/2 < (v - w)/J <= (k+1)(k+2)/2] for [J = jerk * step^2]: if [w] is at least [k J] and at
    most about [(k-2)^2 J / 2] (roughly: less than half of [v]), then after [k] frames it is still
    faster than [w] and the controller gives up, whatever the remaining distance and time: the
    deceleration has become greater than the one that would bring it to a standstill. *)
Theorem C119_fails :
  forall c v k,
  let J := max_deceleration_rate (dynamics c) * (step_time c * step_time c) in
  sane c -> max_acceleration_rate (dynamics c) <= max_deceleration_rate (dynamics c) ->
  16 * local_epsilon <= max_deceleration_rate (dynamics c) * step_time c ->
  (3 <= k)%nat ->
  J * (qn k * (qn k + 1) / 2) < v - target c ->
  v - target c <= J * ((qn k + 1) * (qn k + 2) / 2) ->
  J * qn k <= target c ->
  2 * (target c + J * (qn k + 1)) <= J * ((qn k - 2) * (qn k - 2)) ->
  (exists a u, driven (answers c) (step_time c) 0 v k a u) /\
  forall a u, driven (answers c) (step_time c) 0 v k a u ->
  target c < u /\
  forall fuel cast time distance, accelerate fuel cast c time distance a u = Error.
Proof.
  intros c v k J C R EPS K L1 L2 L3 L4.
  assert (T : 0 < step_time c) by apply C.
  assert (P1 : 0 < max_deceleration_rate (dynamics c)) by apply C.
  assert (JP : 0 < J) by (unfold J; repeat apply Qmult_lt_0_compat; assumption).
  pose proof (qn_nonneg k) as QK.
  assert (T0 : 0 <= target c).
  { assert (0 <= J * qn k) by (apply Qmult_le_0_compat; lra). lra. }
  assert (F : target c < v - lost c k) by (unfold lost; fold J; lra).
  split; [apply hard_braking_runs; assumption|].
  intros a u D. destruct (hard_braking c v k a u C T0 F D) as [A U].
  assert (W : target c < u) by (rewrite U; exact F). split; [exact W|].
  intros fuel cast time distance. apply accelerate_error.
  - split.
    + assert (X : 0 < max_acceleration_rate (dynamics c) * step_time c * step_time c)
        by (repeat apply Qmult_lt_0_compat; apply C).
      assert (Y : (a + max_acceleration_rate (dynamics c) * step_time c) * step_time c
                  == - (J * qn k) + max_acceleration_rate (dynamics c) * step_time c * step_time c).
      { unfold J. rewrite A. ring. }
      rewrite Y. lra.
    + assert (Y : u + (a - max_deceleration_rate (dynamics c) * step_time c) * step_time c
                  == v - J * ((qn k + 1) * (qn k + 2) / 2)).
      { rewrite U, A. unfold lost, J. field. }
      rewrite Y. lra.
  - apply (too_hard c k (u / J)); try assumption.
    + apply Qlt_shift_div_l; [exact JP|]. lra.
    + setoid_replace (2 * (u / J)) with (2 * u / J) by (field; lra).
      apply Qle_shift_div_r; [exact JP|].
      setoid_replace ((qn k - 2) * (qn k - 2) * J) with (J * ((qn k - 2) * (qn k - 2))) by ring.
      eapply Qle_trans; [|exact L4].
      assert (u <= target c + J * (qn k + 1)); [|lra].
      rewrite U. unfold lost. fold J.
      assert (E : J * ((qn k + 1) * (qn k + 2) / 2)
                  == J * (qn k * (qn k + 1) / 2) + J * (qn k + 1)) by field.
      lra.
    + fold J. field. lra.
Qed.

(** From 20 m/s to 2 m/s with the limits of the usual car: after 59 frames, at 2.3 m/s and
    -11.8 m/s^2 (the limit is -10), the controller gives up. *)
Example C119_example :
  (exists a u, driven (answers (car 2)) (1 # 20) 0 20 59 a u) /\
  forall a u, driven (answers (car 2)) (1 # 20) 0 20 59 a u ->
  a == -(59 # 5) /\ u == 23 # 10 /\
  forall fuel cast time distance, accelerate fuel cast (car 2) time distance a u = Error.
Proof.
  pose proof (C119_fails (car 2) 20 59 (car_sane 2)) as H.
  specialize (H ltac:(vm_compute; discriminate) ltac:(vm_compute; discriminate) ltac:(lia)
                ltac:(vm_compute; reflexivity) ltac:(vm_compute; discriminate)
                ltac:(vm_compute; discriminate) ltac:(vm_compute; discriminate)).
  destruct H as [E H]. split; [exact E|]. intros a u D.
  destruct (C119_hard_braking (car 2) 20 59 (car_sane 2)) as [_ B];
    [vm_compute; discriminate | vm_compute; reflexivity |].
  destruct (B a u D) as [A U]. destruct (H a u D) as [_ F].
  split; [rewrite A; vm_compute; reflexivity|]. split; [rewrite U; vm_compute; reflexivity|].
  exact F.
Qed.

(** Given the target speed 0 while it drives forwards at 1 m/s, the car is told to drive
    backwards: in its 14th frame. *)
Theorem C119_reverses_refuted :
  exists c, sane c /\ target c == 0 /\
  exists a u, driven (answers c) (step_time c) 0 1 14 a u /\ u < 0.
Proof.
  exists (car 0). split; [apply car_sane|]. split; [reflexivity|].
  assert (X : exists a u, driven (answers (car 0)) (step_time (car 0)) 0 1 13 a u).
  { apply hard_braking_runs; [apply car_sane | vm_compute; discriminate | vm_compute; reflexivity]. }
  destruct X as (a & u & D).
  destruct (hard_braking (car 0) 1 13 a u (car_sane 0)) as [A U];
    [vm_compute; discriminate | vm_compute; reflexivity | exact D |].
  assert (A' : a == -13 # 5) by (rewrite A; vm_compute; reflexivity).
  assert (U' : u == 9 # 100) by (rewrite U; vm_compute; reflexivity).
  exists (a + 4 * (1 # 20)), (u + (a + 4 * (1 # 20)) * (1 # 20)). split.
  - econstructor; [exact D | | reflexivity].
    exists O, (fun _ => 0%Z), None, 0. unfold accelerate. cbv zeta.
    change (max_acceleration_rate (dynamics (car 0))) with 4.
    change (step_time (car 0)) with (1 # 20).
    assert (E : lt (u + (a + 4 * (1 # 20)) * (1 # 20)) 0 = true) by (apply lt_iff; lra).
    rewrite E. reflexivity.
  - lra.
Qed.

(** ** C120: the choice without a time *)

Lemma brake_within_immobile fuel c distance p q :
  brake_within fuel c distance p = Value (Some q) -> immobile q = true.
Proof.
  revert p. induction fuel as [|fuel IH]; simpl; intros p H;
    destruct (immobile p) eqn:I; try (injection H as <-; exact I);
    destruct (lt _ _) in H; try discriminate.
  follow H. apply (IH _ H).
Qed.

(** Where no time is given, the answer is one of 31 accelerations at equal distances between the
    limits; the prediction for it ends at a standstill, and none of the other 30 leads to a
    preferable place: short of the waypoint and nearer to it, or, if all overshoot, less far
    behind it. *)
Theorem C120_stop_choice :
  forall fuel cast c distance acceleration speed lo hi a,
  ordinary c acceleration speed -> limits c acceleration speed = Value (lo, hi) ->
  (speed + lo * step_time c * (1 # 2)) * step_time c <= distance ->
  local_epsilon <= Qabs (lo - hi) ->
  accelerate fuel cast c None distance acceleration speed = Value a ->
  (forall i, between lo hi i == lo + inject_Z (Z.of_nat i) * ((hi - lo) / 30)) /\
  (exists i, (i <= 30)%nat /\ a = between lo hi i) /\
  exists p,
    predict_stop fuel c a distance acceleration speed = Value (Some p) /\
    Qabs (speed_of p) < local_epsilon /\ Qabs (acceleration_of p) < local_epsilon /\
    forall i q, (i <= 30)%nat ->
    predict_stop fuel c (between lo hi i) distance acceleration speed = Value (Some q) ->
    ~ preferred (distance - travelled q) (distance - travelled p).
Proof.
  intros fuel cast c distance acceleration speed lo hi a [B F] L D E H.
  split; [intros i; apply between_value|].
  unfold accelerate in H. cbv zeta in H.
  apply lt_false in B. rewrite B in H. apply lt_false in F. rewrite F in H.
  rewrite L in H. cbn [andthen] in H.
  apply lt_false in D. rewrite D in H. apply lt_false in E. rewrite E in H.
  unfold accelerate_untimed in H. rewrite L in H. cbn [andthen] in H.
  follow H. destruct r as [x|]; [|discriminate]. injection H as <-.
  apply choose_stop_best in R. destruct R as (y & [(I & p & P & ->) | (X & _)] & _ & G);
    [|discriminate].
  split.
  - apply in_map_iff in I. destruct I as (i & <- & I). apply in_seq in I.
    exists i. unfold number_of_candidates in I. split; [lia | reflexivity].
  - exists p. split; [exact P|].
    pose proof (brake_within_immobile _ _ _ _ _ P) as IM.
    unfold immobile in IM. deciding. split; [assumption|]. split; [assumption|].
    intros i q LI Q. apply (G (between lo hi i)); [|exists q; auto].
    apply in_map_iff. exists i. split; [reflexivity|]. apply in_seq.
    unfold number_of_candidates. lia.
Qed.

(** A standing car with 3 m to go: the greatest of the 31 values is chosen. *)
Example C120_example :
  exists lo hi,
    limits (car 10) 0 0 = Value (lo, hi) /\ lo == 0 /\ hi == 1 # 5 /\
    ordinary (car 10) 0 0 /\ local_epsilon <= Qabs (lo - hi) /\
    accelerate 2000 Qfloor (car 10) None 3 0 0 = Value (between lo hi 30).
Proof.
  exists 0, (1 # 5). split; [vm_compute; reflexivity|]. split; [reflexivity|].
  split; [reflexivity|]. split; [split; vm_compute; discriminate|].
  split; [vm_compute; discriminate|]. vm_compute. reflexivity.
Qed.

(** ** C121: the choice with a time *)

(** Where a time is given and more than four frames remain, every candidate is an end of the
    range, zero, or one of the 31 values.  One of them is picked whose predicted arrival is as
    near to the given time as that of every other candidate, up to 32 times the tolerance.  If it
    arrives a frame or more too late, the answer is the greatest acceleration; if a frame or more
    too early, the least; otherwise it is the picked one, and by then no more than 1 m remain. *)
Theorem C121_arrival_choice :
  forall fuel cast c source time distance acceleration speed lo hi a,
  0 < step_time c ->
  ordinary c acceleration speed -> limits c acceleration speed = Value (lo, hi) ->
  (speed + lo * step_time c * (1 # 2)) * step_time c <= distance ->
  local_epsilon <= Qabs (lo - hi) ->
  round_time cast c source step_time_tolerance = Value time -> step_time c * 4 < time ->
  accelerate fuel cast c (Some source) distance acceleration speed = Value a ->
  exists x p,
    (one_of_31 lo hi x \/ (x = 0 /\ lo < 0 /\ 0 < hi)) /\
    predict_arrival fuel cast c x time distance acceleration speed = Value (Some p) /\
    (forall y q, y = lo \/ y = hi \/ (y = 0 /\ lo < 0 /\ 0 < hi) \/
                 (exists i, (1 <= i < 30)%nat /\ y = between lo hi i /\
                            local_epsilon < (hi - lo) / 30) ->
     predict_arrival fuel cast c y time distance acceleration speed = Value (Some q) ->
     Qabs (time - took p) <= Qabs (time - took q) + 32 * local_epsilon) /\
    ((step_time c - step_time_tolerance <= took p - time /\ a = hi) \/
     (step_time c - step_time_tolerance <= time - took p /\ a = lo) \/
     (Qabs (time - took p) < step_time c - step_time_tolerance /\ a = x /\
      distance - travelled p <= 1)).
Proof.
  intros fuel cast c source time distance acceleration speed lo hi a T [B F] L D E RT FOUR H.
  unfold accelerate in H. cbv zeta in H.
  apply lt_false in B. rewrite B in H. apply lt_false in F. rewrite F in H.
  rewrite L in H. cbn [andthen] in H.
  apply lt_false in D. rewrite D in H. apply lt_false in E. rewrite E in H.
  unfold accelerate_timed in H. rewrite RT in H. cbn [andthen] in H.
  assert (F4 : le time (step_time c * 4) = false) by (apply le_false; exact FOUR).
  assert (F3 : le time (step_time c * 3) = false) by (apply le_false; lra).
  rewrite F4, F3, andb_false_r in H.
  follow H. destruct r as [[mt md] [x|]]; [|discriminate].
  pose proof R as I. apply choose_arrival_in in I. destruct I as [I | I]; [|discriminate].
  apply choose_arrival_best in R. destruct R as (W & _ & G).
  destruct W as [(_ & p & P & -> & ->) | (W & _)]; [|discriminate].
  exists x, p. split; [apply arrival_candidate, I|]. split; [exact P|]. split.
  - intros y q Y Q.
    assert (IY : In y (arrival_candidates lo hi)).
    { unfold arrival_candidates. destruct Y as [-> | [-> | [(-> & L0 & H0) | (i & LI & -> & SE)]]].
      - left. reflexivity.
      - right. apply in_or_app. right. left. reflexivity.
      - right. apply in_or_app. left. apply lt_iff in L0, H0. rewrite L0, H0. left. reflexivity.
      - right. apply in_or_app. right. right.
        assert (X : lt local_epsilon ((hi - lo) / inject_Z (Z.of_nat number_of_candidates)) = true)
          by (apply lt_iff; exact SE).
        rewrite X. apply in_map_iff. exists i. split; [reflexivity|]. apply in_seq.
        unfold number_of_candidates. lia. }
    specialize (G y _ _ IY (ex_intro _ q (conj Q (conj eq_refl eq_refl)))).
    pose proof (qn_le _ _ (arrival_candidates_length lo hi)) as N.
    pose proof epsilon_pos.
    assert (qn (length (arrival_candidates lo hi)) * local_epsilon <= qn 32 * local_epsilon)
      by (apply Qmult_le_compat_r; lra).
    change (qn 32) with 32 in *. lra.
  - destruct (le (time - took p) _) eqn:E1 in H; deciding.
    { injection H as <-. left. split; [lra | reflexivity]. }
    destruct (le _ (time - took p)) eqn:E2 in H; deciding.
    { injection H as <-. right. left. split; [lra | reflexivity]. }
    destruct (_ && _) eqn:E3 in H; [discriminate|]. injection H as <-.
    right. right.
    assert (TT : 0 < step_time_tolerance) by reflexivity.
    assert (AB : Qabs (time - took p) < step_time c - step_time_tolerance).
    { apply Qabs_case; lra. }
    split; [exact AB|]. split; [reflexivity|].
    apply andb_false_iff in E3. destruct E3 as [E3 | E3]; deciding.
    + lra.
    + exact E3.
Qed.

(** A car cruising at 10 m/s, 10 m before a waypoint it is to pass in one second: it keeps its
    speed but for a trifle, because with the tolerance of the times it would pass the waypoint by
    ten micrometres. *)
Definition passing : controller := make_controller car_limits (1 # 20) false None.

Example C121_example :
  exists lo hi time,
    limits passing 0 10 = Value (lo, hi) /\ ordinary passing 0 10 /\
    local_epsilon <= Qabs (lo - hi) /\
    round_time Qfloor passing 1 step_time_tolerance = Value time /\ step_time passing * 4 < time /\
    (10 + lo * step_time passing * (1 # 2)) * step_time passing <= 10 /\
    reduced (accelerate 2000 Qfloor passing (Some 1) 10 0 10) = Value (-1 # 75).
Proof.
  exists (-1 # 5), (1 # 5), (1000001 # 1000000).
  split; [vm_compute; reflexivity|]. split; [split; vm_compute; discriminate|].
  split; [vm_compute; discriminate|]. split; [vm_compute; reflexivity|].
  split; [vm_compute; reflexivity|]. split; [vm_compute; discriminate|].
  vm_compute. reflexivity.
Qed.

(** ** C122: the jerk-limited ramp *)

(** The acceleration computed for a change of speed under a jerk limit reaches the wanted speed
    exactly: begun with it and taken back by [|rate| * step] in each frame, the speed after [n]
    frames is the wanted one; [n] is the whole number nearest to [sqrt (2 |dv| / |rate|) / step],
    or 1. *)
Theorem C122_ramp :
  forall dt current wanted rate, 0 < dt -> ~ rate == 0 ->
  exists n : nat,
    (1 <= n)%nat /\
    ramp n dt (with_jerk dt current wanted rate)
      (if le 0 (wanted - current) then - Qabs rate else Qabs rate) current == wanted /\
    let x := 2 * Qabs (wanted - current) / (Qabs rate * (dt * dt)) in
    x < (qn n + (1 # 2)) * (qn n + (1 # 2)) /\
    (n = 1%nat \/ (qn n - (1 # 2)) * (qn n - (1 # 2)) <= x).
Proof.
  intros dt current wanted rate D RATE.
  exists (Z.to_nat (discrete_steps dt (wanted - current) rate)).
  pose proof (discrete_steps_pos dt (wanted - current) rate) as N.
  split; [lia|]. split; [apply ramp_with_jerk, D|].
  cbv zeta. set (x := _ / _).
  assert (P : 0 < Qabs rate * (dt * dt)).
  { repeat apply Qmult_lt_0_compat; try assumption.
    pose proof (Qabs_nonneg rate). destruct (Qlt_le_dec 0 (Qabs rate)); [assumption|].
    exfalso. apply RATE. pose proof (Qle_Qabs rate). pose proof (Qle_Qabs (- rate)) as M.
    rewrite Qabs_opp in M. lra. }
  assert (X0 : 0 <= x).
  { unfold x. apply Qle_shift_div_l; [exact P|]. pose proof (Qabs_nonneg (wanted - current)). lra. }
  pose proof (round_sqrt_facts x X0) as (R0 & R1 & R2).
  assert (QN : qn (Z.to_nat (discrete_steps dt (wanted - current) rate))
               = inject_Z (Z.max 1 (round_sqrt x))).
  { unfold qn. rewrite Z2Nat.id by lia. reflexivity. }
  rewrite QN.
  assert (SQ : forall q, (q + (1 # 2)) * (q + (1 # 2)) == (1 # 4) * ((2 * q + 1) * (2 * q + 1)))
    by (intros; ring).
  assert (SQ' : forall q, (q - (1 # 2)) * (q - (1 # 2)) == (1 # 4) * ((2 * q - 1) * (2 * q - 1)))
    by (intros; ring).
  rewrite SQ, SQ'.
  destruct (Z.max_spec 1 (round_sqrt x)) as [[L E] | [L E]]; rewrite E.
  - split; [lra|]. right. assert (1 <= round_sqrt x)%Z as L' by lia. specialize (R2 L'). lra.
  - split; [|left; unfold discrete_steps; fold x; lia].
    assert (round_sqrt x = 1 \/ round_sqrt x = 0)%Z as [Y | Y] by lia; rewrite Y in R1.
    + lra.
    + change (inject_Z 0) with 0 in R1. change (inject_Z 1) with 1. lra.
Qed.

(** From 1 m/s to a standstill at 4 m/s^3 with frames of 1/20 s: 14 frames, the first with about
    -2.73 m/s^2. *)
Example C122_example :
  discrete_steps (1 # 20) (0 - 1) 4 = 14%Z /\
  with_jerk (1 # 20) 1 0 4 == - (191 # 70) /\
  ramp 14 (1 # 20) (with_jerk (1 # 20) 1 0 4) 4 1 == 0.
Proof. split; [|split]; vm_compute; reflexivity. Qed.

(** The limits may come out the wrong way round by less than the tolerance; passed on to
    [std::clamp] in the last frames before a timed waypoint, they make its behaviour undefined. *)
Theorem C122_clamp_refuted :
  exists c acceleration speed lo hi,
    sane c /\ ordinary c acceleration speed /\
    limits c acceleration speed = Value (lo, hi) /\ hi < lo /\
    accelerate 2000 Qfloor c (Some (1 # 20)) 1 acceleration speed = Undefined.
Proof.
  exists passing, (-(1) - (15 # 10000000000000)), (1 # 10), (-4 # 5),
    (-1600000000003 # 2000000000000).
  split; [constructor; reflexivity|]. split; [split; vm_compute; discriminate|].
  split; [vm_compute; reflexivity|]. split; [reflexivity|]. vm_compute. reflexivity.
Qed.

Print Assumptions C118_limits.
Print Assumptions C118_deceleration_refuted.
Print Assumptions C119_hard_braking.
Print Assumptions C119_fails.
Print Assumptions C119_reverses_refuted.
Print Assumptions C120_stop_choice.
Print Assumptions C121_arrival_choice.
Print Assumptions C122_ramp.
Print Assumptions C122_clamp_refuted.
