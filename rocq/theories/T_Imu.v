(** C225-C226: the inertial measurement unit. *)
From Coq Require Import Reals Lra Lia List Arith.
From Verif Require Import M_Ego M_Quaternion M_Imu S_Quaternion S_Imu P_Quaternion P_Imu.
Import ListNotations.
Local Open Scope R_scope.

Lemma noisy_quiet draw s sd n v : override s = true \/ sd <= 0 -> noisy draw s sd n v = v.
Proof.
  intros H. unfold noisy. destruct (override s); [reflexivity |].
  destruct (Rlt_dec 0 sd); [destruct H; [discriminate | lra] | reflexivity].
Qed.

(** *** C225 *)
Theorem C225_orientation draw s m : unit (attitude m) -> not_vertical (attitude m) -> quiet s ->
  same_orientation (orientation (generate draw s m)) (attitude m).
Proof.
  intros U N Q. unfold generate. cbv zeta. cbn [orientation].
  rewrite noisy_quiet by (destruct Q as [Q | (Q & _)]; tauto). apply euler_again; assumption.
Qed.

Theorem C225_motion draw s m : quiet s ->
  angular_velocity (generate draw s m) = spin m /\
  (add_gravity s = false -> linear_acceleration (generate draw s m) = push m).
Proof.
  intros Q. unfold generate. cbv zeta. cbn [angular_velocity linear_acceleration].
  rewrite (noisy_quiet draw s (sd_twist s)) by (destruct Q as [Q | (_ & Q & _)]; tauto).
  split; [reflexivity |]. intros G. rewrite G.
  apply noisy_quiet. destruct Q as [Q | (_ & _ & Q)]; tauto.
Qed.

(** Each of the nine values has a deviate of its own, from the distribution of its own kind. *)
Theorem C225_noise draw s m : override s = false ->
  exists at_ : nat -> nat -> nat,
    (forall k k' i i', (i < 3)%nat -> (i' < 3)%nat -> at_ k i = at_ k' i' -> k = k' /\ i = i') /\
    (0 < sd_orientation s ->
       orientation (generate draw s m) =
       from_euler (vec_x (to_euler (attitude m)) + draw (sd_orientation s) (at_ 0 0)%nat)
                  (vec_y (to_euler (attitude m)) + draw (sd_orientation s) (at_ 0 1)%nat)
                  (vec_z (to_euler (attitude m)) + draw (sd_orientation s) (at_ 0 2)%nat)) /\
    (0 < sd_twist s ->
       minus (angular_velocity (generate draw s m)) (spin m) =
       vec (draw (sd_twist s) (at_ 1 0)%nat) (draw (sd_twist s) (at_ 1 1)%nat) (draw (sd_twist s) (at_ 1 2)%nat)) /\
    (0 < sd_acceleration s -> add_gravity s = false ->
       minus (linear_acceleration (generate draw s m)) (push m) =
       vec (draw (sd_acceleration s) (at_ 2 0)%nat) (draw (sd_acceleration s) (at_ 2 1)%nat)
           (draw (sd_acceleration s) (at_ 2 2)%nat)).
Proof.
  intros O. exists (fun k i => (3 * k + i)%nat). split; [lia |].
  unfold generate, noisy. cbv zeta. cbn [orientation angular_velocity linear_acceleration]. rewrite O.
  split; [| split].
  - intros P. destruct (Rlt_dec 0 (sd_orientation s)); [reflexivity | lra].
  - intros P. destruct (Rlt_dec 0 (sd_twist s)); [| lra].
    apply vec_eq; cbn [minus apply_noise vec_x vec_y vec_z Nat.mul Nat.add]; ring.
  - intros P G. rewrite G. destruct (Rlt_dec 0 (sd_acceleration s)); [| lra].
    apply vec_eq; cbn [minus apply_noise vec_x vec_y vec_z Nat.mul Nat.add]; ring.
Qed.

(** Every covariance is that of three independent deviates. *)
Theorem C225_covariance draw s m i j : (i < 3)%nat -> (j < 3)%nat ->
  entry (cov_orientation (generate draw s m)) i j =
    Some (if Nat.eqb i j then Rsqr (sd_orientation s) else 0) /\
  entry (cov_angular (generate draw s m)) i j = Some (if Nat.eqb i j then Rsqr (sd_twist s) else 0) /\
  entry (cov_linear (generate draw s m)) i j = Some (if Nat.eqb i j then Rsqr (sd_acceleration s) else 0).
Proof.
  intros I J.
  destruct i as [| [| [| i]]]; [| | | lia]; (destruct j as [| [| [| j]]]; [| | | lia]); repeat split.
Qed.

(** If the legacy configuration is overridden, the message still claims the variance of a noise that
    is not in it. *)
Theorem C225_overridden_refuted : exists s m,
  (forall draw, orientation (generate draw s m) = still /\ angular_velocity (generate draw s m) = spin m /\
                linear_acceleration (generate draw s m) = push m) /\
  (forall draw, entry (cov_angular (generate draw s m)) 0 0 = Some 4).
Proof.
  exists (imu false 0 2 0 true), (motion still (vec 0 0 1) (vec 1 0 0)). split.
  - intros draw. destruct (C225_motion draw (imu false 0 2 0 true) (motion still (vec 0 0 1) (vec 1 0 0))) as (A & B).
    { left. reflexivity. }
    split; [| split; [exact A | exact (B eq_refl)]].
    unfold generate. cbv zeta. cbn [orientation]. rewrite noisy_quiet by (left; reflexivity).
    cbn [attitude]. unfold to_euler, yaw_of, entry20, still. cbn [q_x q_y q_z q_w]. cbv zeta.
    destruct (Rle_dec 1 (Rabs (2 / (0 * 0 + 0 * 0 + 0 * 0 + 1 * 1) * (0 * 0 - 1 * 0)))) as [L | _].
    + exfalso. revert L. replace (2 / (0 * 0 + 0 * 0 + 0 * 0 + 1 * 1) * (0 * 0 - 1 * 0)) with 0 by field.
      rewrite Rabs_R0. lra.
    + replace (2 / (0 * 0 + 0 * 0 + 0 * 0 + 1 * 1) * (0 * 0 - 1 * 0)) with 0 by field.
      rewrite asin_0, Ropp_0, cos_0. cbn [vec_x vec_y vec_z].
      replace (2 / (0 * 0 + 0 * 0 + 0 * 0 + 1 * 1) * (0 * 0 + 1 * 0) / 1) with 0 by field.
      replace ((1 - 2 / (0 * 0 + 0 * 0 + 0 * 0 + 1 * 1) * (0 * 0 + 0 * 0)) / 1) with 1 by field.
      unfold atan2. destruct (Rlt_dec 0 1) as [_ | N]; [| lra].
      replace (0 / 1) with 0 by field. rewrite atan_0. unfold from_euler. cbv zeta.
      rewrite Rmult_0_l, sin_0, cos_0. apply quat_eq; cbn; ring.
  - intros draw. unfold generate, entry. cbn. f_equal; ring.
Qed.

Example C225_case : unit (turn (PI / 3)) /\ not_vertical (turn (PI / 3)) /\ quiet (imu true 0 0 0 false).
Proof.
  split; [| split].
  - unfold unit, turn. cbn -[Rdiv]. pose proof (sin2_cos2 (PI / 3 / 2)) as E. unfold Rsqr in E. lra.
  - intros k E. apply (f_equal vec_x) in E. revert E. unfold turn. opened.
    replace (PI / 3 / 2) with (PI / 6) by field. rewrite sin_PI6, cos_PI6.
    pose proof (sqrt_sqrt 3 ltac:(lra)) as S. intros E.
    assert (F : sqrt 3 / 2 * (sqrt 3 / 2) = 3 / 4) by (transitivity (sqrt 3 * sqrt 3 / 4); [field | rewrite S; field]).
    lra.
  - right. cbn. lra.
Qed.

(** *** C226 *)
Lemma sum_is accel gravity :
  vec (vec_x accel + vec_x gravity) (vec_y accel + vec_y gravity) (vec_z accel + vec_z gravity) =
  plus accel gravity.
Proof. reflexivity. Qed.

(** What is added has the strength of gravity. *)
Theorem C226_strength draw s m : add_gravity s = true ->
  exists g, length g = 981 / 100 /\
    linear_acceleration (generate draw s m) =
    plus (linear_acceleration (generate draw (imu false (sd_orientation s) (sd_twist s) (sd_acceleration s) (override s)) m)) g.
Proof.
  intros G. unfold generate. cbv zeta. cbn [linear_acceleration add_gravity sd_orientation sd_twist sd_acceleration].
  rewrite G, sum_is.
  match goal with |- context [rotate ?q _] => set (o := q) end.
  exists (rotate o attraction). split; [| reflexivity].
  unfold length. assert (U : unit o) by apply euler_unit. clearbody o.
  assert (E : inner (rotate o attraction) (rotate o attraction) = (981 / 100) * (981 / 100)).
  { unfold inner, attraction. unfold unit in U. opened.
    match goal with |- ?l = ?r =>
      replace l with (r * ((q_x o * q_x o + q_y o * q_y o + q_z o * q_z o + q_w o * q_w o) *
                           (q_x o * q_x o + q_y o * q_y o + q_z o * q_z o + q_w o * q_w o))) by field end.
    rewrite U. ring. }
  rewrite E. apply sqrt_square. lra.
Qed.

(** Without noise, for a body that stands upright, it is the attraction as the body sees it. *)
Theorem C226_upright draw s m : add_gravity s = true -> unit (attitude m) -> not_vertical (attitude m) ->
  quiet s -> upright (attitude m) ->
  exists g, seen_as (attitude m) g attraction /\ linear_acceleration (generate draw s m) = plus (push m) g.
Proof.
  intros G U N Q H. exists attraction. split.
  - unfold seen_as. unfold upright in H. rewrite spanned, H. unfold attraction, upward.
    apply vec_eq; cbn [vec_x vec_y vec_z]; ring.
  - unfold generate. cbv zeta. cbn [linear_acceleration]. rewrite G, sum_is.
    rewrite (noisy_quiet draw s (sd_orientation s)) by (destruct Q as [Q | (Q & _)]; tauto).
    rewrite (noisy_quiet draw s (sd_acceleration s)) by (destruct Q as [Q | (_ & _ & Q)]; tauto).
    rewrite (euler_again _ U N). f_equal. unfold upright in H. rewrite spanned, H. unfold attraction, upward.
    apply vec_eq; cbn [vec_x vec_y vec_z]; ring.
Qed.

(** Without noise, what is added is the attraction turned as the body is turned. *)
Theorem C226_turned draw s m : add_gravity s = true -> unit (attitude m) -> not_vertical (attitude m) ->
  quiet s -> linear_acceleration (generate draw s m) = plus (push m) (rotate (attitude m) attraction).
Proof.
  intros G U N Q. unfold generate. cbv zeta. cbn [linear_acceleration]. rewrite G, sum_is.
  rewrite (noisy_quiet draw s (sd_orientation s)) by (destruct Q as [Q | (Q & _)]; tauto).
  rewrite (noisy_quiet draw s (sd_acceleration s)) by (destruct Q as [Q | (_ & _ & Q)]; tauto).
  rewrite (euler_again _ U N). reflexivity.
Qed.

(** A vehicle on a slope *)
Definition slope : Quat := quat 0 (3 / 5) 0 (4 / 5).

(** So it is not the attraction as a body on a slope sees it: it points to the wrong end. *)
Theorem C226_slope_refuted : exists s m,
  add_gravity s = true /\ unit (attitude m) /\ not_vertical (attitude m) /\ quiet s /\
  forall draw g, seen_as (attitude m) g attraction ->
    vec_x (linear_acceleration (generate draw s m)) - vec_x (push m) = - vec_x g /\ vec_x g <> 0.
Proof.
  exists (imu true 0 0 0 false), (motion slope (vec 0 0 0) (vec 0 0 0)).
  assert (U : unit slope) by (unfold unit, slope; cbn -[Rdiv]; lra).
  assert (N : not_vertical slope).
  { intros k E. apply (f_equal vec_x) in E. revert E. unfold slope. opened. lra. }
  assert (Q : quiet (imu true 0 0 0 false)) by (right; cbn; lra).
  split; [reflexivity |]. split; [exact U |]. split; [exact N |]. split; [exact Q |].
  intros draw g. rewrite (C226_turned draw (imu true 0 0 0 false) (motion slope (vec 0 0 0) (vec 0 0 0)) eq_refl U N Q).
  unfold seen_as, attraction, slope. cbn [attitude push]. intros E.
  pose proof (f_equal vec_x E) as E1. pose proof (f_equal vec_z E) as E3. revert E1 E3. unfold plus. opened. lra.
Qed.

(** And if the road runs at an angle to the x axis, a vehicle that does not lean is pushed aside. *)
Theorem C226_aside_refuted : exists s m,
  add_gravity s = true /\ unit (attitude m) /\ not_vertical (attitude m) /\ quiet s /\
  not_leaning (attitude m) /\ push m = vec 0 0 0 /\
  forall draw, vec_y (linear_acceleration (generate draw s m)) < -1.
Proof.
  set (q := quat (- (1 / 5)) (2 / 5) (2 / 5) (4 / 5)).
  exists (imu true 0 0 0 false), (motion q (vec 0 0 0) (vec 0 0 0)).
  assert (U : unit q) by (unfold unit, q; cbn -[Rdiv]; lra).
  assert (N : not_vertical q).
  { intros k E. pose proof (f_equal vec_x E) as E1. pose proof (f_equal vec_y E) as E2. revert E1 E2. unfold q. opened. lra. }
  assert (Q : quiet (imu true 0 0 0 false)) by (right; cbn; lra).
  split; [reflexivity |]. split; [exact U |]. split; [exact N |]. split; [exact Q |].
  split; [unfold not_leaning, q; cbn [attitude]; opened; lra |]. split; [reflexivity |].
  intros draw. rewrite (C226_turned draw (imu true 0 0 0 false) (motion q (vec 0 0 0) (vec 0 0 0)) eq_refl U N Q).
  unfold q, attraction, plus. cbn [attitude push]. opened. lra.
Qed.

(** An accelerometer at rest on level ground shows what carries it, an acceleration upwards. *)
Theorem C226_rest_refuted : exists s m,
  add_gravity s = true /\ attitude m = still /\ push m = vec 0 0 0 /\ quiet s /\
  forall draw, linear_acceleration (generate draw s m) = attraction /\
               linear_acceleration (generate draw s m) <> minus (push m) attraction.
Proof.
  exists (imu true 0 0 0 false), (motion still (vec 0 0 0) (vec 0 0 0)).
  assert (U : unit still) by (unfold unit; cbn; lra).
  assert (N : not_vertical still).
  { intros k E. apply (f_equal vec_x) in E. revert E. unfold still. opened. lra. }
  assert (Q : quiet (imu true 0 0 0 false)) by (right; cbn; lra).
  do 3 (split; [reflexivity |]). split; [exact Q |]. intros draw.
  rewrite (C226_turned draw (imu true 0 0 0 false) (motion still (vec 0 0 0) (vec 0 0 0)) eq_refl U N Q).
  unfold still, attraction, plus. cbn [attitude push].
  assert (E : vec (0 + vec_x (rotate (quat 0 0 0 1) (vec 0 0 (- (981 / 100)))))
                  (0 + vec_y (rotate (quat 0 0 0 1) (vec 0 0 (- (981 / 100)))))
                  (0 + vec_z (rotate (quat 0 0 0 1) (vec 0 0 (- (981 / 100))))) = vec 0 0 (- (981 / 100))).
  { apply vec_eq; opened; lra. }
  cbn [vec_x vec_y vec_z]. rewrite E. split; [reflexivity |].
  intros F. apply (f_equal vec_z) in F. cbn -[Rdiv] in F. lra.
Qed.

Example C226_case : upright (turn (PI / 3)).
Proof.
  unfold upright, turn, upward. pose proof (sin2_cos2 (PI / 3 / 2)) as E. unfold Rsqr in E.
  apply vec_eq; opened; lra.
Qed.
