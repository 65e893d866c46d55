(** simple_sensor_simulator, sensor_simulation/imu: what the inertial measurement unit reports. *)
From Coq Require Import Reals List.
From Verif Require Import M_Ego M_Quaternion.
Import ListNotations.
Local Open Scope R_scope.

(** common/math/geometry/include/geometry/quaternion/quaternion_to_euler.hpp:30-41: roll, pitch and
    yaw, by tf2's [Matrix3x3::getEulerYPR] of the matrix of [Matrix3x3::setRotation]. tf2 is not in
    /repo; its function is modelled as released. *)
Definition entry20 (q : Quat) : R :=
  let s := 2 / (q_x q * q_x q + q_y q * q_y q + q_z q * q_z q + q_w q * q_w q) in
  s * (q_x q * q_z q - q_w q * q_y q).
Definition to_euler (q : Quat) : Vec :=
  let s := 2 / (q_x q * q_x q + q_y q * q_y q + q_z q * q_z q + q_w q * q_w q) in
  let m20 := entry20 q in
  let m21 := s * (q_y q * q_z q + q_w q * q_x q) in
  let m22 := 1 - s * (q_x q * q_x q + q_y q * q_y q) in
  if Rle_dec 1 (Rabs m20) then
    vec (atan2 m21 m22) (if Rlt_dec m20 0 then PI / 2 else - (PI / 2)) (yaw_of q)
  else
    let pitch := - asin m20 in
    vec (atan2 (m21 / cos pitch) (m22 / cos pitch)) pitch (yaw_of q).

(** [ImuSensorBase], imu_sensor.hpp:59-71, and [override_legacy_configuration_] (109). *)
Record Imu : Set := imu
  { add_gravity : bool; sd_orientation : R; sd_twist : R; sd_acceleration : R; override : bool }.

(** What is read of the [EntityStatus]: pose.orientation, action_status.twist.angular and
    action_status.accel.linear *)
Record Motion : Set := motion { attitude : Quat; spin : Vec; push : Vec }.

(** The fields of [sensor_msgs::msg::Imu] but for the header *)
Record Message : Set := message
  { orientation : Quat; angular_velocity : Vec; linear_acceleration : Vec;
    cov_orientation : list R; cov_angular : list R; cov_linear : list R }.

(** imu_sensor.hpp:73-76, [calculateCovariance] *)
Definition covariance (sd : R) : list R := [sd * sd; 0; 0; 0; sd * sd; 0; 0; 0; sd * sd].

(** imu_sensor.cpp:32-37, [applyNoise]. [draw sd n] is the n-th deviate of the generator, from the
    normal distribution of mean 0 and standard deviation [sd]; it is arbitrary. *)
Definition apply_noise (draw : R -> nat -> R) (sd : R) (n : nat) (v : Vec) : Vec :=
  vec (vec_x v + draw sd n) (vec_y v + draw sd (S n)) (vec_z v + draw sd (S (S n))).

(** imu_sensor.cpp:47-58, one of the three cases *)
Definition noisy (draw : R -> nat -> R) (s : Imu) (sd : R) (n : nat) (v : Vec) : Vec :=
  if override s then v else if Rlt_dec 0 sd then apply_noise draw sd n v else v.

(** imu_sensor.cpp:26-91, [generateMessage]. The deviates are numbered by the places where they would
    be drawn, three for each vector. [setRPY] is tf2's, the same function of the three angles as
    [convertEulerAngleToQuaternion], and its matrix that of [rotate] as its quaternions are of length
    one. What [publish] adds by its own randomizer is left out. *)
Definition generate (draw : R -> nat -> R) (s : Imu) (m : Motion) : Message :=
  let rpy := noisy draw s (sd_orientation s) 0 (to_euler (attitude m)) in
  let twist := noisy draw s (sd_twist s) 3 (spin m) in
  let accel := noisy draw s (sd_acceleration s) 6 (push m) in
  let q := from_euler (vec_x rpy) (vec_y rpy) (vec_z rpy) in
  let gravity := rotate q (vec 0 0 (- (981 / 100))) in
  let accel' :=
    if add_gravity s
    then vec (vec_x accel + vec_x gravity) (vec_y accel + vec_y gravity) (vec_z accel + vec_z gravity)
    else accel in
  message q twist accel' (covariance (sd_orientation s)) (covariance (sd_twist s))
          (covariance (sd_acceleration s)).
