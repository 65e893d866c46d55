(** The fourth noise model of detected objects, what it does to the pose of an entity:
    simulation/simple_sensor_simulator/src/sensor_simulation/detection_sensor/detection_sensor.cpp.
    The numbers that are drawn are arbitrary (how they are drawn: M_Sensors.v). Numbers are exact reals;
    rounding is not modelled. *)
From Coq Require Import Reals List Lra.
From Verif Require Import M_Ego M_Box M_Quaternion.
Import ListNotations.
Local Open Scope R_scope.

Definition quat_of (p : Pose) : Quat := quat (qx p) (qy p) (qz p) (qw p).
Definition pose_of (v : Vec) (q : Quat) : Pose := pose v (q_x q) (q_y q) (q_z q) (q_w q).
(** [tf2::Quaternion] of an axis, here the vertical one, and an angle: lines 428, 633 *)
Definition about_vertical (angle : R) : Quat := quat 0 0 (sin (angle * (1 / 2))) (cos (angle * (1 / 2))).
Definition vec_opp (v : Vec) : Vec := vec (- vec_x v) (- vec_y v) (- vec_z v).

(** What is drawn for an entity: lines 585-615 *)
Record Drawn : Set := drawn { x_noise : R; y_noise : R; yaw_noise : R; flipped : bool }.

(** lines 419-447 *)
Definition flip (b : BBox) (p : Pose) : Pose :=
  let center_ := transform_point p (center b) in
  let turned := mul (quat_of p) (about_vertical PI) in
  pose_of (transform_point (pose_of center_ turned) (vec_opp (center b))) turned.

(** lines 568-579 *)
Definition noise_base (ego : Point2) (p : Pose) (b : BBox) : Point2 := closest_point ego (polygon p b).

(** lines 620-669 ([tf2::quatRotate] is [rotate] for a quaternion of length one, as the one here is) *)
Definition displaced (ego : Point2) (b : BBox) (d : Drawn) (p : Pose) : Pose :=
  let base := noise_base ego p b in
  let dx := px base - px ego in
  let dy := py base - py ego in
  let y_length := hypot dx dy in
  if Rlt_dec y_length (/ 1000000) then p
  else
    let y_unit := vec (dx / y_length) (dy / y_length) 0 in
    let x_unit := vec (dy / y_length) (- (dx / y_length)) 0 in
    let yaw := about_vertical (yaw_noise d) in
    let base3 := vec (px base) (py base) 0 in
    let after_yaw := vec_add base3 (rotate yaw (vec_sub (at_ p) base3)) in
    let x := x_noise d in
    let y := y_noise d in
    let final := vec_add after_yaw
                   (vec (x * vec_x x_unit + y * vec_x y_unit) (x * vec_y x_unit + y * vec_y y_unit)
                        (x * vec_z x_unit + y * vec_z y_unit)) in
    let noised := pose_of (vec (vec_x final) (vec_y final) (vec_z (at_ p))) (mul (quat_of p) yaw) in
    if flipped d then flip b noised else noised.
