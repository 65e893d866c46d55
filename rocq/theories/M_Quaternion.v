(** Orientations: common/math/geometry/include/geometry/quaternion/*.hpp and what they call in tf2.
    Numbers are exact reals; rounding is not modelled. *)
From Coq Require Import Reals Lra.
From Verif Require Import M_Ego.
Local Open Scope R_scope.

(** geometry_msgs/msg/Quaternion *)
Record Quat : Set := quat { q_x : R; q_y : R; q_z : R; q_w : R }.

(** operator.hpp:57-70; the same product as tf2's [Quaternion::operator*=] *)
Definition mul (a b : Quat) : Quat :=
  quat (q_w a * q_x b - q_z a * q_y b + q_y a * q_z b + q_x a * q_w b)
       (q_z a * q_x b + q_w a * q_y b - q_x a * q_z b + q_y a * q_w b)
       (- q_y a * q_x b + q_x a * q_y b + q_w a * q_z b + q_z a * q_w b)
       (- q_x a * q_x b - q_y a * q_y b - q_z a * q_z b + q_w a * q_w b).

(** get_rotation.hpp:32-39 *)
Definition rotation_between (from to : Quat) : Quat :=
  mul (quat (q_x from * -1) (q_y from * -1) (q_z from * -1) (q_w from)) to.

(** get_rotation_matrix.hpp:33-46, applied to a vector *)
Definition rotate (q : Quat) (v : Vec) : Vec :=
  times (rotation_matrix (q_x q) (q_y q) (q_z q) (q_w q)) v.

(** get_normal_vector.hpp:29-37: the third column of the matrix *)
Definition normal_vector (q : Quat) : Vec :=
  let m := rotation_matrix (q_x q) (q_y q) (q_z q) (q_w q) in vec (m13 m) (m23 m) (m33 m).

(** [std::hypot] *)
Definition hypot (x y : R) : R := sqrt (x * x + y * y).
(** norm.hpp:26-30 *)
Definition norm (q : Quat) : R := hypot (hypot (q_w q) (q_x q)) (hypot (q_y q) (q_z q)).
(** [std::numeric_limits<double>::epsilon()] *)
Definition epsilon : R := / 2 ^ 52.
(** normalize.hpp:28-44; [None] is the error thrown *)
Definition normalize (q : Quat) : option Quat :=
  let n := norm q in
  if Rle_dec (Rabs n) epsilon then None
  else Some (quat (q_x q / n) (q_y q / n) (q_z q / n) (q_w q / n)).

(** slerp.hpp:30-57 *)
Definition slerp (a b : Quat) (t : R) : Quat :=
  let qr := q_w a * q_w b + q_x a * q_x b + q_y a * q_y b + q_z a * q_z b in
  let ss := 1 - qr * qr in
  if Rle_dec (Rabs ss) epsilon then a
  else
    let sp := sqrt ss in
    let ph := acos qr in
    let pt := ph * t in
    let t1 := sin pt / sp in
    let t0 := sin (ph - pt) / sp in
    quat (q_x a * t0 + q_x b * t1) (q_y a * t0 + q_y b * t1)
         (q_z a * t0 + q_z b * t1) (q_w a * t0 + q_w b * t1).

(** euler_to_quaternion.hpp:31-43: tf2's [Quaternion::setRPY] *)
Definition from_euler (roll pitch yaw : R) : Quat :=
  let sr := sin (roll * (1 / 2)) in let cr := cos (roll * (1 / 2)) in
  let sp := sin (pitch * (1 / 2)) in let cp := cos (pitch * (1 / 2)) in
  let sy := sin (yaw * (1 / 2)) in let cy := cos (yaw * (1 / 2)) in
  quat (sr * cp * cy - cr * sp * sy) (cr * sp * cy + sr * cp * sy)
       (cr * cp * sy - sr * sp * cy) (cr * cp * cy + sr * sp * sy).

(** [std::atan2] (simplification: of the zeros of IEEE 754 there is one here) *)
Definition atan2 (y x : R) : R :=
  if Rlt_dec 0 x then atan (y / x)
  else if Rlt_dec x 0 then (if Rle_dec 0 y then atan (y / x) + PI else atan (y / x) - PI)
  else if Rlt_dec 0 y then PI / 2
  else if Rlt_dec y 0 then - (PI / 2)
  else 0.

(** direction_to_quaternion.hpp:28-35 *)
Definition from_direction (d : Vec) : Quat :=
  from_euler 0 (atan2 (- vec_z d) (hypot (vec_x d) (vec_y d))) (atan2 (vec_y d) (vec_x d)).

(** quaternion_to_euler.hpp:30-41, the yaw: tf2's [Matrix3x3::getEulerYPR] of the matrix that
    [Matrix3x3::setRotation] makes. At a pitch of plus or minus 90 degrees the yaw is 0. *)
Definition yaw_of (q : Quat) : R :=
  let s := 2 / (q_x q * q_x q + q_y q * q_y q + q_z q * q_z q + q_w q * q_w q) in
  let m20 := s * (q_x q * q_z q - q_w q * q_y q) in
  if Rle_dec 1 (Rabs m20) then 0
  else
    let pitch := - asin m20 in
    atan2 (s * (q_x q * q_y q + q_w q * q_z q) / cos pitch)
          ((1 - s * (q_y q * q_y q + q_z q * q_z q)) / cos pitch).
