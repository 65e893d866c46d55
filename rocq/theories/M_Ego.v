(** The simulation of the ego entity around its vehicle model:
    simulation/simple_sensor_simulator/src/vehicle_simulation/ego_entity_simulation.cpp.
    Numbers are exact reals. *)
From Coq Require Import Reals List.
From Verif Require Import M_Vehicle.
Open Scope R_scope.

(** *** Vectors and matrices of Eigen *)
Record Vec : Set := vec { vec_x : R; vec_y : R; vec_z : R }.
Definition vec_add (a b : Vec) : Vec := vec (vec_x a + vec_x b) (vec_y a + vec_y b) (vec_z a + vec_z b).
Definition vec_sub (a b : Vec) : Vec := vec (vec_x a - vec_x b) (vec_y a - vec_y b) (vec_z a - vec_z b).

Record Matrix : Set := matrix
  { m11 : R; m12 : R; m13 : R; m21 : R; m22 : R; m23 : R; m31 : R; m32 : R; m33 : R }.
Definition transpose (m : Matrix) : Matrix :=
  matrix (m11 m) (m21 m) (m31 m) (m12 m) (m22 m) (m32 m) (m13 m) (m23 m) (m33 m).
Definition times (m : Matrix) (a : Vec) : Vec :=
  vec (m11 m * vec_x a + m12 m * vec_y a + m13 m * vec_z a)
      (m21 m * vec_x a + m22 m * vec_y a + m23 m * vec_z a)
      (m31 m * vec_x a + m32 m * vec_y a + m33 m * vec_z a).

(** geometry/quaternion/get_rotation_matrix.hpp:33-50 *)
Definition rotation_matrix (x y z w : R) : Matrix :=
  matrix (x * x - y * y - z * z + w * w) (2 * (x * y - z * w)) (2 * (z * x + w * y))
         (2 * (x * y + z * w)) (- x * x + y * y - z * z + w * w) (2 * (y * z - x * w))
         (2 * (z * x - w * y)) (2 * (y * z + w * x)) (- x * x - y * y + z * z + w * w).

(** *** The status that is reported: of [EntityStatus] the position and the [action_status]. The
    orientation is left out; it follows from the yaw of the vehicle. *)
Record Status : Set := status
  { position : Vec; linear : R; angular : R; accel_x : R; accel_y : R; accel_wz : R; jerk : R }.

(** The members of [EgoEntitySimulation] *)
Record Ego : Type := ego
  { car : Vehicle; relative : Vec; origin : Vec; frame : Matrix;
    previous_linear : option R; previous_angular : option R; reported : Status }.

(** lines 372-390, the position *)
Definition current_position (e : Ego) : Vec := vec_add (origin e) (times (frame e) (relative e)).

(** Lines 439-460 and entity_status.cpp:22-47: when the pose matches a lanelet, the height is taken
    from it. [lane] is that height, if there is a match (simplification: matching is not part of this
    model, every result of it is allowed). *)
Definition snapped (lane : option R) (s : Status) : Status :=
  match lane with
  | None => s
  | Some z => status (vec (vec_x (position s)) (vec_y (position s)) z) (linear s) (angular s)
                (accel_x s) (accel_y s) (accel_wz s) (jerk s)
  end.

(** lines 364-370, 392-408, 418-426, 462-471 *)
Definition update_status (lane : option R) (dt : R) (e : Ego) : Ego :=
  let v := car e in
  let accelerations :=
    match previous_angular e with
    | Some w => (get_ax v, get_wz v * get_vx v, (get_wz v - w) / dt)
    | None => (0, 0, 0)
    end in
  let change := match previous_linear e with Some l => (get_vx v - l) / dt | None => 0 end in
  ego v (relative e) (origin e) (frame e) (previous_linear e) (previous_angular e)
    (snapped lane (status (current_position e) (get_vx v) (get_wz v)
       (fst (fst accelerations)) (snd (fst accelerations)) (snd accelerations) change)).

(** lines 428-432 *)
Definition update_previous (e : Ego) : Ego :=
  ego (car e) (relative e) (origin e) (frame e) (Some (get_vx (car e))) (Some (get_wz (car e))) (reported e).

(** The position relative to the initial pose, lines 236-240 and 312-316 *)
Definition to_relative (e : Ego) (p : Vec) : Vec := times (transpose (frame e)) (vec_sub p (origin e)).

Definition with_relative (r : Vec) (e : Ego) : Ego :=
  ego (car e) r (origin e) (frame e) (previous_linear e) (previous_angular e) (reported e).
Definition with_car (v : Vehicle) (e : Ego) : Ego :=
  ego v (relative e) (origin e) (frame e) (previous_linear e) (previous_angular e) (reported e).

Definition minimum_speed : R := / 1000000000.

(** Lines 254-291: the state vector is not initialised; [rest] is what its fields hold before they
    are assigned. [yaw_] is the yaw of the orientation relative to the initial one, lines 243-252
    (simplification: given). *)
Definition overwritten_state (m : Model) (wheel_base : R) (r : Vec) (yaw_ : R) (s : Status) (rest : State) : State :=
  let angle_ := if below (Rabs (linear s)) minimum_speed then 0
                else atan (angular s * wheel_base / linear s) in
  match m with
  | DelaySteerAcc | DelaySteerAccGeared | DelaySteerAccGearedWoFallGuard | DelaySteerMapAccGeared _ =>
      state (vec_x r) (vec_y r) yaw_ (linear s) angle_ (accel_x s) (pedal rest)
  | DelaySteerVel => state (vec_x r) (vec_y r) yaw_ (linear s) angle_ (accx rest) (pedal rest)
  | IdealSteerAcc | IdealSteerAccGeared =>
      state (vec_x r) (vec_y r) yaw_ (linear s) (steer rest) (accx rest) (pedal rest)
  | IdealSteerVel => state (vec_x r) (vec_y r) yaw_ (vx rest) (steer rest) (accx rest) (pedal rest)
  end.

(** [overwrite], lines 221-300 *)
Definition overwrite (lane : option R) (dt : R) (started : bool) (yaw_ : R) (s : Status) (rest : State)
  (e : Ego) : Ego :=
  let e := with_relative (to_relative e (position s)) e in
  let e := if started
           then with_car (set_state (overwritten_state (model (car e)) (wheelbase (params (car e)))
                            (relative e) yaw_ s rest) (car e)) e
           else e in
  update_previous (update_status lane dt e).

(** [update], lines 302-349. The command has been composed from Autoware's output (lines 319-336).
    [getX] and [getY] are the position of the state. *)
Definition update_ego (lane : option R) (dt : R) (started : bool) (c : command) (e : Ego) : Ego :=
  let e := with_relative (to_relative e (position (reported e))) e in
  let e := if started then with_car (step dt (car e) c) e else e in
  let e := with_relative (vec (px (st (car e))) (py (st (car e))) (vec_z (relative e))) e in
  update_previous (update_status lane dt e).

(** Lines 319-336 and 351-362: the input composed for the models. [sign], [acceleration], [speed] and
    [tire] are Autoware's command, [slope_] the acceleration by the slope. *)
Definition composed (m : Model) (speed acceleration tire sign slope_ : R) (gear_ : nat) : command :=
  (match m with
   | DelaySteerAcc | DelaySteerAccGeared | DelaySteerMapAccGeared _ | IdealSteerAcc | IdealSteerAccGeared =>
       input (sign * acceleration + slope_) tire 0 0
   | DelaySteerAccGearedWoFallGuard => input acceleration tire gear_ slope_
   | DelaySteerVel | IdealSteerVel => input speed tire 0 0
   end, gear_).

(** lines 351-362; [pitch] is that of the lanelet pose, if there is one *)
Definition slope_acceleration (considered : bool) (pitch : option R) : R :=
  match considered, pitch with true, Some a => - sin a * (- (981 / 100)) | _, _ => 0 end.

(** The commands that arrive in one frame after the other, with the height of the lane in each *)
Definition drive (dt : R) (e : Ego) (frames : list (option R * command)) : Ego :=
  List.fold_left (fun e f => update_ego (fst f) dt true (snd f) e) frames e.
