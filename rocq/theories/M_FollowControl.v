(** * The controller that picks the acceleration of an entity on a polyline trajectory

    Models simulation/traffic_simulator/src/behavior/follow_waypoint_controller.cpp and the class
    [FollowWaypointController] in
    simulation/traffic_simulator/include/traffic_simulator/behavior/follow_waypoint_controller.hpp.

    Numbers are rationals, so rounding of doubles is not modelled; NaN and infinity do not occur
    except where the code uses them to say "no time", which is [None] here.  [Qred] (reduction to
    lowest terms, [Qred q == q]) is applied where a state is stored so that examples can be
    computed.  The code divides by the jerk limits and by the step time: the theorems assume that
    they are positive. *)

From Coq Require Import List Bool ZArith QArith Qabs Qround Qminmax.
Import ListNotations.
Open Scope Q_scope.

Definition le (a b : Q) : bool := Qle_bool a b.
Definition lt (a b : Q) : bool := negb (Qle_bool b a).

(** What a call ends with.  [Error] is [ControllerError]; [Semantic] is [common::SemanticError];
    [Undefined] is undefined behaviour; [Spinning] means that the bound on the number of steps of
    a [while] loop was reached, which the code does not have. *)
Inductive outcome (A : Type) := Value (a : A) | Error | Semantic | Undefined | Spinning.
Arguments Value {A} _. Arguments Error {A}. Arguments Semantic {A}.
Arguments Undefined {A}. Arguments Spinning {A}.

Definition andthen {A B} (o : outcome A) (f : A -> outcome B) : outcome B :=
  match o with
  | Value a => f a
  | Error => Error | Semantic => Semantic | Undefined => Undefined | Spinning => Spinning
  end.

(** traffic_simulator_msgs/msg/DynamicConstraints.msg and
    follow_waypoint_controller.hpp:129-140,301-313, the members of [FollowWaypointController];
    [target] is [target_speed], which the constructor sets to the maximum speed when it is given
    no value. *)
Record constraints := Constraints {
  max_speed : Q;
  max_acceleration : Q; max_acceleration_rate : Q;
  max_deceleration : Q; max_deceleration_rate : Q }.

Record controller := Controller {
  dynamics : constraints;
  step_time : Q;
  with_braking : bool;
  target : Q }.

(** follow_waypoint_controller.hpp:301-313, the constructor. *)
Definition make_controller (d : constraints) (dt : Q) (braking : bool) (wanted : option Q)
  : controller :=
  Controller d dt braking match wanted with Some v => v | None => max_speed d end.

(** follow_waypoint_controller.hpp:149,159,168,289,298. *)
Definition step_time_tolerance : Q := 1 # 1000000.
Definition predicted_distance_tolerance : Q := 1.
Definition number_of_candidates : nat := 30.
Definition remaining_distance_tolerance : Q := 1 # 10.
Definition local_epsilon : Q := 1 # 1000000000000.

(** [std::numeric_limits<double>::max()] and [static_cast<double>(numeric_limits<size_t>::max())]. *)
Definition double_max : Q := inject_Z ((2 ^ 53 - 1) * 2 ^ 971).
Definition size_max : Q := inject_Z (2 ^ 64).

(** [std::round(std::sqrt(x))] for [x >= 0]: the integer [n] with [(n-1/2)^2 <= x < (n+1/2)^2]. *)
Definition round_sqrt (x : Q) : Z := ((Z.sqrt (Qfloor (4 * x)) + 1) / 2)%Z.

(** follow_waypoint_controller.cpp:129-154, [accelerationWithJerkConstraint];
    [round(sqrt(2 |dv| / j) / dt)] is [round(sqrt(2 |dv| / (j dt^2)))]. *)
Definition discrete_steps (dt delta rate : Q) : Z :=
  Z.max 1 (round_sqrt (2 * Qabs delta / (Qabs rate * (dt * dt)))).

Definition with_jerk (dt current wanted rate : Q) : Q :=
  let delta := wanted - current in
  let n := inject_Z (discrete_steps dt delta rate) in
  let sign := if le 0 delta then 1 else -(1) in
  delta / (n * dt) + sign * Qabs rate * dt * (n - 1) / 2.

(** follow_waypoint_controller.cpp:156-204, [getAccelerationLimits]. *)
Definition limits (c : controller) (acceleration speed : Q) : outcome (Q * Q) :=
  let d := dynamics c in
  let dt := step_time c in
  let lo := Qmax (Qmax (with_jerk dt speed 0 (max_deceleration_rate d)) (- max_deceleration d))
                 (acceleration - max_deceleration_rate d * dt) in
  let hi := Qmin (Qmin (with_jerk dt speed (target c) (max_acceleration_rate d))
                       (max_acceleration d))
                 (acceleration + max_acceleration_rate d * dt) in
  if lt (hi + local_epsilon) (lo - local_epsilon) then Error
  else
    let slow := speed + lo * dt in
    let fast := speed + hi * dt in
    if lt fast (- local_epsilon) || lt (Qmin fast (target c) + local_epsilon) fast
       || lt slow (- local_epsilon) || lt (Qmin fast (target c) + local_epsilon) slow
    then Error
    else Value (Qred lo, Qred hi).

(** [std::clamp], whose behaviour is undefined when the bounds are the wrong way round. *)
Definition clamp (x lo hi : Q) : outcome Q :=
  if lt hi lo then Undefined
  else Value (if lt x lo then lo else if lt hi x then hi else x).

(** follow_waypoint_controller.cpp:21-48, [clampAcceleration]. *)
Definition clamp_acceleration (c : controller) (candidate acceleration speed : Q) : outcome Q :=
  let d := dynamics c in
  let dt := step_time c in
  if lt (speed + (acceleration + max_acceleration_rate d * dt) * dt) 0 then
    Value (Qmin (with_jerk dt speed 0 (max_acceleration_rate d)) (max_acceleration d))
  else if lt (target c) (speed + (acceleration - max_deceleration_rate d * dt) * dt) then
    Value (Qmax (with_jerk dt speed (target c) (max_deceleration_rate d)) (- max_deceleration d))
  else
    andthen (limits c acceleration speed) (fun '(lo, hi) => clamp candidate lo hi).

(** ** Prediction *)

(** follow_waypoint_controller.hpp:46-126, [PredictedEntityStatus] with
    [use_distance_along_lanelet = false]: of the entity's status only the speed and the
    acceleration are read. *)
Record predicted := Predicted { travelled : Q; took : Q; speed_of : Q; acceleration_of : Q }.

Definition predict (acceleration speed : Q) : predicted := Predicted 0 0 speed acceleration.

(** follow_waypoint_controller.hpp:82-111, [step]. *)
Definition advance (c : controller) (a : Q) (p : predicted) : predicted :=
  let dt := step_time c in
  let desired := speed_of p + a * dt in
  Predicted (Qred (travelled p + (speed_of p + desired) * (1 # 2) * dt)) (Qred (took p + dt))
    (Qred desired) (Qred ((desired - speed_of p) / dt)).

(** follow_waypoint_controller.hpp:119-123, [isImmobile]. *)
Definition immobile (p : predicted) : bool :=
  lt (Qabs (speed_of p)) local_epsilon && lt (Qabs (acceleration_of p)) local_epsilon.

(** follow_waypoint_controller.cpp:223-235 and 254-264, one round of both braking loops. *)
Definition brake_once (c : controller) (p : predicted) : outcome predicted :=
  let a := acceleration_of p in
  let v := speed_of p in
  andthen (clamp_acceleration c a a v) (fun clamped =>
    if negb (Qeq_bool clamped a) then Value (advance c clamped p)
    else andthen (limits c a v) (fun '(lo, _) => Value (advance c lo p))).

(** follow_waypoint_controller.cpp:218-236, the loop of
    [getPredictedStopEntityStatusWithoutConsideringTime]. *)
Fixpoint brake_within (fuel : nat) (c : controller) (distance : Q) (p : predicted)
  : outcome (option predicted) :=
  if immobile p then Value (Some p)
  else if lt (distance + predicted_distance_tolerance) (travelled p) then Value None
  else match fuel with
       | O => Spinning
       | S fuel => andthen (brake_once c p) (brake_within fuel c distance)
       end.

(** follow_waypoint_controller.cpp:206-236, the whole function. *)
Definition predict_stop (fuel : nat) (c : controller) (a distance acceleration speed : Q)
  : outcome (option predicted) :=
  brake_within fuel c distance (advance c a (predict acceleration speed)).

(** follow_waypoint_controller.cpp:248-267, [brakeUntilImmobility]; [None] is [false]. *)
Fixpoint brake_until (fuel : nat) (c : controller) (time : Q) (p : predicted)
  : outcome (option predicted) :=
  if immobile p then Value (Some p)
  else if le time (took p) then Value None
  else match fuel with
       | O => Spinning
       | S fuel => andthen (brake_once c p) (brake_until fuel c time)
       end.

(** follow_waypoint_controller.cpp:294-310, the loop that brings the acceleration to zero. *)
Fixpoint level (fuel : nat) (c : controller) (time : Q) (p : predicted) : outcome predicted :=
  if negb (lt 0 (Qabs (acceleration_of p))) then Value p
  else if le time (took p) then Error
  else match fuel with
       | O => Spinning
       | S fuel =>
           andthen (clamp_acceleration c 0 (acceleration_of p) (speed_of p)) (fun a =>
             level fuel c time (advance c a p))
       end.

(** follow_waypoint_controller.cpp:94-119, [roundTimeToFullStepsWithTolerance].  [cast] is the
    conversion [static_cast<std::size_t>]: the language defines it only for values above -1, and
    the theorems hold for every [cast]. *)
Definition round_time (cast : Q -> Z) (c : controller) (time tolerance : Q) : outcome Q :=
  let dt := step_time c in
  if le (size_max * dt) time then Error
  else
    let rounded := inject_Z (cast (time / dt)) * dt in
    if lt (1 - tolerance) (time / dt - rounded / dt)
    then Value (Qred (rounded + dt + tolerance))
    else Value (Qred (rounded + tolerance)).

(** follow_waypoint_controller.cpp:269-347, [getPredictedWaypointArrivalState]. *)
Definition predict_arrival (fuel : nat) (cast : Q -> Z) (c : controller)
    (a time distance acceleration speed : Q) : outcome (option predicted) :=
  let dt := step_time c in
  let p0 := predict acceleration speed in
  if lt time dt then Value (Some p0)
  else
    let cruise p :=
      andthen (level fuel c time p) (fun p =>
        if le (Qabs (speed_of p)) local_epsilon then Value None
        else
          let v := speed_of p in
          let constant p :=
            let left := distance - travelled p in
            if le (double_max * v) left then Error
            else
              andthen (round_time cast c (left / v) step_time_tolerance) (fun lasting =>
                Value (Some (Predicted (Qred (lasting * v + travelled p))
                               (Qred (lasting + took p)) (speed_of p) (acceleration_of p)))) in
          if with_braking c then
            andthen (brake_until fuel c time p) (fun stopped =>
              match stopped with
              | None => Value None
              | Some p =>
                  if le (Qabs (took p - time)) dt then Value (Some p) else constant p
              end)
          else constant p) in
    andthen (clamp_acceleration c a acceleration speed) (fun first =>
      let p := advance c first p0 in
      if with_braking c then
        andthen (brake_until fuel c time p) (fun stopped =>
          match stopped with
          | None => Value None
          | Some b => if le (Qabs (took b - time)) dt then Value (Some b) else cruise p
          end)
      else cruise p).

(** follow_waypoint_controller.cpp:50-92, [getAnalyticalAccelerationForLastSteps]. *)
Definition last_steps (c : controller) (time distance acceleration speed : Q) : outcome Q :=
  let dt := step_time c in
  if le time (dt * 2) then
    if negb (with_braking c) || lt (Qabs speed) local_epsilon
    then clamp_acceleration c 0 acceleration speed
    else Error
  else if le time (dt * 3) then
    if with_braking c then clamp_acceleration c (- speed / dt) acceleration speed
    else clamp_acceleration c ((2 # 3) * (distance - 2 * speed * dt) / (dt * dt)) acceleration speed
  else if le time (dt * 4) && with_braking c then
    clamp_acceleration c (2 * (distance - speed * dt) / (dt * dt)) acceleration speed
  else Semantic.

(** ** Choice *)

(** The rational [lo + i * (hi - lo) / 30]. *)
Definition between (lo hi : Q) (i : nat) : Q :=
  Qred (lo + inject_Z (Z.of_nat i) * ((hi - lo) / inject_Z (Z.of_nat number_of_candidates))).

(** follow_waypoint_controller.cpp:379-398, whether a candidate that stops [left] before the
    waypoint replaces the best one so far, which stops [best] before it. *)
Definition stops_better (left best : Q) : bool :=
  if le 0 left then if le 0 best then lt left best else true
  else if le 0 best then false else lt (Qabs left) (Qabs best).

(** follow_waypoint_controller.cpp:366-402, the loop over the candidates. *)
Fixpoint choose_stop (fuel : nat) (c : controller) (distance acceleration speed : Q)
    (candidates : list Q) (best : Q) (chosen : option Q) : outcome (option Q) :=
  match candidates with
  | [] => Value chosen
  | a :: rest =>
      andthen (predict_stop fuel c a distance acceleration speed) (fun p =>
        match p with
        | None => choose_stop fuel c distance acceleration speed rest best chosen
        | Some p =>
            let left := distance - travelled p in
            if stops_better left best
            then choose_stop fuel c distance acceleration speed rest left (Some a)
            else choose_stop fuel c distance acceleration speed rest best chosen
        end)
  end.

(** follow_waypoint_controller.cpp:350-411, [getAcceleration] without a time. *)
Definition accelerate_untimed (fuel : nat) (c : controller) (distance acceleration speed : Q)
  : outcome Q :=
  andthen (limits c acceleration speed) (fun '(lo, hi) =>
    andthen (choose_stop fuel c distance acceleration speed
               (map (between lo hi) (seq 0 (S number_of_candidates))) (- double_max) None)
      (fun chosen => match chosen with Some a => Value a | None => Error end)).

(** follow_waypoint_controller.cpp:476-485, [isBetterCandidate]. *)
Definition arrives_better (time_diff distance_diff min_time min_distance : Q) : bool :=
  let same_time := lt (Qabs (time_diff - min_time)) local_epsilon in
  let time_better := negb same_time && lt (Qabs time_diff) (Qabs min_time) in
  let distance_better :=
    le 0 distance_diff
    && (lt (Qabs distance_diff) (Qabs min_distance) || lt min_distance 0) in
  time_better || (same_time && distance_better).

(** follow_waypoint_controller.cpp:488-502, [considerCandidate], for a list of candidates. *)
Fixpoint choose_arrival (fuel : nat) (cast : Q -> Z) (c : controller)
    (time distance acceleration speed : Q) (candidates : list Q)
    (min_time min_distance : Q) (chosen : option Q) : outcome (Q * Q * option Q) :=
  match candidates with
  | [] => Value (min_time, min_distance, chosen)
  | a :: rest =>
      andthen (predict_arrival fuel cast c a time distance acceleration speed) (fun p =>
        match p with
        | None =>
            choose_arrival fuel cast c time distance acceleration speed rest
              min_time min_distance chosen
        | Some p =>
            let time_diff := time - took p in
            let distance_diff := distance - travelled p in
            if arrives_better time_diff distance_diff min_time min_distance
            then choose_arrival fuel cast c time distance acceleration speed rest
                   time_diff distance_diff (Some a)
            else choose_arrival fuel cast c time distance acceleration speed rest
                   min_time min_distance chosen
        end)
  end.

(** follow_waypoint_controller.cpp:504-530, the candidates in the order they are considered. *)
Definition arrival_candidates (lo hi : Q) : list Q :=
  lo :: (if lt lo 0 && lt 0 hi then [0] else []) ++ [hi]
  ++ (if lt local_epsilon ((hi - lo) / inject_Z (Z.of_nat number_of_candidates))
      then map (between lo hi) (seq 1 (number_of_candidates - 1)) else []).

(** follow_waypoint_controller.cpp:455-554, the part of [getAcceleration] for a given time. *)
Definition accelerate_timed (fuel : nat) (cast : Q -> Z) (c : controller)
    (source distance acceleration speed lo hi : Q) : outcome Q :=
  let dt := step_time c in
  andthen (round_time cast c source step_time_tolerance) (fun time =>
    if with_braking c && le time (dt * 4) then last_steps c time distance acceleration speed
    else if le time (dt * 3) then last_steps c time distance acceleration speed
    else
      andthen (choose_arrival fuel cast c time distance acceleration speed
                 (arrival_candidates lo hi) double_max double_max None)
        (fun '(min_time, min_distance, chosen) =>
           match chosen with
           | None => Error
           | Some a =>
               if le min_time (- dt + step_time_tolerance) then Value hi
               else if le (dt - step_time_tolerance) min_time then Value lo
               else if lt (Qabs min_time) dt && lt predicted_distance_tolerance min_distance
               then Error
               else Value a
           end)).

(** follow_waypoint_controller.cpp:413-554, [getAcceleration]; [None] for the remaining time
    stands for NaN. *)
Definition accelerate (fuel : nat) (cast : Q -> Z) (c : controller)
    (time : option Q) (distance acceleration speed : Q) : outcome Q :=
  let d := dynamics c in
  let dt := step_time c in
  let most := acceleration + max_acceleration_rate d * dt in
  let least := acceleration - max_deceleration_rate d * dt in
  if lt (speed + most * dt) 0 then Value most
  else if lt (target c) (speed + least * dt) then Value least
  else
    andthen (limits c acceleration speed) (fun '(lo, hi) =>
      if lt distance ((speed + lo * dt * (1 # 2)) * dt) then Value lo
      else if lt (Qabs (lo - hi)) local_epsilon then Value lo
      else match time with
           | None => accelerate_untimed fuel c distance acceleration speed
           | Some source =>
               accelerate_timed fuel cast c source distance acceleration speed lo hi
           end).
