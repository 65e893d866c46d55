(** * Model of the planning of constraints for a speed change in a given time.

    All paths are /repo/simulation/traffic_simulator/src/behavior/longitudinal_speed_planning.cpp.
    Numbers are real numbers instead of doubles; the not-a-number that std::sqrt returns for a
    negative argument is [None]. *)
From Coq Require Import Reals.
Local Open Scope R_scope.

(** traffic_simulator_msgs/msg/DynamicConstraints.msg *)
Record rlimits := { r_acc : R; r_acc_rate : R; r_dec : R; r_dec_rate : R; r_speed : R }.

(** std::sqrt *)
Definition nsqrt (x : R) : option R := if Rlt_dec x 0 then None else Some (sqrt x).
(** Lines 256-260, isAccelerating. *)
Definition accelerating (target v : R) : bool := if Rle_dec v target then true else false.
(** Lines 158-164, getVelocityWithConstantJerk. *)
Definition velocity (v a jerk duration : R) : R := v + / 2 * jerk * duration * duration + a * duration.
(** Lines 166-184, getQuadraticAccelerationDurationWithConstantJerk. *)
Definition constant_jerk_duration (c : rlimits) (target v a : R) : option R :=
  if accelerating target v then
    match nsqrt (a * a + 2 * r_acc_rate c * (r_speed c - v)) with
    | Some q => Some ((- a + q) / r_acc_rate c)
    | None => None
    end
  else
    match nsqrt (a * a + 2 * r_dec_rate c * (- r_speed c - v)) with
    | Some q => Some ((- a + q) / r_dec_rate c)
    | None => None
    end.
(** Lines 186-220, getQuadraticAccelerationDuration. *)
Definition quadratic_duration (c : rlimits) (target v a : R) : option R :=
  if accelerating target v then
    let duration := (r_acc c - a) / r_acc_rate c in
    if Rlt_dec (velocity v a (r_acc_rate c) duration) target then Some duration
    else constant_jerk_duration c target v a
  else
    let duration := (a - r_dec c) / r_dec_rate c in
    if Rlt_dec (velocity v a (- r_dec_rate c) duration) target then Some duration
    else constant_jerk_duration c target v a.

(** The result, or the SemanticError of lines 65-68 and 80-83. *)
Inductive planned := Planned (c : rlimits) | TooFast.
(** Lines 41-90, planConstraintsFromJerkAndTimeConstraint. A comparison with not-a-number is
    false. *)
Definition plan_constraints (c : rlimits) (target v a T : R) : planned :=
  if (match quadratic_duration c target v a with
      | Some q => if Rge_dec q T then true else false
      | None => false
      end) then
    let rate := 2 * (target - v - a * T) / (T * T) in
    Planned {| r_acc := r_acc c; r_acc_rate := rate; r_dec := r_dec c; r_dec_rate := rate;
               r_speed := r_speed c |}
  else if accelerating target v then
    let d := r_acc_rate c * T * r_acc_rate c * T + 2 * r_acc_rate c * (v + a * T - target) in
    if Rlt_dec d 0 then TooFast
    else Planned {| r_acc := r_acc_rate c * T - sqrt d + a; r_acc_rate := r_acc_rate c;
                    r_dec := r_dec c; r_dec_rate := r_dec_rate c; r_speed := r_speed c |}
  else
    let d := r_dec_rate c * T * r_dec_rate c * T - 2 * r_dec_rate c * (v - a * T - target) in
    if Rlt_dec d 0 then TooFast
    else Planned {| r_acc := r_acc c; r_acc_rate := r_acc_rate c;
                    r_dec := - r_dec_rate c * T + sqrt d + a; r_dec_rate := r_dec_rate c;
                    r_speed := r_speed c |}.
