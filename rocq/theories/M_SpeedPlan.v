(** * Model of the longitudinal speed planner.

    All paths are /repo/simulation/traffic_simulator/src/behavior/longitudinal_speed_planning.cpp.
    Numbers are exact rationals instead of doubles. Of the twist and the acceleration only the
    longitudinal component (linear.x) is modelled; the others are integrated alongside and do not
    influence it. *)
From Coq Require Import List Bool Arith QArith.
Import ListNotations.
Local Open Scope Q_scope.

(** traffic_simulator_msgs/msg/DynamicConstraints.msg *)
Record limits := { max_acc : Q; max_acc_rate : Q; max_dec : Q; max_dec_rate : Q; max_speed : Q }.

Definition qlt (a b : Q) : bool := negb (Qle_bool b a).
(** std::min, std::max *)
Definition qmin (a b : Q) : Q := if qlt b a then b else a.
Definition qmax (a b : Q) : Q := if qlt a b then b else a.
(** std::clamp: undefined behaviour ([None]) if the upper bound is below the lower one. *)
Definition clamp (x lo hi : Q) : option Q :=
  if qlt hi lo then None
  else Some (if qlt x lo then lo else if qlt hi x then hi else x).
Definition bind {A B} (o : option A) (f : A -> option B) : option B :=
  match o with Some x => f x | None => None end.

Section Step.
(** step_time *)
Variable dt : Q.
Variable c : limits.

(** Lines 256-260, isAccelerating. *)
Definition is_accelerating (target v : Q) : bool := Qle_bool v target.
(** Lines 268-286, planLinearJerk. *)
Definition plan_jerk (target v a : Q) : option Q :=
  bind (if is_accelerating target v
        then clamp (a + dt * max_acc_rate c) 0 (qmin (max_acc c) ((target - v) / dt))
        else clamp (a - dt * max_dec_rate c) (qmax (max_dec c * -1) ((target - v) / dt)) 0)
    (fun a_new => Some ((a_new - a) / dt)).
(** Lines 288-298, forward of an acceleration. *)
Definition forward_accel (jerk a : Q) : option Q :=
  clamp (a + dt * jerk) (max_dec c * -1) (max_acc c).
(** Lines 300-313, forward of a twist. *)
Definition forward_twist (a v : Q) : option Q :=
  clamp (v + a * dt) (-1 * max_speed c) (max_speed c).
(** Lines 315-332, timeDerivative. *)
Definition derivative (before after : Q) : Q := (after - before) / dt.

(** Lines 92-107, getDynamicStates: the new speed, acceleration and jerk. *)
Definition dynamic_states (target v a : Q) : option (Q * Q * Q) :=
  let target := if qlt (max_speed c) target then max_speed c else target in
  bind (plan_jerk target v a) (fun jerk =>
  bind (forward_accel jerk a) (fun accel =>
  bind (forward_twist accel v) (fun v' =>
  let a' := derivative v v' in
  Some (v', a', derivative a a')))).

(** Lines 136-141, isTargetSpeedReached; the tolerance is line 119. *)
Definition reached (target v : Q) : bool :=
  Qle_bool (-(1#100)) (target - v) && Qle_bool (target - v) (1#100).

(** Lines 109-134, getRunningDistance. The loop may go on for ever: [fuel] is the number of
    iterations looked at, and [Running] says that the loop is still going. *)
Inductive prediction := Distance (d : Q) | Running | Undefined.
Definition travelled (s : Q * Q * Q) : Q :=
  let '(v, a, j) := s in v * dt + a * dt * dt / 2 + j * dt * dt * dt / 6.
Fixpoint running_loop (fuel : nat) (target v a ret : Q) : prediction :=
  match fuel with
  | O => Running
  | S fuel' =>
      match dynamic_states target v a with
      | None => Undefined
      | Some (v', a', j') =>
          let ret' := ret + travelled (v', a', j') in
          if reached target v' then Distance ret' else running_loop fuel' target v' a' ret'
      end
  end.
Definition running_distance (fuel : nat) (target v a : Q) : prediction :=
  if reached target v then Distance 0 else running_loop fuel target v a 0.

(** Repeated planning: the states (speed, acceleration) of an entity that follows the plan with a
    fixed target, e.g. simulation/behavior_tree_plugin/src/action_node.cpp:410-428. *)
Fixpoint plan_steps (n : nat) (target : Q) (s : Q * Q) : option (Q * Q) :=
  match n with
  | O => Some s
  | S n' => match dynamic_states target (fst s) (snd s) with
            | Some (v', a', _) => plan_steps n' target (v', a')
            | None => None
            end
  end.

(** simulation/behavior_tree_plugin/src/action_node.cpp:425-437: the distance the entity moves along
    its lane in a step, and over [n] steps. *)
Definition moved (v v' : Q) : Q := (v' + v) / 2 * dt.
Fixpoint trip (n : nat) (target : Q) (s : Q * Q) : Q :=
  match n with
  | O => 0
  | S n' => match dynamic_states target (fst s) (snd s) with
            | Some (v', a', _) => moved (fst s) v' + trip n' target (v', a')
            | None => 0
            end
  end.
End Step.

(** The same defaults as in traffic_simulator_msgs/msg/DynamicConstraints.msg for examples. *)
Definition default_limits : limits :=
  {| max_acc := 10; max_acc_rate := 3; max_dec := 10; max_dec_rate := 3; max_speed := 50 |}.
