(** * What a prediction of the controller is expected to be

    Uses the data types of the model and its range of accelerations, whose meaning is theorem
    [C118_range]. *)

From Coq Require Import List QArith Qabs Qminmax.
From Verif Require Import M_FollowControl.
Import ListNotations.
Open Scope Q_scope.

(** One frame with the acceleration [a]: the way is that of the mean speed. *)
Definition moved (dt : Q) (p : predicted) (a : Q) (q : predicted) : Prop :=
  speed_of q == speed_of p + a * dt /\ acceleration_of q == a /\ took q == took p + dt /\
  travelled q == travelled p + (speed_of p + speed_of q) / 2 * dt.

(** Some frames, the acceleration of each given by [next] from the acceleration and the speed
    before it. *)
Inductive drive (next : Q -> Q -> Q -> Prop) (dt : Q) : predicted -> predicted -> Prop :=
| drive_end p : drive next dt p p
| drive_on p a q r :
    next (acceleration_of p) (speed_of p) a -> moved dt p a q -> drive next dt q r ->
    drive next dt p r.

(** The acceleration [b] allowed instead of [x] at the acceleration [a] and the speed [v]: for an
    entity bound to go backwards, the ramp to a standstill; for one bound to be too fast, the
    ramp to the target speed; otherwise the value of the range nearest to [x]. *)
Definition allowed (c : controller) (x a v b : Q) : Prop :=
  let d := dynamics c in
  let dt := step_time c in
  let backwards := v + (a + max_acceleration_rate d * dt) * dt < 0 in
  let too_fast := target c < v + (a - max_deceleration_rate d * dt) * dt in
  (backwards /\ b = Qmin (with_jerk dt v 0 (max_acceleration_rate d)) (max_acceleration d)) \/
  (~ backwards /\ too_fast /\
   b = Qmax (with_jerk dt v (target c) (max_deceleration_rate d)) (- max_deceleration d)) \/
  (~ backwards /\ ~ too_fast /\ exists lo hi, limits c a v = Value (lo, hi) /\ lo <= hi /\
   ((lo <= x <= hi /\ b = x) \/ (x < lo /\ b = lo) \/ (hi < x /\ b = hi))).

(** Braking: what is allowed instead of the present acceleration, or, if that is allowed itself,
    the least of the range. *)
Definition braking (c : controller) (a v b : Q) : Prop :=
  (allowed c a a v b /\ ~ b == a) \/
  (exists b', allowed c a a v b' /\ b' == a /\ exists hi, limits c a v = Value (b, hi)).

(** At a standstill. *)
Definition stands (p : predicted) : Prop :=
  Qabs (speed_of p) < local_epsilon /\ Qabs (acceleration_of p) < local_epsilon.
