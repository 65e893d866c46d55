(** * Model of what an entity counts and checks in every frame, and of synchronizing two entities.

    "base" is /repo/simulation/traffic_simulator/src/entity/entity_base.cpp; "vehicle", "pedestrian",
    "misc", "ego" and "manager" are vehicle_entity.cpp, pedestrian_entity.cpp, misc_object_entity.cpp,
    ego_entity.cpp and entity_manager.cpp there. Jobs are those of M_Job. Simplifications: numbers are
    rational; of an entity only what these jobs read and write is kept, the rest being [E]; what the
    behaviour does in a frame is a parameter of the frame. An exception is a mark in the entity: the jobs
    after the one that throws do nothing, and the history ends. *)
From Coq Require Import List Bool Arith ZArith QArith Qabs.
From Verif Require Import M_Job.
Import ListNotations.
Local Open Scope Q_scope.

Inductive value := Speed | Acceleration | Jerk.
Inductive reason := OffLane | NoDistance | NoTarget | TargetOffLane.
Inductive error := OutOfBounds (v : value) | Unsynchronizable (r : reason).

Definition qlt (a b : Q) : bool := negb (Qle_bool b a).

Section Npc.
Context {E : Type}.
(** utils/pose.cpp:378-383, isAtEndOfLanelets, of the lanelet pose, if any. *)
Variable at_end : E -> bool.

(** entity_base.hpp:361-381, with the current twist, acceleration and jerk of the status. *)
Record npc := {
  n_speed : Q; n_accel : Q; n_jerk : Q; n_step : Q; n_travelled : Q; n_still : Q;
  n_target : option Q; n_rest : E; n_thrown : option error }.
Definition with_motion (v a j : Q) (r : E) (n : npc) : npc :=
  {| n_speed := v; n_accel := a; n_jerk := j; n_step := n_step n; n_travelled := n_travelled n;
     n_still := n_still n; n_target := n_target n; n_rest := r; n_thrown := n_thrown n |}.
Definition with_step (s : Q) (n : npc) : npc :=
  {| n_speed := n_speed n; n_accel := n_accel n; n_jerk := n_jerk n; n_step := s;
     n_travelled := n_travelled n; n_still := n_still n; n_target := n_target n; n_rest := n_rest n;
     n_thrown := n_thrown n |}.
Definition with_travelled (d : Q) (n : npc) : npc :=
  {| n_speed := n_speed n; n_accel := n_accel n; n_jerk := n_jerk n; n_step := n_step n;
     n_travelled := d; n_still := n_still n; n_target := n_target n; n_rest := n_rest n;
     n_thrown := n_thrown n |}.
Definition with_still (d : Q) (n : npc) : npc :=
  {| n_speed := n_speed n; n_accel := n_accel n; n_jerk := n_jerk n; n_step := n_step n;
     n_travelled := n_travelled n; n_still := d; n_target := n_target n; n_rest := n_rest n;
     n_thrown := n_thrown n |}.
Definition with_target (t : option Q) (n : npc) : npc :=
  {| n_speed := n_speed n; n_accel := n_accel n; n_jerk := n_jerk n; n_step := n_step n;
     n_travelled := n_travelled n; n_still := n_still n; n_target := t; n_rest := n_rest n;
     n_thrown := n_thrown n |}.
Definition throwing (e : error) (n : npc) : npc :=
  {| n_speed := n_speed n; n_accel := n_accel n; n_jerk := n_jerk n; n_step := n_step n;
     n_travelled := n_travelled n; n_still := n_still n; n_target := n_target n; n_rest := n_rest n;
     n_thrown := Some e |}.

(** A callback is not reached once one has thrown. *)
Definition reached (f : npc -> npc * bool) (_ : Q) (n : npc) : npc * bool :=
  match n_thrown n with None => f n | Some _ => (n, false) end.
Definition nothing (n : npc) : npc := n.

(** base:42-45. *)
Definition count_distance (n : npc) : npc * bool :=
  (with_travelled (n_travelled n + Qabs (n_speed n) * n_step n) n, false).
(** std::numeric_limits<double>::epsilon(). *)
Definition epsilon : Q := 1 # 4503599627370496.
(** base:57-64. *)
Definition count_still (n : npc) : npc * bool :=
  (with_still (if Qle_bool (Qabs (n_speed n)) epsilon then n_still n + n_step n else 0) n, false).
(** base:123-126, isStopped. *)
Definition is_stopped (n : npc) : bool := qlt (Qabs (n_speed n)) epsilon.

(** base:687-727, activateOutOfRangeJob. *)
Record range := { r_low : value -> Q; r_high : value -> Q }.
(** /repo/openscenario/openscenario_interpreter/include/openscenario_interpreter/simulator_core.hpp:650-663,
    activatePerformanceAssertion. *)
Definition performance_range (speed deceleration acceleration min_jerk max_jerk : Q) : range :=
  {| r_low := fun v => match v with Speed => - speed | Acceleration => - deceleration
                                | Jerk => min_jerk end;
     r_high := fun v => match v with Speed => speed | Acceleration => acceleration
                                 | Jerk => max_jerk end |}.
Definition current (n : npc) (v : value) : Q :=
  match v with Speed => n_speed n | Acceleration => n_accel n | Jerk => n_jerk n end.
Definition tolerance : Q := 1 # 100.
Definition within (r : range) (n : npc) (v : value) : bool :=
  Qle_bool (r_low r v) (current n v + tolerance) && Qle_bool (current n v - tolerance) (r_high r v).
Definition check (r : range) (n : npc) : npc * bool :=
  if within r n Speed then
    if within r n Acceleration then
      if within r n Jerk then (n, false) else (throwing (OutOfBounds Jerk) n, false)
    else (throwing (OutOfBounds Acceleration) n, false)
  else (throwing (OutOfBounds Speed) n, false).

(** What the entity that another is synchronized with is found to be: not there, off the lanes, or with
    the distance to its own goal, if there is one, and a speed. *)
Inductive partner := Missing | Elsewhere | Found (distance : option Q) (speed : Q).
(** The arguments of requestSynchronize, and what they are looked up to be. *)
Record meeting := {
  m_near : E -> bool;                      (* isNearbyPosition(entity_target, tolerance) *)
  m_own : E -> option (option Q);          (* lane, and longitudinalDistance to entity_target *)
  m_other : E -> partner;                  (* other_status_ and longitudinalDistance there *)
  m_accel : E -> Q; m_decel : E -> Q;      (* getMaxAcceleration, getMaxDeceleration *)
  m_speed : Q }.                           (* target_speed *)
(** base:815-839. *)
Definition meeting_speed (m : meeting) (n : npc) (own other other_speed : Q) : Q :=
  let arrival := if qlt epsilon (Qabs other_speed) then other / other_speed else 0 in
  let border := (n_speed n + m_speed m) * arrival / 2 in
  if qlt border own then n_speed n + m_accel m (n_rest n) * n_step n
  else if qlt own border then n_speed n - m_decel m (n_rest n) * n_step n
  else n_speed n.
(** base:779-847, the job. *)
Definition synchronize (m : meeting) (n : npc) : npc * bool :=
  match m_own m (n_rest n) with
  | None => (throwing (Unsynchronizable OffLane) n, false)
  | Some None => (throwing (Unsynchronizable NoDistance) n, false)
  | Some (Some own) =>
      match m_other m (n_rest n) with
      | Missing => (throwing (Unsynchronizable NoTarget) n, false)
      | Elsewhere => (throwing (Unsynchronizable TargetOffLane) n, false)
      | Found None _ => (n, true)
      | Found (Some d) v =>
          if qlt d 0 then (n, true)
          else (with_target (Some (meeting_speed m n own d v)) n, false)
      end
  end.

Definition jobs := list (job npc).
Definition appended (f : npc -> npc * bool) (c : npc -> npc) (t : type) (e : event) (l : jobs) (n : npc)
  : jobs * npc := fst (append (reached f) c t true e l n).
Definition updated (step : Q) (e : event) (l : jobs) (n : npc) : jobs * npc := fst (update step e l n).

(** base:35-66, the constructor. *)
Definition fresh (r : E) : jobs * npc :=
  let n := {| n_speed := 0; n_accel := 0; n_jerk := 0; n_step := 0; n_travelled := 0; n_still := 0;
              n_target := None; n_rest := r; n_thrown := None |} in
  let '(l1, n1) := appended count_distance nothing TraveledDistance PostUpdate [] n in
  appended count_still nothing StandStillDuration PostUpdate l1 n1.

(** What the behaviour makes of an entity in a frame. *)
Record drive := { d_speed : Q; d_accel : Q; d_jerk : Q; d_rest : E }.
Inductive kind := Ego | Driven | Misc.
(** base:141-149, onUpdate. *)
Definition on_update (step : Q) (l : jobs) (n : npc) : jobs * npc :=
  let '(l1, n1) := updated step PreUpdate l n in (l1, with_step step n1).
(** vehicle:143-176, pedestrian:295-312, ego:180-206, misc:28-35; base:151-154 and 729-734. The speed of
    an ego that Autoware drives is set before the frame ([Report]). *)
Definition frame (k : kind) (step : Q) (f : npc -> drive) (l : jobs) (n : npc) : jobs * npc :=
  match k with
  | Misc => (l, with_motion 0 0 0 (n_rest n) n)
  | Ego =>
      let '(l1, n1) := on_update step l n in updated step PostUpdate l1 n1
  | Driven =>
      let '(l1, n1) := on_update step l n in
      let d := f n1 in
      let n2 := with_motion (d_speed d) (d_accel d) (d_jerk d) (d_rest d) n1 in
      if at_end (d_rest d) then (l1, with_motion 0 0 0 (n_rest n2) n2)
      else updated step PostUpdate l1 n2
  end.

(** The jobs of speed requests (base:219-547): of the types below, and writing the target speed. That
    they also set the dynamic constraints is not modelled: those may be others in every frame. *)
Inductive request := ByVelocity | ByAcceleration.
Definition type_of (r : request) : type :=
  match r with ByVelocity => LinearVelocity | ByAcceleration => LinearAcceleration end.
Inductive op :=
| Activate (r : range)
| Synchronize (m : meeting)
| Request (t : request) (e : event) (f : npc -> option Q * bool) (c : npc -> option Q)
| SetTarget (t : option Q)                           (* target_speed_ set at once *)
| Report (v a j : Q) (r : E)                         (* setTwist, setAcceleration, setLinearVelocity ... *)
| Frame (step : Q) (f : npc -> drive).               (* manager:133-135 *)
(** The answer of requestSynchronize; the ego refuses it. *)
Inductive answer := Silent | Answered (b : bool) | Refused.
Definition exec (k : kind) (o : op) (l : jobs) (n : npc) : jobs * npc * answer :=
  match o with
  | Activate r => (appended (check r) nothing OutOfRange PostUpdate l n, Silent)
  | Synchronize m =>
      (** base:750-849. *)
      match k with
      | Ego => (l, n, Refused)
      | Driven | Misc =>
          if m_near m (n_rest n) then (l, with_target (Some (m_speed m)) n, Answered true)
          else (appended (synchronize m) nothing LinearAcceleration PostUpdate l n, Answered false)
      end
  | Request t e f c =>
      (appended (fun n => let '(v, b) := f n in (with_target v n, b)) (fun n => with_target (c n) n)
         (type_of t) e l n, Silent)
  | SetTarget t => (l, with_target t n, Silent)
  | Report v a j r => (l, with_motion v a j r n, Silent)
  | Frame step f => (frame k step f l n, Silent)
  end.
(** A history; it ends with an exception. *)
Fixpoint execs (k : kind) (os : list op) (l : jobs) (n : npc) : jobs * npc :=
  match os with
  | [] => (l, n)
  | o :: os' =>
      let '(l1, n1, _) := exec k o l n in
      match n_thrown n1 with Some _ => (l1, n1) | None => execs k os' l1 n1 end
  end.
End Npc.
Arguments npc E : clear implicits.
Arguments op E : clear implicits.
Arguments drive E : clear implicits.
Arguments meeting E : clear implicits.
