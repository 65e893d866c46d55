(** * Model of jobs and job lists.

    Paths are relative to /repo/simulation/traffic_simulator. A job's callbacks act on a world [W]
    (the members of the entity they capture). Simplifications: callbacks do not throw and do not
    append jobs to the list they run in (none in the code base does; it would invalidate the
    iterators, see the warning in src/entity/entity_base.cpp:841-844). *)
From Coq Require Import List Bool Arith ZArith QArith.
Import ListNotations.

(** include/traffic_simulator/job/job.hpp:25-32. *)
Inductive type := Unknown | LinearVelocity | LinearAcceleration | StandStillDuration
                | TraveledDistance | OutOfRange.
Definition type_eqb (a b : type) : bool :=
  match a, b with
  | Unknown, Unknown | LinearVelocity, LinearVelocity | LinearAcceleration, LinearAcceleration
  | StandStillDuration, StandStillDuration | TraveledDistance, TraveledDistance
  | OutOfRange, OutOfRange => true
  | _, _ => false
  end.
(** include/traffic_simulator/job/job.hpp:39-42. *)
Inductive event := PreUpdate | PostUpdate.
Definition event_eqb (a b : event) : bool :=
  match a, b with PreUpdate, PreUpdate | PostUpdate, PostUpdate => true | _, _ => false end.

(** include/traffic_simulator/job/job.hpp:44-75, class Job. *)
Record job (W : Type) :=
  { j_update : Q -> W -> W * bool; j_cleanup : W -> W;
    j_active : bool; j_duration : Q; j_type : type; j_exclusive : bool; j_event : event }.
Arguments j_update {W}. Arguments j_cleanup {W}. Arguments j_active {W}. Arguments j_duration {W}.
Arguments j_type {W}. Arguments j_exclusive {W}. Arguments j_event {W}.

(** What the callbacks see: job number [i] (in order of appending) is updated with an elapsed time
    and answers, or is cleaned up. *)
Inductive call := Updated (i : nat) (elapsed : Q) (answer : bool) | CleanedUp (i : nat).

Section JobList.
Context {W : Type}.

(** src/job/job.cpp:21-32, constructor. *)
Definition make_job (f : Q -> W -> W * bool) (c : W -> W) (t : type) (ex : bool) (e : event) : job W :=
  {| j_update := f; j_cleanup := c; j_active := true; j_duration := 0; j_type := t;
     j_exclusive := ex; j_event := e |}.
Definition with_status (j : job W) (b : bool) : job W :=
  {| j_update := j_update j; j_cleanup := j_cleanup j; j_active := b; j_duration := j_duration j;
     j_type := j_type j; j_exclusive := j_exclusive j; j_event := j_event j |}.
Definition with_duration (j : job W) (d : Q) : job W :=
  {| j_update := j_update j; j_cleanup := j_cleanup j; j_active := j_active j; j_duration := d;
     j_type := j_type j; j_exclusive := j_exclusive j; j_event := j_event j |}.

(** src/job/job.cpp:34-38, inactivate. *)
Definition inactivate (i : nat) (j : job W) (w : W) : job W * W * list call :=
  (with_status j false, j_cleanup j w, [CleanedUp i]).

(** src/job/job.cpp:42-54, onUpdate. *)
Definition on_update (i : nat) (step : Q) (j : job W) (w : W) : job W * W * list call :=
  if j_active j then
    let '(w1, finished) := j_update j (j_duration j) w in
    let '(j2, w2, cs) := if finished then inactivate i j w1 else (j, w1, []) in
    (with_duration j2 (j_duration j2 + step), w2, Updated i (j_duration j) finished :: cs)
  else (j, w, []).

(** src/job/job_list.cpp:26-30, the loop of append; [i] is the position of the first job of [l]. *)
Fixpoint replace (t : type) (ex : bool) (i : nat) (l : list (job W)) (w : W) :
  list (job W) * W * list call :=
  match l with
  | [] => ([], w, [])
  | j :: l' =>
      let '(j1, w1, cs) :=
        if type_eqb (j_type j) t && Bool.eqb (j_exclusive j) ex && j_active j then inactivate i j w
        else (j, w, []) in
      let '(l2, w2, cs') := replace t ex (S i) l' w1 in
      (j1 :: l2, w2, cs ++ cs')
  end.
(** src/job/job_list.cpp:22-32, append. *)
Definition append (f : Q -> W -> W * bool) (c : W -> W) (t : type) (ex : bool) (e : event)
  (l : list (job W)) (w : W) : list (job W) * W * list call :=
  let '(l1, w1, cs) := replace t ex 0 l w in
  (l1 ++ [make_job f c t ex e], w1, cs).

(** src/job/job_list.cpp:34-41, update. *)
Fixpoint update_from (i : nat) (step : Q) (e : event) (l : list (job W)) (w : W) :
  list (job W) * W * list call :=
  match l with
  | [] => ([], w, [])
  | j :: l' =>
      let '(j1, w1, cs) :=
        if event_eqb (j_event j) e then on_update i step j w else (j, w, []) in
      let '(l2, w2, cs') := update_from (S i) step e l' w1 in
      (j1 :: l2, w2, cs ++ cs')
  end.
Definition update (step : Q) (e : event) (l : list (job W)) (w : W) := update_from 0 step e l w.

(** What happens to a job list; the world may also change in between. *)
Inductive op :=
| Append (f : Q -> W -> W * bool) (c : W -> W) (t : type) (ex : bool) (e : event)
| Update (step : Q) (e : event)
| Change (g : W -> W).
Definition exec (o : op) (l : list (job W)) (w : W) : list (job W) * W * list call :=
  match o with
  | Append f c t ex e => append f c t ex e l w
  | Update step e => update step e l w
  | Change g => (l, g w, [])
  end.
(** A history from the empty list; the calls of each operation, oldest first. *)
Fixpoint execs (os : list op) (l : list (job W)) (w : W) : list (job W) * W * list call :=
  match os with
  | [] => (l, w, [])
  | o :: os' =>
      let '(l1, w1, cs) := exec o l w in
      let '(l2, w2, cs') := execs os' l1 w1 in
      (l2, w2, cs ++ cs')
  end.
End JobList.
Arguments op W : clear implicits.
