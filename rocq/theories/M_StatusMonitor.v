(** * Model of the status monitor

    Models [common/status_monitor/include/status_monitor/status_monitor.hpp] and
    [common/status_monitor/src/status_monitor.cpp].  Times and durations are whole numbers of clock
    ticks; the clock is an input of every operation that reads it. *)

From Coq Require Import ZArith Bool List.
Import ListNotations.
Open Scope Z_scope.

(** ** The statuses of the threads *)

(** Models [Status], status_monitor.hpp 32-62.  The intervals are optional here: [None] stands for
    the initial [duration::max()] and [duration::min()]. *)
Record status : Set := Status {
  last_access : Z;
  minimum : option Z;
  maximum : option Z;
  exited : bool }.

Definition thread := nat.
Definition statuses := list (thread * status).

Fixpoint lookup (t : thread) (m : statuses) : option status :=
  match m with
  | [] => None
  | (u, x) :: r => if Nat.eqb u t then Some x else lookup t r
  end.

Fixpoint replace (t : thread) (x : status) (m : statuses) : statuses :=
  match m with
  | [] => []
  | (u, y) :: r => if Nat.eqb u t then (u, x) :: r else (u, y) :: replace t x r
  end.

Definition min_with (o : option Z) (x : Z) : option Z :=
  Some (match o with None => x | Some y => Z.min y x end).
Definition max_with (o : option Z) (x : Z) : option Z :=
  Some (match o with None => x | Some y => Z.max y x end).

(** Models [touch], status_monitor.hpp 80-105. *)
Definition touch (now : Z) (t : thread) (m : statuses) : statuses :=
  match lookup t m with
  | Some x =>
      let interval := now - last_access x in
      replace t (Status now (min_with (minimum x) interval) (max_with (maximum x) interval)
                        (exited x)) m
  | None => m ++ [(t, Status now None None false)]
  end.

(** Models [mark_as_exited] in the destructor, status_monitor.cpp 64-70. *)
Definition mark_as_exited (t : thread) (m : statuses) : statuses :=
  match lookup t m with
  | Some x => replace t (Status (last_access x) (minimum x) (maximum x) true) m
  | None => m
  end.

(** Models [Status::good], status_monitor.hpp 59. *)
Definition good (now threshold : Z) (x : status) : bool :=
  exited x || (now - last_access x <? threshold).

(** Models the field "good" that [write] puts into the status file, status_monitor.cpp 91-95, 129. *)
Definition all_good (now threshold : Z) (m : statuses) : bool :=
  forallb (fun p => good now threshold (snd p)) m.

Inductive access : Set := Touch (now : Z) (t : thread) | Exit (t : thread).

Definition apply_access (m : statuses) (a : access) : statuses :=
  match a with Touch now t => touch now t m | Exit t => mark_as_exited t m end.

Definition after (h : list access) : statuses := fold_left apply_access h [].

(** ** The threshold *)

(** Operations on the static [threshold]: entering and leaving [overrideThreshold]
    (status_monitor.hpp 107-148; leaving happens also when the thunk raises) and [updateThreshold]
    (status_monitor.cpp 81-85).  Each is atomic: it happens under the mutex. *)
Inductive threshold_op : Set :=
| Enter (t : thread) (value : Z)
| Leave (t : thread)
| Update (value : Z).

(** What each thread has saved in its [ScopedExchanger]s, innermost first. *)
Record thresholds : Type := Thresholds { threshold : Z; saved : thread -> list Z }.

Definition put (t : thread) (l : list Z) (f : thread -> list Z) : thread -> list Z :=
  fun u => if Nat.eqb u t then l else f u.

Definition threshold_step (s : thresholds) (o : threshold_op) : thresholds :=
  match o with
  | Enter t v => Thresholds v (put t (threshold s :: saved s t) (saved s))
  | Leave t =>
      match saved s t with
      | x :: r => Thresholds x (put t r (saved s))
      | [] => s
      end
  | Update v => Thresholds v (saved s)
  end.

Definition thresholds_after (l : list threshold_op) (s : thresholds) : thresholds :=
  fold_left threshold_step l s.

(** ** The end of the monitor *)

(** The watchdog thread, status_monitor.cpp 44-56: it tests the flag, takes the mutex to write,
    releases it, sleeps, and starts over. *)
Inductive watchdog : Set := Testing | WantsMutex | Writing | Sleeping | Finished.

(** The destructor of the last monitor, status_monitor.cpp 60-79: it takes the mutex, marks the
    thread as exited, sets the flag, waits for the watchdog, and returns, releasing the mutex. *)
Inductive destructor : Set := Before | HasMutex | Joining | Returned.

Record ending : Set := Ending {
  wd : watchdog;
  de : destructor;
  terminating : bool;
  locked : bool }.

(** One step of the watchdog; [None] when it cannot move. *)
Definition watchdog_step (s : ending) : option ending :=
  match wd s with
  | Testing => Some (Ending (if terminating s then Finished else WantsMutex) (de s) (terminating s) (locked s))
  | WantsMutex => if locked s then None else Some (Ending Writing (de s) (terminating s) true)
  | Writing => Some (Ending Sleeping (de s) (terminating s) false)
  | Sleeping => Some (Ending Testing (de s) (terminating s) (locked s))
  | Finished => None
  end.

(** One step of the destructor; [None] when it cannot move. *)
Definition destructor_step (s : ending) : option ending :=
  match de s with
  | Before => if locked s then None else Some (Ending (wd s) HasMutex (terminating s) true)
  | HasMutex => Some (Ending (wd s) Joining true (locked s))
  | Joining =>
      match wd s with
      | Finished => Some (Ending Finished Returned false false)
      | _ => None
      end
  | Returned => None
  end.

(** A schedule chooses, step by step, who moves; whoever cannot move stays where it is. *)
Inductive mover : Set := Watchdog | Destructor.

Definition move (s : ending) (w : mover) : ending :=
  match match w with Watchdog => watchdog_step s | Destructor => destructor_step s end with
  | Some s' => s'
  | None => s
  end.

Definition schedule (l : list mover) (s : ending) : ending := fold_left move l s.

(** The monitor while it runs, just before its destructor is called. *)
Definition alive : ending := Ending Testing Before false false.
