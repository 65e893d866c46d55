(** Specification of what an entity counts and checks in every frame. *)
From Coq Require Import List Bool ZArith QArith Qabs.
From Verif Require Import M_Npc.
Import ListNotations.
Local Open Scope Q_scope.

(** What is seen of a frame: the entity's speed, acceleration and jerk after it, how long it was, and
    whether the entity is at the end of its road then. *)
Record seen := { v_speed : Q; v_accel : Q; v_jerk : Q; v_step : Q; v_end : bool }.

(** The way gone in all frames, at the speed seen after each of them. *)
Definition way (fs : list seen) : Q := fold_right (fun f s => Qabs (v_speed f) * v_step f + s) 0 fs.
(** How long the entity has not moved: the length of the frames since the last one after which it did. *)
Fixpoint since (moving : seen -> bool) (fs : list seen) : Q :=
  match fs with
  | [] => 0
  | f :: fs' => if existsb moving (f :: fs') then since moving fs' else v_step f + since moving fs'
  end.
Definition moves (f : seen) : bool := qlt epsilon (Qabs (v_speed f)).
(** A value is in its range, up to the tolerance of 0.01. *)
Definition in_range (r : range) (f : seen) : Prop :=
  forall v, let x := match v with Speed => v_speed f | Acceleration => v_accel f | Jerk => v_jerk f end in
  r_low r v <= x + (1 # 100) /\ x - (1 # 100) <= r_high r v.
(** The speed an entity is to take next to arrive together with another: it is to be faster if, going from
    its speed to the one asked for as long as the other needs, it would not get there, and slower if it
    would get further. *)
Definition next_speed (v asked own other other_speed faster slower : Q) (next : Q) : Prop :=
  let time := other / other_speed in
  let reached := (v + asked) / 2 * time in
  (reached < own /\ next == v + faster) \/ (own < reached /\ next == v - slower) \/
  (reached == own /\ next == v).

(** What is seen in a history, oldest frame first. *)
Fixpoint watch {E} (at_end : E -> bool) (k : kind) (os : list (op E)) (l : jobs) (n : npc E) : list seen :=
  match os with
  | [] => []
  | o :: os' =>
      let '(l1, n1, _) := exec at_end k o l n in
      let later := match n_thrown n1 with Some _ => [] | None => watch at_end k os' l1 n1 end in
      match o with
      | Frame step _ =>
          {| v_speed := n_speed n1; v_accel := n_accel n1; v_jerk := n_jerk n1; v_step := step;
             v_end := at_end (n_rest n1) |} :: later
      | _ => later
      end
  end.

(** The entity after each of some frames. *)
Fixpoint states {E} (at_end : E -> bool) (k : kind) (fs : list (Q * (npc E -> drive E))) (l : jobs)
  (n : npc E) : list (npc E) :=
  match fs with
  | [] => []
  | (s, f) :: fs' =>
      let '(l1, n1) := frame at_end k s f l n in n1 :: states at_end k fs' l1 n1
  end.
(** The other has not passed its goal, when seen from there. *)
Definition awaited {E} (m : meeting E) (r : E) : Prop :=
  exists d v, m_other m r = Found (Some d) v /\ 0 <= d.
