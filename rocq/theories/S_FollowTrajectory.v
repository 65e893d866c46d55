(** * What is expected of an entity on a polyline trajectory

    Uses the data types of the model (vertices, trajectories, statuses) but none of its functions,
    except for the answer of the controller, which has its own specification. *)

From Coq Require Import List Bool ZArith QArith Qabs.
From Verif Require Import M_FollowControl M_FollowTrajectory.
Import ListNotations.
Open Scope Q_scope.

(** The simulation time at which a vertex is due, where [b] is the origin of relative times. *)
Definition due {P} (b : option Q) (v : vertex P) : option Q :=
  match arrival v, b with
  | None, _ => None
  | Some t, None => Some t
  | Some t, Some b => Some (b + t)
  end.

(** The first vertex with a time. *)
Definition first_timed {P} (l : list (vertex P)) (v : vertex P) : Prop :=
  exists before after, l = before ++ v :: after /\
    (forall u, In u before -> arrival u = None) /\ arrival v <> None.

(** The entity is at rest, up to the tolerance of the code. *)
Definition at_rest {P H} (s : status P H) : Prop :=
  Qabs (speed s) < local_epsilon /\ Qabs (acceleration s) < local_epsilon.

(** The length of the way from [from] by all vertices of a list. *)
Fixpoint legs {P H} (w : world P H) (from : P) (l : list (vertex P)) : Q :=
  match l with [] => 0 | v :: rest => gap w from (position v) + legs w (position v) rest end.

(** The new speed [v] comes from an answer of the controller, which is asked about the way and the
    time to the first timed vertex, or the last one, of [targets]. *)
Definition new_speed {P H} (w : world P H) (p : settings) (wanted : option Q)
    (t : trajectory P) (s : status P H) (targets : list (vertex P)) (v : Q) : Prop :=
  exists braking aim left distance a,
    accelerate (fuel p) (cast p) (Controller (dyn p) (dt p) braking aim) left distance
      (acceleration s) (speed s) = Value a /\
    v == speed s + a * dt p /\
    (braking = true <-> (forall u, In u (removelast targets) -> arrival u = None)) /\
    ((forall u, In u targets -> arrival u = None) -> left = None /\
       aim = match wanted with Some x => x | None => max_speed (dyn p) end /\
       distance == legs w (place s) targets) /\
    (forall before u after d, targets = before ++ u :: after ->
       (forall x, In x before -> arrival x = None) -> due (base t) u = Some d ->
       aim = max_speed (dyn p) /\ distance == legs w (place s) (before ++ [u]) /\
       exists r, left = Some r /\ (r == d - time s \/ (d == time s /\ r = epsilon))).

(** [target] is passed in this frame: it lies within the distance covered at the mean of the old
    and the new speed, and if it has a time, that time is less than half a frame away. *)
Definition reaches {P H} (w : world P H) (p : settings) (wanted : option Q)
    (t : trajectory P) (s : status P H) (target : vertex P) (rest : list (vertex P)) : Prop :=
  (exists v, new_speed w p wanted t s (target :: rest) v /\
     (gap w (place s) (position target) <= (Qabs (speed s) + Qabs v) / 2 * dt p \/
      gap w (place s) (position target) < local_epsilon)) /\
  (forall d, due (base t) target = Some d -> d - time s < dt p / 2).

(** The trajectory after [target] has been passed. *)
Definition beyond {P} (t : trajectory P) (now : Q) (previous target : vertex P)
    (rest : list (vertex P)) : trajectory P :=
  Trajectory
    (if closed t then target :: rest ++ [previous] else target :: rest)
    match base t with
    | None => None
    | Some b => Some match arrival target with Some _ => now | None => b end
    end
    (closed t) (ignorable t).

(** The vertices passed in one frame, one after the other; the last one of the list is never
    passed. *)
Inductive passing {P H} (w : world P H) (p : settings) (wanted : option Q) (s : status P H)
  : trajectory P -> list (vertex P) -> trajectory P -> Prop :=
| passing_none t : passing w p wanted s t [] t
| passing_one t previous target rest passed t' :
    vertices t = previous :: target :: rest -> rest <> [] ->
    reaches w p wanted t s target rest ->
    passing w p wanted s (beyond t (time s) previous target rest) passed t' ->
    passing w p wanted s t (target :: passed) t'.

(** Frame after frame.  Between two frames the simulator may match the entity's place and heading
    to the lanes, but it keeps its time, speed and acceleration. *)
Definition same_motion {P H} (a b : status P H) : Prop :=
  time a = time b /\ speed a = speed b /\ acceleration a = acceleration b.

Inductive journey {P H} (w : world P H) (p : settings)
  : trajectory P -> status P H -> list (vertex P) -> trajectory P -> status P H -> Prop :=
| journey_start t s : journey w p t s [] t s
| journey_frame t s passed t1 s1 depth wanted t2 s2 s2' more :
    journey w p t s passed t1 s1 ->
    follow depth w p wanted t1 s1 = (t2, Moved s2) ->
    passing w p wanted s1 t1 more t2 ->
    same_motion s2 s2' ->
    journey w p t s (passed ++ more) t2 s2'.

(** Some frames of an entity that is near the last waypoint [target] throughout. *)
Inductive near_end {P H} (w : world P H) (p : settings) (t : trajectory P) (target : vertex P)
  : nat -> status P H -> status P H -> Prop :=
| near_end_start s : near_end w p t target 0 s s
| near_end_frame n s s1 depth wanted s2 s2' :
    near_end w p t target n s s1 ->
    gap w (place s1) (position target) <= remaining_distance_tolerance ->
    follow depth w p wanted t s1 = (t, Moved s2) ->
    same_motion s2 s2' ->
    near_end w p t target (S n) s s2'.

(** Calls of [accomplished] one after the other, each with its own answers of [is_running]: the
    results. *)
Fixpoint calls {A} (is_closed : bool) (actors : list A) (table : list (A * bool))
    (answers : list (A -> bool)) : list bool :=
  match answers with
  | [] => []
  | running :: rest =>
      let '(table, r) := accomplished is_closed actors running table in
      r :: calls is_closed actors table rest
  end.
