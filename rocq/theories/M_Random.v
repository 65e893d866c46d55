(** test_runner/random_test_runner: what it counts as a failure, and the tests it makes up. *)
From Coq Require Import Reals List Arith ZArith.
Import ListNotations.
Local Open Scope R_scope.

(** *** metrics/ego_collision_metric.hpp *)
(** [npc_last_collision_type_map_]; entities are numbers *)
Definition Collisions := list (nat * R).

(** 38-48, [timeoutCollisions] *)
Definition time_out (c : Collisions) (now : R) : Collisions :=
  filter (fun e => if Rlt_dec (1 / 2) (now - snd e) then false else true) c.

Fixpoint known (npc : nat) (c : Collisions) : bool :=
  match c with
  | [] => false
  | (n, _) :: c' => if Nat.eqb n npc then true else known npc c'
  end.
Definition put (npc : nat) (now : R) (c : Collisions) : Collisions :=
  (npc, now) :: filter (fun e => negb (Nat.eqb (fst e) npc)) c.

(** 23-34, [isThereEgosCollisionWith] *)
Definition collided (c : Collisions) (npc : nat) (now : R) : bool * Collisions :=
  let c' := time_out c now in
  (negb (known npc c'), put npc now c').

(** *** metrics/almost_standstill_metric.hpp:25-61 *)
Record Standstill : Set := standstill { counted : R; last_time : option R }.
Definition no_standstill : Standstill := standstill 0 None.

(** 28-51, [isAlmostStandingStill]; of the last status only the time is used *)
Definition standing (s : Standstill) (time speed : R) : bool * Standstill :=
  match last_time s with
  | None => (false, standstill (counted s) (Some time))
  | Some last =>
    if Rlt_dec 2 (time - last) then (false, standstill (counted s) None)
    else
      let counted' := if Rlt_dec speed (1 / 100) then counted s + (time - last) else 0 in
      (if Rlt_dec 10 counted' then true else false, standstill counted' (Some time))
  end.

(** *** test_executor.hpp, [TestExecutor::update] *)
Inductive Report : Set := Timeout | Collision (npc : nat) | StandStill | Exception.
Inductive Raised : Set := AutowareError | SimulatorError | RuntimeError | OtherError.

(** What [update] asks of the API in a frame: the time, NaN before the start; whether the ego is within
    3 metres of the goal (goal_reached_metric.hpp:29-44); the entities of the description that exist and
    touch it; its time and speed by its status; what [updateFrame] throws. *)
Record Frame : Set := frame
  { now : option R; at_goal : bool; touching : list nat; status_time : R; speed : R; raised : option Raised }.

Record Executor : Set := executor
  { collisions : Collisions; still : Standstill; completed : bool; reports : list Report }.
Definition fresh : Executor := executor [] no_standstill false [].

(** test_executor.hpp:204-213, the loop over the entities. With a time that is NaN no entry would be
    timed out; this is left out, [time] is a number. *)
Fixpoint collide (c : Collisions) (time : R) (npcs : list nat) : list Report * Collisions :=
  match npcs with
  | [] => ([], c)
  | npc :: npcs' =>
    let (new, c') := collided c npc time in
    let (r, c'') := collide c' time npcs' in
    (if new then Collision npc :: r else r, c'')
  end.

(** test_executor.hpp:256-281, [executeWithErrorHandling] *)
Definition handled (e : Executor) (r : option Raised) : Executor :=
  match r with
  | None => e
  | Some (AutowareError | SimulatorError) =>
    executor (collisions e) (still e) true (reports e ++ [Exception])
  | Some (RuntimeError | OtherError) => executor (collisions e) (still e) true (reports e)
  end.

(** test_executor.hpp:170-230. Before the start the time is NaN; then nothing touches the ego, as no
    entity moves: collisions are looked at in frames with a time. *)
Definition update (timeout : R) (e : Executor) (f : Frame) : Executor :=
  let completed1 :=
    match now f with Some _ => if at_goal f then true else completed e | None => completed e end in
  match (match now f with Some t => if Rle_dec timeout t then true else false | None => false end) with
  | true =>
    executor (collisions e) (still e) true (reports e ++ (if at_goal f then [] else [Timeout]))
  | false =>
    let (r, c) := match now f with Some t => collide (collisions e) t (touching f)
                                 | None => ([], collisions e) end in
    let (stands, s) := standing (still e) (status_time f) (speed f) in
    let e' :=
      executor c s (if stands then true else completed1)
        (reports e ++ r ++ (if stands then if at_goal f then [] else [StandStill] else [])) in
    handled e' (raised f)
  end.

(** *** lanelet_utils.cpp:145-291, [getLanesWithinDistance] *)
Inductive Direction : Set := Forward | Backward.
Record Item : Set := item
  { lane : nat; min_remaining : R; max_remaining : R; pose_s : R; direction : Direction }.
Record Part : Set := part { part_lane : nat; start_s : R; end_s : R }.

Section Lanes.
  (** Of the map: lengths, and the lanelets that follow or precede a lanelet *)
  Variable len : nat -> R.
  Variables following previous : nat -> list nat.

  (** 221-279: one round of the loop *)
  Definition explore (i : Item) : list Item * list Part :=
    let l := len (lane i) in
    match direction i with
    | Forward =>
      let a := pose_s i + min_remaining i in
      let b := pose_s i + max_remaining i in
      let beyond := if Rlt_dec l b then true else false in
      let rest := l - pose_s i in
      (if beyond
       then map (fun n => item n (Rmax 0 (min_remaining i - rest)) (Rmax 0 (max_remaining i - rest)) 0 Forward)
                (following (lane i))
       else [],
       if Rlt_dec a l then [part (lane i) a (if beyond then l else b)] else [])
    | Backward =>
      let a := pose_s i - max_remaining i in
      let b := pose_s i - min_remaining i in
      let beyond := if Rlt_dec a 0 then true else false in
      let rest := pose_s i in
      (if beyond
       then map (fun n => item n (Rmax 0 (min_remaining i - rest)) (Rmax 0 (max_remaining i - rest)) (len n) Backward)
                (previous (lane i))
       else [],
       if Rlt_dec 0 b then [part (lane i) (if beyond then 0 else a) b] else [])
    end.

  (** 220-281; [None]: the queue is not empty after [fuel] rounds. The parts are sorted by lanelet
      afterwards (a multimap); here they are in the order in which they are found. *)
  Fixpoint search (fuel : nat) (queue : list Item) : option (list Part) :=
    match queue with
    | [] => Some []
    | i :: queue' =>
      match fuel with
      | O => None
      | S fuel' =>
        let (more, parts) := explore i in
        match search fuel' (queue' ++ more) with
        | Some rest => Some (parts ++ rest)
        | None => None
        end
      end
    end.

  (** 183-218. [opposite] is the pose that [getOppositeLaneLet] finds, [besides] the lanelets beside the
      first, without it. The pose on these has the s of the pose on the first. *)
  Definition both (l : nat) (s lo hi : R) : list Item := [item l lo hi s Forward; item l lo hi s Backward].
  Definition lanes_within (fuel : nat) (l : nat) (s : R) (opposite : option (nat * R)) (besides : list nat)
    (lo hi : R) : option (list Part) :=
    if Rlt_dec hi lo then None
    else
      search fuel
        (both l s lo hi ++
         match opposite with Some (l', s') => both l' s' lo hi | None => [] end ++
         flat_map (fun l' => both l' s lo hi) besides).
End Lanes.

(** *** test_randomizer.cpp *)
Definition Pose : Set := nat * R.

Section Randomizer.
  (** The distance between two poses in the map, and the route between two lanelets *)
  Variable distance : Pose -> Pose -> R.
  Variable route : nat -> nat -> list nat.
  Variable opposite : Pose -> option Pose.

  (** The deviates: [pick k n] is a number below n, [share k] one in [0, 1); they are arbitrary. *)
  Variable pick : nat -> nat -> nat.
  Variable share : nat -> R.

  (** 139-142 and 150-160, [generatePoseFromLanelets], with the k-th deviates *)
  Definition pose_in (parts : list Part) (k : nat) : option Pose :=
    match nth_error parts (pick k (length parts)) with
    | Some p => Some (part_lane p, start_s p + (end_s p - start_s p) * share k)
    | None => None
    end.

  (** 108-115: the minimum of the distances; [None] is the initial [max()] *)
  Fixpoint nearest (poses : list Pose) (p : Pose) : option R :=
    match poses with
    | [] => None
    | q :: poses' =>
      match nearest poses' p with
      | Some d => Some (Rmin (distance q p) d)
      | None => Some (distance q p)
      end
    end.

  (** 98-122, with what is left of the 100 attempts; [None]: thrown *)
  Fixpoint apart_from (attempts k : nat) (poses : list Pose) (gap : R) (parts : list Part) :
    option (Pose * nat) :=
    match attempts with
    | O => None
    | S attempts' =>
      match pose_in parts k with
      | None => None
      | Some p =>
        match nearest poses p with
        | None => Some (p, S k)
        | Some d => if Rlt_dec gap d then Some (p, S k) else apart_from attempts' (S k) poses gap parts
        end
      end
    end.

  (** 58-64: the entities; each gets a number for its name. [fast k] is its speed. *)
  Fixpoint npcs (count id k : nat) (poses : list Pose) (fast : nat -> R) (parts : list Part) :
    option (list (nat * Pose * R)) :=
    match count with
    | O => Some []
    | S count' =>
      match apart_from 100 k poses 5 parts with
      | None => None
      | Some (p, k') =>
        match npcs count' (S id) k' (poses ++ [p]) fast parts with
        | Some rest => Some ((id, p, fast id) :: rest)
        | None => None
        end
      end
    end.

  (** 125-137, [isFeasibleRoute] *)
  Definition some_route (a b : nat) : bool := match route a b with [] => false | _ => true end.
  Definition feasible (start goal : Pose) : bool :=
    if andb (Nat.eqb (fst start) (fst goal)) (if Rlt_dec (snd start) (snd goal) then true else false) then true
    else orb (some_route (fst start) (fst goal))
             (match opposite goal with Some o => some_route (fst start) (fst o) | None => false end).
End Randomizer.

(** 67-96, [generateEgoRoute], with what is left of the 100 attempts: the k-th goal made up, or the goal
    given, and the k-th start. *)
Fixpoint ego_route (ok : Pose -> Pose -> bool) (attempts k : nat) (start goal : nat -> Pose) :
  option (Pose * Pose) :=
  match attempts with
  | O => None
  | S attempts' =>
    if ok (start k) (goal k) then Some (start k, goal k) else ego_route ok attempts' (S k) start goal
  end.
