(** * Model of the map that is loaded once and of its caches.

    "wrapper.hpp" is /repo/simulation/traffic_simulator/include/traffic_simulator/lanelet_wrapper/
    lanelet_wrapper.hpp, "wrapper.cpp" is ../src/lanelet_wrapper/lanelet_wrapper.cpp beside it.
    Simplifications: numbers are rationals, lanelets integers; a file that is loaded twice gives the same map;
    hash tables are functions from keys. *)
From Coq Require Import String List Bool Arith ZArith QArith.
Import ListNotations.

(** A point of a centerline. *)
Record point := { x : Q; y : Q; z : Q }.
(** data_type/routing_graph_type.hpp. *)
Inductive graph := VehicleGraph | ShoulderGraph | PedestrianGraph.
Definition graph_eqb (a b : graph) : bool :=
  match a, b with
  | VehicleGraph, VehicleGraph | ShoulderGraph, ShoulderGraph | PedestrianGraph, PedestrianGraph => true
  | _, _ => false
  end.

(** What lanelet2 gives for a map; [None] for a lanelet that is not in it (laneletLayer.get throws). A route
    may be absent. *)
Record lanelet_map :=
  { m_route : graph -> Z -> Z -> bool -> option (option (list Z));
    m_centerline : Z -> option (list point);
    m_length : Z -> option Q }.

(** wrapper.hpp:194-214, centerPoints: two points are made three. *)
Definition middle (a b : point) : point :=
  {| x := (x a + x b) * (1 # 2); y := (y a + y b) * (1 # 2); z := (z a + z b) * (1 # 2) |}.
Definition center (l : list point) : list point :=
  match l with [p0; p2] => [p0; middle p0 p2; p2] | _ => l end.

(** wrapper.hpp:143, data_ of RouteCache; :216-217, data_ and splines_ of CenterPointsCache; :260,
    data_ of LaneletLengthCache. A spline is what its constructor made of the points. *)
Record caches (spline : Type) :=
  { c_routes : graph -> Z -> Z -> bool -> option (list Z);
    c_points : Z -> option (list point);
    c_splines : Z -> option spline;
    c_lengths : Z -> option Q }.
Arguments c_routes {spline}. Arguments c_points {spline}. Arguments c_splines {spline}.
Arguments c_lengths {spline}.
(** wrapper.hpp:264-310, the instance of LaneletWrapper. *)
Record loaded (spline : Type) := { i_map : lanelet_map; i_caches : caches spline }.
Arguments i_map {spline}. Arguments i_caches {spline}.
(** lanelet_map_path_ and instance. *)
Record wrapper (spline : Type) := { w_path : string; w_instance : option (loaded spline) }.
Arguments w_path {spline}. Arguments w_instance {spline}.

Section Wrapper.
Variable spline : Type.
(** The constructor of CatmullRomSpline (M_Spline); [None] if it throws. *)
Variable make : list point -> option spline.
(** LaneletLoader::load; [None] if it throws. *)
Variable load : string -> option lanelet_map.

Definition empty : caches spline :=
  {| c_routes := fun _ _ _ _ => None; c_points := fun _ => None; c_splines := fun _ => None;
     c_lengths := fun _ => None |}.
Definition fresh (m : lanelet_map) : loaded spline := {| i_map := m; i_caches := empty |}.

(** wrapper.cpp:23-30. *)
Definition activate (path : string) (w : wrapper spline) : wrapper spline :=
  {| w_path := path; w_instance := None |}.
(** wrapper.cpp:103-116; [None] is an exception, after which there still is no instance. *)
Definition instance (w : wrapper spline) : option (loaded spline) :=
  match w_instance w with
  | Some i => Some i
  | None =>
      if String.eqb (w_path w) "" then None
      else match load (w_path w) with None => None | Some m => Some (fresh m) end
  end.

(** The entries of the tables that are written, [data_[key] = value]. *)
Definition put_route (c : caches spline) (g : graph) (a b : Z) (l : bool) (r : list Z) : caches spline :=
  {| c_routes := fun g' a' b' l' =>
       if graph_eqb g' g && Z.eqb a' a && Z.eqb b' b && Bool.eqb l' l then Some r
       else c_routes c g' a' b' l';
     c_points := c_points c; c_splines := c_splines c; c_lengths := c_lengths c |}.
Definition put_points (c : caches spline) (i : Z) (p : list point) : caches spline :=
  {| c_routes := c_routes c;
     c_points := fun i' => if Z.eqb i' i then Some p else c_points c i';
     c_splines := c_splines c; c_lengths := c_lengths c |}.
Definition put_spline (c : caches spline) (i : Z) (s : spline) : caches spline :=
  {| c_routes := c_routes c; c_points := c_points c;
     c_splines := fun i' => if Z.eqb i' i then Some s else c_splines c i';
     c_lengths := c_lengths c |}.
Definition put_length (c : caches spline) (i : Z) (q : Q) : caches spline :=
  {| c_routes := c_routes c; c_points := c_points c; c_splines := c_splines c;
     c_lengths := fun i' => if Z.eqb i' i then Some q else c_lengths c i' |}.

(** wrapper.hpp:80-106. The result is the answer, [None] for an exception, and the caches. *)
Definition get_route (m : lanelet_map) (c : caches spline) (g : graph) (a b : Z) (l : bool)
  : option (list Z) * caches spline :=
  match c_routes c g a b l with
  | Some r => (Some r, c)
  | None =>
      match m_route m g a b l with
      | None => (None, c)
      | Some r =>
          let c := put_route c g a b l (match r with None => [] | Some r => r end) in
          (c_routes c g a b l, c)
      end
  end.
(** wrapper.hpp:187-192, appendData of CenterPointsCache: the points are written before the spline is
    constructed, so that they stay when the constructor throws. The result says whether it did not. *)
Definition append_points (c : caches spline) (i : Z) (p : list point) : bool * caches spline :=
  let c := put_points c i p in
  match make p with
  | None => (false, c)
  | Some s => (true, put_spline c i s)
  end.
(** wrapper.hpp:150-157 and 159-166: the part they share; whether it does not throw. *)
Definition ensure_points (m : lanelet_map) (c : caches spline) (i : Z) : bool * caches spline :=
  match c_points c i with
  | Some _ => (true, c)
  | None =>
      match m_centerline m i with
      | None => (false, c)
      | Some p => append_points c i (center p)
      end
  end.
Definition get_points (m : lanelet_map) (c : caches spline) (i : Z)
  : option (list point) * caches spline :=
  let '(ok, c) := ensure_points m c i in (if ok then c_points c i else None, c).
Definition get_spline (m : lanelet_map) (c : caches spline) (i : Z)
  : option spline * caches spline :=
  let '(ok, c) := ensure_points m c i in (if ok then c_splines c i else None, c).
(** wrapper.hpp:232-239. *)
Definition get_length (m : lanelet_map) (c : caches spline) (i : Z) : option Q * caches spline :=
  match c_lengths c i with
  | Some q => (Some q, c)
  | None =>
      match m_length m i with
      | None => (None, c)
      | Some q => let c := put_length c i q in (c_lengths c i, c)
      end
  end.

(** ** Histories of calls *)

(** The calls: lanelet_map::activate, route::routeFromGraph (src/lanelet_wrapper/route.cpp:50-59),
    lanelet_map::centerPoints, centerPointsSpline and laneletLength (src/lanelet_wrapper/
    lanelet_map.cpp:187-196 and 45-48). *)
Inductive question := AskRoute (g : graph) (a b : Z) (l : bool) | AskPoints (i : Z) | AskSpline (i : Z)
| AskLength (i : Z).
Inductive answer := Ids (r : list Z) | Points (p : list point) | Curve (s : spline) | Length (q : Q)
| Threw.
Inductive call := Activate (path : string) | Ask (q : question).

Definition answered {A} (f : A -> answer) (o : option A) : answer :=
  match o with None => Threw | Some a => f a end.
Definition query (m : lanelet_map) (c : caches spline) (q : question) : answer * caches spline :=
  match q with
  | AskRoute g a b l => let '(o, c) := get_route m c g a b l in (answered Ids o, c)
  | AskPoints i => let '(o, c) := get_points m c i in (answered Points o, c)
  | AskSpline i => let '(o, c) := get_spline m c i in (answered Curve o, c)
  | AskLength i => let '(o, c) := get_length m c i in (answered Length o, c)
  end.
Definition ask (w : wrapper spline) (q : question) : answer * wrapper spline :=
  match instance w with
  | None => (Threw, w)
  | Some i =>
      let '(a, c) := query (i_map i) (i_caches i) q in
      (a, {| w_path := w_path w; w_instance := Some {| i_map := i_map i; i_caches := c |} |})
  end.
Definition call_once (w : wrapper spline) (c : call) : wrapper spline :=
  match c with Activate p => activate p w | Ask q => snd (ask w q) end.
(** wrapper.hpp:298-299: at first there is no path and no instance. *)
Definition initial : wrapper spline := {| w_path := ""; w_instance := None |}.
Definition calls (h : list call) : wrapper spline := fold_left call_once h initial.
End Wrapper.
Arguments Ids {spline}. Arguments Points {spline}. Arguments Curve {spline}. Arguments Length {spline}.
Arguments Threw {spline}.

(** ** Threads *)

(** One cache with the values [f] of the map; every access to the table is one step, guarded by the mutex
    of the cache (wrapper.hpp:121-141, 169-192, 242-258). [by_reference] is true for
    getCenterPoints, whose readData returns a reference to the entry (:175-179): the caller copies it after
    the mutex was released. *)
Section Threads.
Variable key value : Type.
Variable key_dec : forall a b : key, {a = b} + {a <> b}.
Variable f : key -> option value.
Variable by_reference : bool.

(** Where a thread is in a call: before getInstance; then, with the instance it was given,
    before exists, computing the value, before appendData, before readData, or copying what the
    reference refers to; finished; or after undefined behaviour. *)
Inductive stage :=
| Begin (k : key) | Check (g : nat) (k : key) | Compute (g : nat) (k : key)
| Append (g : nat) (k : key) (v : value) | Fetch (g : nat) (k : key) | Copy (g : nat) (k : key)
| Finished (k : key) (v : option value) | Broken.
(** The number of the instance, its table, and the threads. *)
Record system := { s_instance : nat; s_table : key -> option value; s_threads : nat -> stage }.
(** A step of a thread, or activate: the instance is destroyed and the next call makes a new one
    (wrapper.cpp:23-30). *)
Inductive event := Step (thread : nat) | Replace.

Definition set_table (t : key -> option value) (k : key) (v : value) : key -> option value :=
  fun k' => if key_dec k' k then Some v else t k'.
Definition set_stage (t : nat -> stage) (n : nat) (p : stage) : nat -> stage :=
  fun n' => if Nat.eqb n' n then p else t n'.
(** A step of one thread: its next stage and the table. A step on an instance that was destroyed is
    undefined; to compute the value takes only the map, which is shared. *)
Definition move (now : nat) (t : key -> option value) (p : stage) : stage * (key -> option value) :=
  let on g (r : stage * (key -> option value)) := if Nat.eqb g now then r else (Broken, t) in
  match p with
  | Begin k => (Check now k, t)
  | Check g k => on g (match t k with Some _ => Fetch g k | None => Compute g k end, t)
  | Compute g k => (match f k with Some v => Append g k v | None => Finished k None end, t)
  | Append g k v => on g (Fetch g k, set_table t k v)
  | Fetch g k =>
      on g (if by_reference
            then match t k with Some _ => Copy g k | None => Finished k None end
            else Finished k (t k), t)
  | Copy g k => on g (Finished k (t k), t)
  | Finished k v => (Finished k v, t)
  | Broken => (Broken, t)
  end.
Definition step (s : system) (e : event) : system :=
  match e with
  | Step n =>
      let '(p, t) := move (s_instance s) (s_table s) (s_threads s n) in
      {| s_instance := s_instance s; s_table := t; s_threads := set_stage (s_threads s) n p |}
  | Replace =>
      {| s_instance := S (s_instance s); s_table := fun _ => None; s_threads := s_threads s |}
  end.
(** Any number of threads that are about to ask, and the table empty. *)
Definition starting (asked : nat -> key) : system :=
  {| s_instance := 0; s_table := fun _ => None; s_threads := fun n => Begin (asked n) |}.
Definition run (asked : nat -> key) (schedule : list event) : system :=
  fold_left step schedule (starting asked).
(** A data race: one thread may write the entry that another one is copying. *)
Definition race (s : system) : Prop :=
  exists n n' g k v, n <> n' /\ s_threads s n = Append g k v /\ s_threads s n' = Copy g k.
End Threads.
Arguments Begin {key value}. Arguments Check {key value}. Arguments Compute {key value}.
Arguments Append {key value}. Arguments Fetch {key value}. Arguments Copy {key value}.
Arguments Finished {key value}. Arguments Broken {key value}.
Arguments s_threads {key value}. Arguments s_table {key value}. Arguments s_instance {key value}.
