(** * Model of one update of all entities.

    "manager" is /repo/simulation/traffic_simulator/src/entity/entity_manager.cpp. What an entity does
    in its update is a parameter; what is modelled is which data it is given. Simplifications: publishing,
    timing and debug output are left out; ordered and unordered maps of statuses and distances are
    association lists read through lookup. *)
From Coq Require Import String.
From Coq Require Import List Bool.
Import ListNotations.
Local Open Scope string_scope.

Section Update.
  (** The internal state of an entity, its status (what others can see), time and distance types. *)
  Context {St Status Time Dist : Type}.
  Variable status_of : St -> Status.
  (** Distance between the map poses of two statuses (math::geometry::getDistance). *)
  Variable distance : Status -> Status -> Dist.
  (** EntityBase::onUpdate and overrides: own state, statuses of the others, distances, time, step. *)
  Variable on_update : string -> St -> (string -> option Status) -> (string -> string -> option Dist) -> Time -> St.
  (** EgoEntity::updateFieldOperatorApplication, for entities that are not started (identity on others). *)
  Variable before_start : string -> St -> St.

  (** Map lookups. *)
  Fixpoint get {A} (n : string) (m : list (string * A)) : option A :=
    match m with [] => None | (k, v) :: m' => if k =? n then Some v else get n m' end.
  Fixpoint set {A} (n : string) (a : A) (m : list (string * A)) : list (string * A) :=
    match m with
    | [] => []
    | (k, v) :: m' => if k =? n then (k, a) :: m' else (k, v) :: set n a m'
    end.

  (** EntityBase: its state and other_status_. *)
  Record entity := { state : St; others : list (string * Status) }.
  Definition entities := list (string * entity).

  (** manager:76-79: all_status. *)
  Definition all_status (m : entities) : list (string * Status) :=
    map (fun p => (fst p, status_of (state (snd p)))) m.
  (** src/entity/entity_base.cpp:569-574, setOtherStatus: copy, then erase the own name. *)
  Definition set_other_status (n : string) (all : list (string * Status)) (e : entity) : entity :=
    {| state := state e; others := filter (fun p => negb (fst p =? n)) all |}.
  (** manager:80-82 and 90-92. *)
  Definition share (all : list (string * Status)) (m : entities) : entities :=
    map (fun p => (fst p, set_other_status (fst p) all (snd p))) m.

  (** manager:367-380, calculateEuclideanDistances: std::minmax of the names is the key; emplaced if
      absent and the names differ. *)
  Definition minmax (a b : string) : string * string :=
    match String.compare b a with Lt => (b, a) | _ => (a, b) end.
  Fixpoint get_pair (k : string * string) (d : list (string * string * Dist)) : option Dist :=
    match d with
    | [] => None
    | (k', v) :: d' => if (fst k' =? fst k) && (snd k' =? snd k) then Some v else get_pair k d'
    end.
  Definition distances_from (from : string * Status) (all : list (string * Status))
    (d : list (string * string * Dist)) : list (string * string * Dist) :=
    fold_left
      (fun d to =>
         let k := minmax (fst from) (fst to) in
         match get_pair k d with
         | Some _ => d
         | None => if fst from =? fst to then d else (k, distance (snd from) (snd to)) :: d
         end) all d.
  Definition distances (all : list (string * Status)) : list (string * string * Dist) :=
    fold_left (fun d from => distances_from from all d) all [].
  (** How it is read (behavior_tree_plugin/src/action_node.cpp, getDistanceToTargetEntity and others):
      by the ordered pair of names. *)
  Definition distance_of (d : list (string * string * Dist)) (a b : string) : option Dist :=
    get_pair (minmax a b) d.

  (** manager:123-140, updateNpcLogic. *)
  Definition update_one (started : bool) (n : string) (t : Time) (d : list (string * string * Dist))
    (m : entities) : entities :=
    match get n m with
    | None => m
    | Some e =>
        let s := if started
                 then on_update n (state e) (fun x => get x (others e)) (distance_of d) t
                 else before_start n (state e) in
        set n {| state := s; others := others e |} m
    end.
  (** manager:66-92, update. *)
  Definition update (started : bool) (t : Time) (m : entities) : entities :=
    let m1 := share (all_status m) m in
    let d := distances (all_status m1) in
    let m2 := fold_left (fun m n => update_one started n t d m) (map fst m1) m1 in
    share (all_status m2) m2.
End Update.
Arguments entity : clear implicits.
Arguments entities : clear implicits.
