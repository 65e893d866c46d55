(** simple_sensor_simulator, sensor_simulation/lidar/raycaster: the rays of a lidar and its points. *)
From Coq Require Import Reals List Arith.
From Verif Require Import M_Ego M_Quaternion.
Import ListNotations.
Local Open Scope R_scope.

(** raycaster.cpp:88-101, the loop of [getDirections]; [None]: it has not ended after [fuel] rounds. *)
Fixpoint sweep (fuel : nat) (vertical : list R) (horizontal stop resolution : R) : option (list Quat) :=
  match fuel with
  | O => None
  | S fuel' =>
    if Rle_dec horizontal stop then
      let horizontal' := horizontal + resolution in
      match sweep fuel' vertical horizontal' stop resolution with
      | Some rest => Some (map (fun v => from_euler 0 v horizontal') vertical ++ rest)
      | None => None
      end
    else Some []
  end.

(** The members of [Raycaster] (raycaster.hpp:88-95) that [getDirections] keeps. The four previous
    values have no initial value. *)
Record Caster : Set := caster
  { directions : list Quat; was_start : R; was_end : R; was_resolution : R; was_vertical : list R }.

(** raycaster.cpp:76-109, [getDirections]. A vector of angles compares equal if its values do. *)
Definition get_directions (fuel : nat) (c : Caster) (vertical : list R) (start stop resolution : R) :
  option (list Quat * Caster) :=
  if match directions c with
     | [] => true
     | _ =>
       if Req_EM_T (was_start c) start then
         if Req_EM_T (was_end c) stop then
           if Req_EM_T (was_resolution c) resolution then
             if list_eq_dec Req_EM_T (was_vertical c) vertical then false else true
           else true
         else true
       else true
     end
  then
    match sweep fuel vertical start stop resolution with
    | Some d => Some (d, caster d start stop resolution vertical)
    | None => None
    end
  else Some (directions c, c).

Section Scene.
  (** Embree: [hit near far origin direction] is the distance at which a ray meets a geometry of the
      scene first, and the geometry; it is arbitrary. *)
  Variable hit : R -> R -> Vec -> Vec -> option (R * nat).

  Definition scaled (k : R) (v : Vec) : Vec := vec (vec_x v * k) (vec_y v * k) (vec_z v * k).

  (** raycaster.hpp:96-132, [intersect]. Of a matrix (0), (1) and (2) are the first column, the image of
      the longitudinal axis. Simplification: reals, where Embree and the point have floats. *)
  Fixpoint intersect (near far : R) (at_ : Vec) (heading : Quat) (rays : list Quat) : list (Vec * nat) :=
    match rays with
    | [] => []
    | q :: rays' =>
      let direction := rotate q (vec 1 0 0) in
      match hit near far at_ (rotate heading direction) with
      | Some (distance, id) => (scaled distance direction, id) :: intersect near far at_ heading rays'
      | None => intersect near far at_ heading rays'
      end
    end.

  (** raycaster.cpp:115-120: the map of geometries to entities; a later entity replaces an earlier. *)
  Fixpoint entity_of (ids : list nat) (index : nat) (id : nat) : option nat :=
    match ids with
    | [] => None
    | i :: ids' =>
      match entity_of ids' (S index) id with
      | Some e => Some e
      | None => if Nat.eqb i id then Some index else None
      end
    end.

  (** raycaster.cpp:129-135 *)
  Fixpoint owners (ids : list nat) (points : list (Vec * nat)) : list nat :=
    match points with
    | [] => []
    | (_, id) :: points' =>
      match entity_of ids 0 id with
      | Some e => e :: owners ids points'
      | None => owners ids points'
      end
    end.

  (** raycaster.cpp:111-144, [raycast]: the cloud and the entity of each point. [ids] are the
      geometries that the entities were added to the scene as. *)
  Definition raycast (ids : list nat) (near far : R) (at_ : Vec) (heading : Quat) (rays : list Quat) :
    list Vec * list nat :=
    let points := intersect near far at_ heading rays in
    (map fst points, owners ids points).
End Scene.
