(** Distances to what an entity may have to stop for:
    simulation/traffic_simulator/src/lanelet_wrapper/distance.cpp ("lanelet"), src/utils/distance.cpp
    ("utils"), src/lanelet_wrapper/lanelet_map.cpp, src/lanelet_wrapper/traffic_lights.cpp and
    src/traffic_lights/traffic_lights_base.cpp. Numbers are real (simplification: no rounding, no NaN).
    Where a spline crosses a line is given by a function (it is the subject of M_Spline.v), and so are
    routes and distances along lanes (M_Lane.v). *)
From Coq Require Import List Bool ZArith Reals.
Import ListNotations.
Local Open Scope list_scope.
Local Open Scope R_scope.

(** lanelet:150-152, 226-228 and utils:389-393, 447-451: keep the smaller of the two *)
Definition nearer (best d : option R) : option R :=
  match d with
  | None => best
  | Some x =>
      match best with
      | None => Some x
      | Some y => if Rlt_dec x y then Some x else Some y
      end
  end.
Definition nearest (l : list (option R)) : option R := fold_left nearer l None.

Section Lines.
Context {Line : Type}.
(** CatmullRomSpline::getCollisionPointIn2D: where along the spline it first crosses the line *)
Variable collide : Line -> option R.

(** A traffic sign: whether its type is "stop_sign", and its reference lines *)
Record Sign := { is_stop : bool; ref_lines : list Line }.

(** lanelet_map.cpp:398-410 trafficSignsOnPath and 437-447 stopLinesOnPath *)
Definition stop_lines_on_path (signs : Z -> list Sign) (route : list Z) : list Line :=
  flat_map (fun s => if is_stop s then ref_lines s else []) (flat_map signs route).

(** lanelet:139-158, distanceToStopLine along a route; [length] is that of the spline *)
Definition distance_to_stop_line (length : R) (signs : Z -> list Sign) (route : list Z) : option R :=
  if Rle_dec length 0 then None else nearest (map collide (stop_lines_on_path signs route)).

(** A regulatory element of traffic lights: the ids of the lights of its bulbs, and the stop line *)
Record Element := { lights : list Z; stop_line : option Line }.

(** traffic_lights.cpp:70-97 and 177-193: the stop lines of all elements of the map that have bulbs of
    the light; an element without a stop line gives a line without points. [None]: an exception *)
Definition light_stop_lines (elements : list Element) (light : Z) : option (list (option Line)) :=
  match filter (fun e => existsb (Z.eqb light) (lights e)) elements with
  | [] => None
  | l => Some (map stop_line l)
  end.
(** hermite_curve.cpp:91-94: a line without points is not crossed *)
Definition collide_line (l : option Line) : option R := match l with Some l => collide l | None => None end.

(** lanelet:191-196, the first that is crossed *)
Fixpoint first_crossed (l : list (option Line)) : option R :=
  match l with
  | [] => None
  | x :: l' => match collide_line x with Some d => Some d | None => first_crossed l' end
  end.

Inductive Answer := Throws | Answers (d : option R).

(** lanelet:183-198, distanceToTrafficLightStopLine of one light *)
Definition distance_to_light (length : R) (elements : list Element) (light : Z) : Answer :=
  if Rle_dec length 0 then Answers None
  else match light_stop_lines elements light with
       | None => Throws
       | Some l => Answers (first_crossed l)
       end.

(** traffic_lights.cpp:216-245; [on] are the elements of a lanelet *)
Definition lights_on_path (on : Z -> list Element) (route : list Z) : list Z :=
  flat_map lights (flat_map on route).

(** lanelet:223-231 and traffic_lights_base.cpp:182-193; the loop over the lights *)
Fixpoint over_lights (length : R) (elements : list Element) (l : list Z) (best : option R) : Answer :=
  match l with
  | [] => Answers best
  | light :: l' =>
      match distance_to_light length elements light with
      | Throws => Throws
      | Answers d => over_lights length elements l' (nearer best d)
      end
  end.
(** lanelet:211-234, distanceToTrafficLightStopLine along a route *)
Definition distance_to_lights (length : R) (elements : list Element) (on : Z -> list Element) (route : list Z) : Answer :=
  over_lights length elements (lights_on_path on route) None.
(** traffic_lights_base.cpp:173-195, only the lights that ask to stop *)
Definition distance_to_active_lights (length : R) (elements : list Element) (on : Z -> list Element)
    (stops : Z -> bool) (route : list Z) : Answer :=
  over_lights length elements (filter stops (lights_on_path on route)) None.
End Lines.
Arguments Sign : clear implicits.
Arguments Element : clear implicits.

(** *** Giving way *)
(** lanelet_map.cpp:339-352; [regulations] are the lanelets with right of way in each regulation *)
Definition right_of_way_lanelets (regulations : Z -> list (list Z)) (l : Z) : list Z :=
  filter (fun r => negb (Z.eqb r l)) (concat (regulations l)).

(** utils:396-414, what one lanelet adds; [forward] and [backward] are the distances to its start and from it *)
Definition yield_on (forward backward : Z -> option R) (others : list Z) (l : Z) (rights : list Z) : option R :=
  fold_left (fun best r =>
    if existsb (Z.eqb r) others then
      match forward l with
      | Some d => nearer best (Some d)
      | None => match backward l with Some d => nearer best (Some (- d)) | None => best end
      end
    else best) rights None.
(** utils:376-420, distanceToYieldStop; [others] are the lanelets the others are on *)
Fixpoint distance_to_yield_stop (forward backward : Z -> option R) (regulations : Z -> list (list Z))
    (others following : list Z) : option R :=
  match following with
  | [] => None
  | l :: following' =>
      match yield_on forward backward others l (right_of_way_lanelets regulations l) with
      | Some d => Some d
      | None => distance_to_yield_stop forward backward regulations others following'
      end
  end.

(** *** Bounding boxes along and across lanes *)
(** A box, seen along one axis: the coordinates of its ends from the reference point of the entity
    (common/math/geometry/src/bounding_box.cpp:251-263: front and rear, or left and right) *)
Record Span := { high : R; low : R }.
Definition span (centre size : R) : Span := {| high := centre + size * (1 / 2); low := centre - size * (1 / 2) |}.

(** utils:185-206, boundingBoxLaneLongitudinalDistance *)
Definition box_longitudinal (d : option R) (from to : Span) : option R :=
  match d with
  | None => None
  | Some x =>
      Some (x + if Rlt_dec 0 x then - Rabs (high from) - Rabs (low to)
                else if Rlt_dec x 0 then Rabs (low from) + Rabs (high to) else 0)
  end.
(** utils:130-155, boundingBoxLaneLateralDistance; left is [high] *)
Definition box_lateral (d : option R) (from to : Span) : option R :=
  match d with
  | None => None
  | Some x =>
      Some (x + if Rlt_dec 0 x then - Rabs (low from) - Rabs (high to)
                else if Rlt_dec x 0 then Rabs (high from) + Rabs (low to) else 0)
  end.

(** lanelet:27-64, lateralDistance: [offset a b] is the offset of the start of lanelet [b] from the
    centre line of lanelet [a], if it can be found (toLaneletPose) *)
Fixpoint lateral_changes (next : Z -> list Z) (offset : Z -> Z -> option R) (route : list Z) (sum : R) : option R :=
  match route with
  | a :: ((b :: _) as r) =>
      if existsb (Z.eqb b) (next a) then lateral_changes next offset r sum
      else match offset a b with
           | Some x => lateral_changes next offset r (sum + x)
           | None => match offset b a with
                     | Some x => lateral_changes next offset r (sum - x)
                     | None => None
                     end
           end
  | _ => Some sum
  end.
Definition lateral_distance (next : Z -> list Z) (offset : Z -> Z -> option R) (allow_lane_change : bool)
    (route : list Z) (from_offset to_offset : R) : option R :=
  match route with
  | [] => None
  | _ => if negb allow_lane_change then Some (to_offset - from_offset)
         else match lateral_changes next offset route 0 with
              | None => None
              | Some x => Some (to_offset - from_offset + x)
              end
  end.

(** *** Distance of a box from a spline *)
Definition Point := (R * R)%type.
Definition squared (p q : Point) : R := (fst p - fst q) * (fst p - fst q) + (snd p - snd q) * (snd p - snd q).
(** utils:489 *)
Definition accuracy : R := 5 / 100.
(** utils:499-514, the search for one corner; [f] is the squared distance from the point of the spline
    at [s]. Fuel: a loop that is not finished gives nothing. *)
Fixpoint bisect (fuel : nat) (f : R -> R) (a b fa fb : R) : option R :=
  match fuel with
  | O => None
  | S fuel' =>
      if Rlt_dec accuracy (Rabs (a - b)) then
        let m := a + (b - a) / 2 in
        if Rlt_dec fb fa then bisect fuel' f m b (f m) fb else bisect fuel' f a m fa (f m)
      else Some (Rmin fa fb)
  end.
(** utils:480-520, distanceToSpline; the corners in the order of getPointsFromBbox, seen from above
    (simplification: the box is level, so that its diagonal is seen in full) *)
Definition corner_distance (fuel : nat) (curve : R -> Point) (reference diagonal : R) (p : Point) : option R :=
  let f := fun s => squared p (curve s) in
  let a := reference - diagonal / 2 in
  let b := reference + diagonal / 2 in
  bisect fuel f a b (f a) (f b).
Definition distance_to_spline (fuel : nat) (curve : R -> Point) (reference : R) (p0 p1 p2 p3 : Point) : option R :=
  let diagonal := sqrt (squared p0 p2) in
  match corner_distance fuel curve reference diagonal p0, corner_distance fuel curve reference diagonal p1,
        corner_distance fuel curve reference diagonal p2, corner_distance fuel curve reference diagonal p3 with
  | Some d0, Some d1, Some d2, Some d3 => Some (sqrt (Rmin (Rmin (Rmin d0 d1) d2) d3))
  | _, _, _, _ => None
  end.

(** *** Entities on the way *)
(** What is known of another entity relative to the entity and its spline: the altitude, whether a pose
    can be found that is on a route (pose.cpp:385-437), the distance along the lanes to it, its box, the
    distance of its box from the spline, whether the spline crosses its box between two values of [s],
    and the diagonal of its box *)
Record Target := {
  altitude : R; routable : bool; along : option R; body : Span;
  aside : R; crossed : R -> R -> bool; diagonal : R
}.
(** utils:208-275, splineDistanceToBoundingBox; a negative [threshold] stands for half the width.
    lanelet_wrapper/pose.cpp:74-79 for the altitudes. *)
Definition spline_distance (lowest highest : R) (from : Span) (length width threshold : R) (t : Target) : option R :=
  if Rle_dec (lowest - 1) (altitude t) then
    if Rle_dec (altitude t) (highest + 1) then
      if routable t then
        match box_longitudinal (along t) from (body t) with
        | None => None
        | Some b =>
            if Rlt_dec b 0 then None
            else
              let d := b + length / 2 in
              if Rle_dec (aside t) (if Rlt_dec threshold 0 then width / 2 else threshold) then Some d
              else if crossed t b (d + diagonal t) then Some d
              else None
        end
      else None
    else None
  else None.

(** Another entity: the lanelet it is on, if any, and what it is for the spline *)
Record Other := { on_lanelet : option Z; target : Target }.
Definition is_on (ids : list Z) (o : Other) : bool :=
  match on_lanelet o with Some l => existsb (Z.eqb l) ids | None => false end.
(** utils:422-478, distanceToNearestConflictingPose; [crosswalk] is the distance to a crosswalk *)
Definition nearest_conflict (in_lanelet : bool) (crosswalks lanes : list Z) (crosswalk : Z -> option R)
    (lowest highest : R) (from : Span) (length width : R) (others : list Other) : option R :=
  if in_lanelet then
    nearest
      (map (fun o => match on_lanelet o with Some l => crosswalk l | None => None end) (filter (is_on crosswalks) others)
       ++ map (fun o => spline_distance lowest highest from length width (-1) (target o)) (filter (is_on lanes) others))
  else None.
