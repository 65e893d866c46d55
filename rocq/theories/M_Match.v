(** * Model of matching a pose on the map to a lane.

    Paths are relative to /repo/simulation/traffic_simulator/src; "wrapper" is lanelet_wrapper/pose.cpp,
    "pose" is utils/pose.cpp. Simplifications: numbers are reals; of an orientation only the yaw is kept;
    the geometry (the projection of a pose onto a centre line, the distances of lanelets to a point and
    lanelet2's matching of a box) is arbitrary. *)
From Coq Require Import String List Bool Arith ZArith Reals.
Import ListNotations.
Local Open Scope R_scope.

(** LaneletPose. *)
Record lane_pose := { id : Z; s : R; offset : R; yaw : R }.
(** What CatmullRomSpline gives for a pose and a centre line: the position along it (getSValue), the height
    there, the yaw of the pose relative to it, the distance in the plane and on which side
    (the inner product with the normal vector, positive on the left). *)
Record foot := { f_s : R; f_height : R; f_yaw : R; f_gap : R; f_side : R }.

(** Comparisons. *)
Definition le (a b : R) : bool := if Rle_dec a b then true else false.
Definition lt (a b : R) : bool := if Rlt_dec a b then true else false.
Definition same (a b : R) : bool := if Req_EM_T a b then true else false.

Section Pose.
(** The pose: its height; its projection onto the centre line of a lanelet, if one is within the matching
    distance; all lanelets with their distances, nearest first; the lanelets that its box touches or that are
    within the distance (getDeterministicMatches). *)
Variable altitude : R.
Variable project : Z -> R -> option foot.
Variable ranked : list (R * Z).
Variable touched : R -> list Z.
(** The map: the attribute subtype, and whether the traffic rules let a vehicle pass
    (removeNonRuleCompliantMatches). *)
Variable subtype : Z -> option string.
Variable passable : Z -> bool.
Variable previous next : Z -> list Z.
Variable length : Z -> R.

(** wrapper:81-120, toLaneletPose for one lanelet. *)
Definition on_lane (distance : R) (l : Z) : option lane_pose :=
  match project l distance with
  | None => None
  | Some t =>
      if negb (le (Rabs (altitude - f_height t)) 1) then None
      else if lt (PI * 45 / 180) (Rabs (f_yaw t)) && lt (Rabs (f_yaw t)) (PI - PI * 45 / 180) then None
      else Some {| id := l; s := f_s t;
                   offset := if lt (f_side t) 0 then f_gap t * -1 else f_gap t; yaw := f_yaw t |}
  end.
(** wrapper:122-133, for several. *)
Fixpoint first_on (distance : R) (ls : list Z) : option lane_pose :=
  match ls with
  | [] => None
  | l :: ls => match on_lane distance l with Some p => Some p | None => first_on distance ls end
  end.

(** lanelet_wrapper/lanelet_map.cpp:119-166, nearbyLaneletIds. *)
Definition beyond (threshold : R) (l : list (R * Z)) : bool :=
  match l with [] => true | (d, _) :: _ => lt threshold d end.
Definition not_crosswalk (p : R * Z) : bool :=
  match subtype (snd p) with None => false | Some t => negb (String.eqb t "crosswalk") end.
Definition nearby (threshold : R) (crosswalks : bool) (count : nat) : list Z :=
  let nearest := firstn count ranked in
  if beyond threshold nearest then []
  else
    let nearest := if crosswalks then nearest else filter not_crosswalk nearest in
    if beyond threshold nearest then []
    else map snd (filter (fun p => le (fst p) threshold) nearest).
(** wrapper:135-146, toLaneletPose for a position. *)
Definition by_position (crosswalks : bool) (distance : R) : option lane_pose :=
  first_on distance (nearby (1 / 10) crosswalks 5).

(** [std::set] of pairs, in increasing order. *)
Definition pair_lt (a b : R * Z) : bool :=
  lt (fst a) (fst b) || (negb (lt (fst b) (fst a)) && Z.ltb (snd a) (snd b)).
Fixpoint insert (a : R * Z) (l : list (R * Z)) : list (R * Z) :=
  match l with
  | [] => [a]
  | b :: l' => if pair_lt a b then a :: l else if pair_lt b a then b :: insert a l' else l
  end.
Definition as_set (l : list (R * Z)) : list (R * Z) := fold_left (fun s a => insert a s) l [].
(** wrapper:402-449, findMatchingLanes; no set is empty. *)
Definition matching (crosswalks : bool) (distance : R) : list (R * Z) :=
  let matches := if crosswalks then touched distance else filter passable (touched distance) in
  as_set
    (flat_map (fun l => match on_lane distance l with Some p => [(offset p, id p)] | None => [] end) matches).
(** wrapper:451-468, matchToLane. *)
Definition match_box (crosswalks : bool) (distance : R) : option Z :=
  match as_set (map (fun p => (Rabs (fst p), snd p)) (matching crosswalks distance)) with
  | [] => None
  | (_, l) :: _ => Some l
  end.
(** wrapper:148-182, toLaneletPose for a box. *)
Definition by_box (crosswalks : bool) (distance : R) : option lane_pose :=
  match match_box crosswalks distance with
  | None => by_position crosswalks distance
  | Some l =>
      match on_lane distance l with
      | Some p => Some p
      | None =>
          match first_on distance (previous l) with
          | Some p => Some p
          | None =>
              match first_on distance (next l) with
              | Some p => Some p
              | None => by_position crosswalks distance
              end
          end
      end
  end.
(** pose:147-163: the lanelets of the route come first. *)
Definition by_route (route : list Z) (crosswalks : bool) (distance : R) : option lane_pose :=
  match first_on distance route with
  | Some p => Some p
  | None => by_box crosswalks distance
  end.

(** lanelet_wrapper/pose.cpp, canonicalizeLaneletPose (M_Lane models it): the pose within its lanelet, or
    the lanelet where the road ends. *)
Variable canonicalize : lane_pose -> option lane_pose * option Z.
(** pose:104-116: the pose that is zero in everything is no pose; otherwise what the constructor of
    CanonicalizedLaneletPose makes of it. *)
Definition zero (p : lane_pose) : bool :=
  Z.eqb (id p) 0 && same (s p) 0 && same (offset p) 0 && same (yaw p) 0.
Definition to_canonical (p : lane_pose) : option lane_pose :=
  if zero p then None else fst (canonicalize p).
(** pose:147-167. *)
Definition canonical_by_route (route : list Z) (crosswalks : bool) (distance : R) : option lane_pose :=
  match by_route route crosswalks distance with None => None | Some p => to_canonical p end.

(** pose:446-494, for pedestrians. *)
Inductive outcome := Found (p : lane_pose) | Missing | Failed.
Definition pedestrian (route : list Z) (crosswalks : bool) (distance : R) : outcome :=
  match canonical_by_route route crosswalks distance with
  | Some p => Found p
  | None =>
      match by_position crosswalks 2 with
      | None => Missing
      | Some p =>
          match canonicalize p with
          | (Some _, _) => match to_canonical p with Some p => Found p | None => Missing end
          | (None, Some e) =>
              Found {| id := e; s := if lt (s p) 0 then 0 else length e; offset := offset p; yaw := yaw p |}
          | (None, None) => Failed
          end
      end
  end.

(** pose:385-437, findRoutableAlternativeLaneletPoseFrom; [route] gives the route with lane changes from
    the lanelet of the other entity, empty if there is none. *)
Variable route : Z -> list Z.
Definition no_route (l : Z) : bool := match route l with [] => true | _ => false end.
Definition alternatives (to : lane_pose) : list (lane_pose * nat) :=
  flat_map
    (fun m =>
       if Z.eqb (snd m) (id to) || no_route (snd m) then []
       else match on_lane 3 (snd m) with
            | None => []
            | Some p => match to_canonical p with
                        | None => []
                        | Some p => [(p, List.length (route (snd m)))]
                        end
            end)
    (matching false 3).
(** [std::min_element]: the first of the shortest. *)
Fixpoint shortest (best : lane_pose * nat) (l : list (lane_pose * nat)) : lane_pose * nat :=
  match l with
  | [] => best
  | a :: l => shortest (if Nat.ltb (snd a) (snd best) then a else best) l
  end.
Definition alternative (to : lane_pose) : option lane_pose :=
  if negb (no_route (id to)) then Some to
  else match alternatives to with [] => None | a :: l => Some (fst (shortest a l)) end.

(** pose:182-230, updatePositionForLaneletTransition with a velocity in the frame of the entity; the position
    of the answer is that of the lanelet pose. *)
Inductive transition := Stay | Next (p : lane_pose) | TooShort.
Definition transit (p : lane_pose) (l : Z) (vx vy dt : R) : transition :=
  let longitudinal := (cos (yaw p) * vx - sin (yaw p) * vy) * dt in
  let lateral := (sin (yaw p) * vx + cos (yaw p) * vy) * dt in
  let remaining := length (id p) - s p in
  if le longitudinal remaining then Stay
  else if lt (longitudinal - remaining) (length l) then
    Next {| id := l; s := longitudinal - remaining; offset := offset p + lateral; yaw := yaw p |}
  else TooShort.
End Pose.

(** lanelet_wrapper/lanelet_map.cpp:50-70, laneletYaw: the nearest of the centre points, the first of equally near ones,
    and the one after it, between which the yaw is measured; [None] is an exception ([at] beyond the
    end). *)
Section Yaw.
Variable point : Type.
Variable distance : point -> R.
Fixpoint nearest_index (best : nat) (d : R) (i : nat) (l : list point) : nat :=
  match l with
  | [] => best
  | p :: l => if lt (distance p) d then nearest_index i (distance p) (S i) l else nearest_index best d (S i) l
  end.
Definition lane_direction (l : list point) : option (point * point) :=
  match l with
  | [] => None
  | p :: l' =>
      let i := nearest_index 0 (distance p) 1 l' in
      match nth_error l i, nth_error l (S i) with
      | Some a, Some b => Some (a, b)
      | _, _ => None
      end
  end.
End Yaw.
