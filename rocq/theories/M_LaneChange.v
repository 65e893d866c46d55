(** * Model of lane change requests, of the lanes they lead to and of the choice of the curve.

    Paths are relative to /repo/simulation/traffic_simulator; "lane_change" is
    src/lanelet_wrapper/lane_change.cpp. What an entity does with an accepted request is modelled in
    M_Behavior. Simplifications: numbers are rationals; lanelets and entities are integers and
    natural numbers; the road graph and the geometry of the curves are parameters. *)
From Coq Require Import List Bool Arith ZArith QArith Qabs Qround.
Import ListNotations.
Local Open Scope Z_scope.

(** include/traffic_simulator/data_type/lane_change.hpp:29-31. *)
Inductive direction := Straight | Left | Right.
Inductive shape := Cubic | Line.
(** lane_change.hpp:44-57. *)
Inductive constraint := Unconstrained | LateralVelocity (v : Q) | LongitudinalDistance (d : Q) | Time (t : Q).
Inductive policy := Force | BestEffort.
(** lane_change.hpp:33-41 and 76-92: the target lane, the offset in it, the shape and the constraint
    with its policy. *)
Record parameter :=
  { lane : Z; offset : Q; form : shape; limit : constraint; how : policy }.

Section Graph.
(** lanelet2's routing graph: the lane to the left and to the right that may be changed to. *)
Variable left right : Z -> option Z.

(** lane_change:40-54, laneChangeableLaneletId with a direction. *)
Definition neighbour (l : Z) (d : direction) : option Z :=
  match d with Straight => Some l | Left => left l | Right => right l end.
(** lane_change:63-71, the loop. *)
Fixpoint shifted (n : nat) (l : Z) (d : direction) : option Z :=
  match n with
  | O => Some l
  | S n => match neighbour l d with None => None | Some l => shifted n l d end
  end.
(** lane_change:56-73. *)
Definition shift_by (n : nat) (l : Z) (d : direction) : option Z :=
  match n with O => neighbour l Straight | _ => shifted n l d end.

(** The kinds of entities, and what an entity knows: its name, its lane if it is on one, and the others
    (other_status_) with their lanes. *)
Inductive kind := Ego | Vehicle | Other.
Record entity :=
  { e_kind : kind; e_name : nat; e_lane : option Z; e_others : nat -> option (option Z) }.
(** What comes of a request: nothing happens, an exception, or the parameters are given to the
    behaviour with the request to change lanes. *)
Inductive outcome := Ignored | Refused | Taken (p : parameter).

(** src/entity/vehicle_entity.cpp:273-278, src/entity/ego_entity.cpp:373-380, and
    include/traffic_simulator/entity/entity_base.hpp:226-233 (pedestrians and objects). *)
Definition request (e : entity) (p : parameter) : outcome :=
  match e_kind e with Ego => Refused | Vehicle => Taken p | Other => Ignored end.
(** src/entity/vehicle_entity.cpp:264-271. *)
Definition request_lane (e : entity) (l : Z) : outcome :=
  request e {| lane := l; offset := 0; form := Cubic; limit := Unconstrained; how := Force |}.
(** src/entity/entity_base.cpp:161-170. *)
Definition request_direction (e : entity) (d : direction) : outcome :=
  match e_lane e with
  | None => Ignored
  | Some l => match neighbour l d with None => Ignored | Some l => request_lane e l end
  end.
(** src/entity/entity_base.cpp:172-178. *)
Definition request_absolute (e : entity) (l : Z) (o : Q) (f : shape) (c : constraint) (h : policy)
  : outcome := request e {| lane := l; offset := o; form := f; limit := c; how := h |}.
(** src/entity/entity_base.cpp:180-217. The number of lanes is a [std::uint8_t]. *)
Definition request_relative (e : entity) (reference : nat) (d : direction) (n : nat) (o : Q)
    (f : shape) (c : constraint) (h : policy) : outcome :=
  let from :=
    if Nat.eqb reference (e_name e) then e_lane e
    else match e_others e reference with None => None | Some l => l end in
  match from with
  | None => Refused
  | Some l =>
      match shift_by n l d with
      | None => Refused
      | Some l => request_absolute e l o f c h
      end
  end.

(** openscenario_interpreter/src/syntax/relative_target_lane.cpp:28-37 and
    lane_change_action.cpp:98-106: the value of RelativeTargetLane, an [int], gives the direction
    by its sign; its absolute value is converted to [std::uint8_t]. *)
Definition direction_of (value : Z) : direction :=
  if value <? 0 then Right else if value =? 0 then Straight else Left.
Definition lanes_of (value : Z) : nat := Z.to_nat (Z.abs value mod 256).
Definition request_value (e : entity) (reference : nat) (value : Z) (o : Q) (f : shape)
    (c : constraint) (h : policy) : outcome :=
  request_relative e reference (direction_of value) (lanes_of value) o f c h.

(** ** Counting lane changes *)

(** lanelet_map.cpp, nextLaneletIds; src/lanelet_wrapper/pose.cpp:472-499, leftLaneletIds and
    rightLaneletIds (all lanes on that side that can be reached by changes). *)
Variable next lefts rights : Z -> list Z.
Definition member (l : Z) (ls : list Z) : bool := existsb (Z.eqb l) ls.
(** lane_change:84-102, the loop over the route. *)
Fixpoint count (route : list Z) (c : nat * nat) : nat * nat :=
  match route with
  | previous :: (current :: _) as rest =>
      count rest
        (if member current (next previous) then c
         else if member current (lefts previous) then (S (fst c), snd c)
         else if member current (rights previous) then (fst c, S (snd c))
         else c)
  | _ => c
  end.
(** lane_change:75-105; [route] is what routeFromGraph found. *)
Definition count_lane_changes (route : list Z) : option (nat * nat) :=
  match route with [] => None | _ => Some (count route (O, O)) end.
End Graph.

(** ** The choice of the curve *)

(** What is known of the curve from the entity to a point of the target lane: how far ahead of the
    entity the point lies, the largest curvature and the length. *)
Record curve := { ahead : Q; curvature : Q; extent : Q }.

(** lane_change:204-224: the points of the lane at whole metres; those that are not more than
    [near] ahead or whose curve bends too much are left out. A candidate is the point, the value it is
    judged by and its curve. *)
Definition tried (length : Q) : list Z := map Z.of_nat (seq 0 (Z.to_nat (Qceiling length))).
Definition admitted (near sharp : Q) (k : curve) : bool :=
  negb (Qle_bool (ahead k) near) && negb (Qle_bool sharp (curvature k)).
Definition candidates (to : Z -> curve) (length near sharp wanted : Q) : list (Z * Q * curve) :=
  map (fun s => (s, Qabs (wanted - extent (to s)), to s))
    (filter (fun s => admitted near sharp (to s)) (tried length)).
(** [std::min_element]: the first of the smallest. *)
Fixpoint smallest (best : Z * Q * curve) (l : list (Z * Q * curve)) : Z * Q * curve :=
  match l with
  | [] => best
  | x :: l => smallest (if Qle_bool (snd (fst best)) (snd (fst x)) then best else x) l
  end.
(** lane_change:195-236, with the arguments of src/utils/route.cpp:152-154. The point is taken in the middle
    of the lane, :207 (the offset of the target is not used). *)
Definition free_curve (to : Z -> curve) (length : Q) : option (curve * Z) :=
  match candidates to length 1 10 20 with
  | [] => None
  | x :: l => let '(s, _, k) := smallest x l in Some (k, s)
  end.

(** lane_change:160-193, with the distance of :164-167; [across d] is the point of the target lane beside the
    point that lies [d] along the entity's own lane, if there is one within five metres, and [to]
    the curve to it with the offset of the target. *)
Definition change_distance (c : constraint) : Q :=
  match c with LongitudinalDistance d => d | _ => 20 end.
Definition bound_curve (across : Q -> option Q) (to : Q -> Q -> curve) (p : parameter)
  : option (curve * Q) :=
  match across (change_distance (limit p)) with
  | None => None
  | Some s => Some (to s (offset p), s)
  end.
(** src/utils/route.cpp:138-166, laneChangeTrajectory: the curve and the point of the target lane
    where it ends. *)
Definition trajectory (allowed : bool) (length : Q) (across : Q -> option Q) (to : Q -> Q -> curve)
    (p : parameter) : option (curve * Q) :=
  if negb allowed then None
  else match limit p with
       | Unconstrained =>
           option_map (fun '(k, s) => (k, inject_Z s)) (free_curve (fun s => to (inject_Z s) 0%Q) length)
       | _ => bound_curve across to p
       end.
