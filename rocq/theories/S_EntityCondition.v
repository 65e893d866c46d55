(** Specification of the geometry that conditions on entities talk about. *)
From Coq Require Import ZArith QArith Qabs List Bool Arith.
From Verif Require Import M_Condition M_Entities M_EntityCondition.
Import ListNotations.
Local Open Scope Q_scope.

(** Equality of a possibly infinite value with a rational. *)
Definition is_value (r : res num) (q : Q) : Prop := exists v, r = Ok (Fin v) /\ v == q.

(** The axes of entity [n] are orthogonal unit vectors. *)
Definition upright (c : core) (n : name) : Prop :=
  dot (axis_x c n) (axis_x c n) == 1 /\ dot (axis_y c n) (axis_y c n) == 1 /\
  dot (axis_z c n) (axis_z c n) == 1 /\ dot (axis_x c n) (axis_y c n) == 0 /\
  dot (axis_x c n) (axis_z c n) == 0 /\ dot (axis_y c n) (axis_z c n) == 0.

(** Two entities look in the same direction, or in opposite directions. *)
Definition aligned (c : core) (a b : name) : Prop :=
  vx (axis_x c a) == vx (axis_x c b) /\ vy (axis_x c a) == vy (axis_x c b) /\
  vz (axis_x c a) == vz (axis_x c b).
Definition opposed (c : core) (a b : name) : Prop :=
  vx (axis_x c a) == - vx (axis_x c b) /\ vy (axis_x c a) == - vy (axis_x c b) /\
  vz (axis_x c a) == - vz (axis_x c b).

(** How far [b] is ahead of [a], seen by [a], and to its left. *)
Definition ahead (c : core) (a b : name) : Q := dot (axis_x c a) (sub (place c b) (place c a)).
Definition left_of (c : core) (a b : name) : Q := dot (axis_y c a) (sub (place c b) (place c a)).
Definition ahead_pos (c : core) (a : name) (p : vec) : Q := dot (axis_x c a) (sub p (place c a)).

(** The forward speed of an entity. *)
Definition forward_speed (c : core) (a : name) : Q := vx (twist c a).

(** Entities [a] and [b] are level after [time] if both keep their speed and [a] looks the way
    [b] does. *)
Definition meet (c : core) (a b : name) (time : Q) : Prop :=
  forward_speed c a * time == ahead c a b + forward_speed c b * time.

(** The combinations for which a distance is defined. *)
Definition supported (k : coordinate) (d : dtype) (r : routing) : Prop :=
  (k = EntityFrame /\ r = Undefined) \/
  (k = Lane /\ (r = Undefined \/ r = Shortest) /\ (d = Longitudinal \/ d = Lateral)).

(** +1 if entity [n] looks along its lane, -1 if it looks against it. *)
Definition lane_sense (c : core) (n : name) : Z :=
  match lane_heading c n with
  | Some h => if Qlt_le_dec half_pi (Qabs h) then (-1)%Z else 1%Z
  | None => 1%Z
  end.

(** Lane number [z] belongs to a range; a missing end is open. *)
Definition within (r : range) (z : Z) : Prop :=
  (forall a, from r = Some a -> (a <= z)%Z) /\ (forall b, to r = Some b -> (z <= b)%Z).

(** [m] is in the zone of [n]: on one of the lanes, counted from the lane of [n] to its left, and at
    most [b] behind or [f] ahead of it along the lane. *)
Definition in_zone (c : core) (q : clearance) (b f : Q) (n m : name) : Prop :=
  here c n = true /\ here c m = true /\
  (ranges q = [] \/
   exists z r, lane_count c n m = Some z /\ In r (ranges q) /\ within r (lane_sense c n * z)) /\
  exists l, lanes c (free_space q) Shortest n m = Some l /\
    let s := inject_Z (lane_sense c n) * l_s l in (s < 0 /\ - s <= b) \/ (0 <= s /\ s <= f).
