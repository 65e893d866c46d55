(** Specification of the distances to obstacles. *)
From Coq Require Import List Bool ZArith Reals.
From Verif Require Import M_Obstacle.
Import ListNotations.
Local Open Scope list_scope.
Local Open Scope R_scope.

(** The least of the numbers that satisfy [P]; nothing if there is none *)
Definition least (P : R -> Prop) (r : option R) : Prop :=
  match r with
  | Some d => P d /\ forall x, P x -> d <= x
  | None => forall x, ~ P x
  end.

(** A line of a stop sign of a lanelet of the route is crossed at [x]. *)
Definition stop_crossing {Line} (collide : Line -> option R) (signs : Z -> list (Sign Line)) (route : list Z) (x : R) : Prop :=
  exists l s line, In l route /\ In s (signs l) /\ is_stop s = true /\ In line (ref_lines s) /\ collide line = Some x.
(** A stop line of the light is crossed at [x]. *)
Definition light_crossing {Line} (collide : Line -> option R) (elements : list (Element Line)) (light : Z) (x : R) : Prop :=
  exists e line, In e elements /\ In light (lights e) /\ stop_line e = Some line /\ collide line = Some x.
(** The light belongs to a lanelet of the route. *)
Definition light_on {Line} (on : Z -> list (Element Line)) (route : list Z) (light : Z) : Prop :=
  exists l e, In l route /\ In e (on l) /\ In light (lights e).
(** What lanelets have is in the map. *)
Definition in_map {Line} (elements : list (Element Line)) (on : Z -> list (Element Line)) : Prop :=
  forall l e, In e (on l) -> In e elements.

(** Somebody is on a lanelet that has right of way over [l]. *)
Definition must_wait (regulations : Z -> list (list Z)) (others : list Z) (l : Z) : Prop :=
  exists rights r, In rights (regulations l) /\ In r rights /\ r <> l /\ In r others.
(** The start of [l] is [d] ahead, or [-d] behind and not ahead. *)
Definition reach (forward backward : Z -> option R) (l : Z) (d : R) : Prop :=
  forward l = Some d \/ (forward l = None /\ exists b, backward l = Some b /\ d = - b).

(** Boxes across the lane: one at [0], the other at [x] *)
Definition contains (b : Span) : Prop := low b <= 0 <= high b.
Definition centred (b : Span) : Prop := low b = - high b /\ 0 <= high b.
(** The other is to the left with room between; the room *)
Definition room_left (x : R) (from to : Span) : R := (x + low to) - high from.
Definition room_right (x : R) (from to : Span) : R := low from - (x + high to).

Definition distance (p q : Point) : R := sqrt (squared p q).
(** The window of the spline that is looked at *)
Definition window (reference : R) (p0 p2 : Point) (s : R) : Prop :=
  reference - distance p0 p2 / 2 <= s <= reference + distance p0 p2 / 2.
(** A straight spline, measured by its length *)
Definition straight (curve : R -> Point) : Prop := exists o u,
  fst u * fst u + snd u * snd u = 1 /\ forall s, curve s = (fst o + s * fst u, snd o + s * snd u).
(** A curve measured by its length: no two of its points are farther apart than the way between them. *)
Definition by_length (curve : R -> Point) : Prop := forall s t, distance (curve s) (curve t) <= Rabs (s - t).

(** What counts as the room along the lane to a target at [x]: the room between the boxes if it is in
    front; if it is behind, how far the boxes overlap *)
Definition counted_room (x : R) (from to : Span) (gap : R) : Prop :=
  (0 < x /\ gap = (x + low to) - high from) \/ (x = 0 /\ gap = 0) \/ (x < 0 /\ gap = (x + high to) - low from).
(** The target is on the way: altitude, route, room along the lane, near enough to the spline. *)
Definition ahead (lowest highest : R) (from : Span) (length width threshold : R) (t : Target) (gap : R) : Prop :=
  lowest - 1 <= altitude t <= highest + 1 /\ routable t = true
  /\ (exists x, along t = Some x /\ counted_room x from (body t) gap) /\ 0 <= gap
  /\ ((threshold < 0 /\ aside t <= width / 2) \/ (0 <= threshold /\ aside t <= threshold)
      \/ crossed t gap (gap + length / 2 + diagonal t) = true).
