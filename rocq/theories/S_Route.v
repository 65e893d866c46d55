(** Specification of routes. *)
From Coq Require Import String List Bool ZArith Reals.
From Verif Require Import M_Status M_Route.
Import ListNotations.

(** Lanelets of which each can be entered from the one before. *)
Fixpoint path (enter : Z -> Z -> Prop) (l : list Z) : Prop :=
  match l with
  | a :: ((b :: _) as t) => enter a b /\ path enter t
  | _ => True
  end.
(** The road graph answers with a way from one lanelet to the other, or with nothing. *)
Definition ways (enter : Z -> Z -> Prop) (graph : Z -> Z -> list Z) : Prop :=
  forall a b, graph a b <> [] ->
  hd_error (graph a b) = Some a /\ last (graph a b) a = b /\ path enter (graph a b).
(** Every place of the route can be reached from the one before, the first one from [x]. *)
Fixpoint connected (graph : Z -> Z -> list Z) (x : Z) (ids : list Z) : Prop :=
  match ids with
  | [] => True
  | i :: ids' => graph x i <> [] /\ connected graph i ids'
  end.
(** The lanelets [ids] are passed in this order. *)
Inductive visits : list Z -> list Z -> Prop :=
| visits_nil : forall l, visits l []
| visits_here : forall a l ids, visits (a :: l) ids -> visits (a :: l) (a :: ids)
| visits_later : forall a l ids, visits l ids -> visits (a :: l) ids.
(** No lanelet is named twice in a row. *)
Definition no_repetition (l : list Z) : Prop :=
  forall before a b after, l = before ++ a :: b :: after -> a <> b.

(** What Autoware is asked for a new route: forget the old one, take the new one, drive. The first time it
    is told where it is, and is not yet told to drive. *)
Definition asked (g : ego) (plan : command) : list command :=
  if g_initialized g then [Clear; plan; Engage]
  else [Clear; Initialize (s_pose (e_status (g_entity g))); plan].
(** Apart from that, the ego is as before. *)
Definition otherwise_same (g g' : ego) : Prop :=
  g_entity g' = g_entity g /\ g_controlled g' = g_controlled g /\ g_target g' = g_target g /\
  g_max g' = g_max g /\ g_initialized g' = true.

(** The goal and the places before it. *)
Definition split_route {A} (route : list A) (through : list A) (goal : A) : Prop :=
  route = through ++ [goal].

Definition is_initialize (c : command) : bool := match c with Initialize _ => true | _ => false end.

(** The lanelet poses found for those of the poses that match a lanelet. *)
Inductive picked (found : pose -> option lane_pose) : list pose -> list lane_pose -> Prop :=
| picked_none : picked found [] []
| picked_on p l route lanes : found p = Some l -> picked found route lanes -> picked found (p :: route) (l :: lanes)
| picked_off p route lanes : found p = None -> picked found route lanes -> picked found (p :: route) lanes.
