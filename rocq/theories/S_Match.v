(** * What it means for a pose to be on a lane (C201-C206). *)
From Coq Require Import String List ZArith Reals.
From Verif Require Import M_Match.
Import ListNotations.
Local Open Scope R_scope.

(** The entity heads along the lane or against it, up to 45 degrees. *)
Definition heads_along (y : R) : Prop := Rabs y <= PI / 4 \/ 3 * PI / 4 <= Rabs y.

(** The pose is on lane l at p: its projection is found, it is at most a metre above or below, and it heads along
    the lane or against it. Offsets are positive on the left. *)
Definition lies_on (altitude : R) (project : Z -> R -> option foot) (distance : R) (l : Z) (p : lane_pose) : Prop :=
  exists t, project l distance = Some t /\
    - 1 <= altitude - f_height t <= 1 /\ heads_along (f_yaw t) /\
    id p = l /\ s p = f_s t /\ yaw p = f_yaw t /\
    (0 <= f_side t -> offset p = f_gap t) /\ (f_side t < 0 -> offset p = - f_gap t).

(** x is the first element of the list with a property. *)
Definition first_with {A} (P : A -> Prop) (l : list A) (x : A) : Prop :=
  exists before after, l = before ++ x :: after /\ P x /\ forall y, In y before -> ~ P y.

(** Nearest first. *)
Fixpoint by_distance (l : list (R * Z)) : Prop :=
  match l with
  | [] => True
  | a :: l => (forall b, In b l -> fst a <= fst b) /\ by_distance l
  end.

(** The lanes that a box is matched with: those it touches, without crosswalks only where vehicles may drive. *)
Definition candidate (touched : R -> list Z) (passable : Z -> bool) (crosswalks : bool) (d : R) (l : Z) : Prop :=
  In l (touched d) /\ (crosswalks = true \/ passable l = true).

(** The lanelets that are listed: all, or those with a subtype other than crosswalk. *)
Definition listed (subtype : Z -> option string) (crosswalks : bool) (l : Z) : Prop :=
  crosswalks = true \/ exists t, subtype l = Some t /\ t <> "crosswalk"%string.

(** A pose that is zero in everything stands for none. *)
Definition zero_pose (q : lane_pose) : Prop := id q = 0%Z /\ s q = 0 /\ offset q = 0 /\ yaw q = 0.

(** An alternative to a pose: another lane l within three metres to which there is a route, where the pose is at q,
    which is p when it is made canonical. *)
Definition option_at (altitude : R) (project : Z -> R -> option foot) (touched : R -> list Z) (passable : Z -> bool)
    (canonicalize : lane_pose -> option lane_pose * option Z) (route : Z -> list Z)
    (to : lane_pose) (l : Z) (q p : lane_pose) : Prop :=
  candidate touched passable false 3 l /\ l <> id to /\ route l <> [] /\ lies_on altitude project 3 l q /\
  ~ zero_pose q /\ fst (canonicalize q) = Some p.
