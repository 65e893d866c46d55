(** What a user means by "the same place on the road", "connected lanelets" and "covering a
    distance".  Nothing here mentions the functions of the model. *)
From Coq Require Import ZArith QArith List.
From Verif Require Import M_Lane.
Import ListNotations.
Local Open Scope Q_scope.

(** Consecutive elements are related. *)
Fixpoint linked (R : id -> id -> Prop) (l : list id) : Prop :=
  match l with
  | a :: ((b :: _) as r) => R a b /\ linked R r
  | _ => True
  end.

(** [l] is a chain of related lanelets that starts with [a] and ends with [b]. *)
Definition chain (R : id -> id -> Prop) (a : id) (l : list id) (b : id) : Prop :=
  hd_error l = Some a /\ List.last l a = b /\ linked R l.

(** Sum of the lengths of the lanelets. *)
Fixpoint total (m : road) (l : list id) : Q :=
  match l with [] => 0 | a :: r => len m a + total m r end.

(** [b] can be driven to from [a] directly. *)
Definition follows (m : road) (a b : id) : Prop := In b (next m a).
(** [b] lies directly before [a]. *)
Definition precedes (m : road) (a b : id) : Prop := In b (previous m a).

(** The first of the lanelets following (preceding) [a]. *)
Definition first_next (m : road) (a b : id) : Prop := hd_error (next m a) = Some b.
Definition first_previous (m : road) (a b : id) : Prop := hd_error (previous m a) = Some b.

(** The lanelet after [a] when straight lanelets are preferred. *)
Definition prefers (straight : id -> bool) (l : list id) (b : id) : Prop :=
  exists l1 l2, l = l1 ++ b :: l2 /\
    ((straight b = true /\ forall x, In x l1 -> straight x = false)
     \/ (l1 = [] /\ forall x, In x l -> straight x = false)).
Definition straight_next (m : road) (a b : id) : Prop := prefers (straight m) (next m a) b.
Definition straight_previous (m : road) (a b : id) : Prop := prefers (straight m) (previous m a) b.

(** [q] is the place reached from [p] by going over the lanelets [l], the lanelet of [p] first: all
    of [l] but the last one is left behind. *)
Definition ahead (m : road) (p : pose) (l : list id) (q : pose) : Prop :=
  sval p == total m (removelast l) + sval q.
(** ... and going backwards over [l]: all of [l] but the first one is entered from behind. *)
Definition behind (m : road) (p : pose) (l : list id) (q : pose) : Prop :=
  sval p + total m (tl l) == sval q.

Definition on_lane (m : road) (p : pose) : Prop := 0 <= sval p <= len m (lane p).

(** A road: lengths have a positive lower bound (there are finitely many lanelets on a map and
    each has a positive length). *)
Definition real_lengths (m : road) : Prop := exists e, 0 < e /\ forall a, e <= len m a.

(** "following" and "previous" describe the same graph. *)
Definition consistent (m : road) : Prop := forall a b, In b (next m a) <-> In a (previous m b).

(** At most one continuation from each lanelet lies on the route. *)
Definition no_fork (m : road) (route : list id) : Prop :=
  forall a l1 l2 l3 b c,
    next m a = l1 ++ b :: l2 ++ c :: l3 -> In b route -> In c route -> False.

(** Poses are compared by lanelet, coordinate and offset. *)
Definition pose_eq (p q : pose) : Prop :=
  lane p = lane q /\ sval p == sval q /\ offset p == offset q.

(** A road on which the preferred way forwards and the preferred way backwards undo each other. *)
Definition unbranched (m : road) : Prop :=
  forall a b, straight_next m a b <-> straight_previous m b a.

(** The pose moved along its own lanelet's coordinate. *)
Definition shifted (p : pose) (d : Q) : pose :=
  {| lane := lane p; sval := sval p + d; offset := offset p |}.
