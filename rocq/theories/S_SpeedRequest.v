(** Specification vocabulary for speed requests. *)
From Coq Require Import List Bool Arith QArith Qabs.
From Verif Require Import M_Job M_SpeedRequest.
Import ListNotations.
Local Open Scope Q_scope.

Section Spec.
Variable plan : Q -> Q -> Q -> Q -> limits -> option limits.

(** An entity's observable members. *)
Definition speed (e : entity) : Q := w_speed (snd e).
Definition target (e : entity) : option Q := w_target (snd e).
Definition limits_of (e : entity) : limits := w_limits (snd e).
Definition failed (e : entity) : Prop := w_failed (snd e) = true.

(** Within 0.01 of a speed. *)
Definition close (a b : Q) : Prop := Qabs (a - b) <= 1 # 100.

(** No newer request of any kind: the world moves and time passes. *)
Definition passive (x : action) : Prop :=
  match x with Move _ _ | Others _ | Limits _ | Post _ => True | _ => False end.
Definition keeps_limits (x : action) : Prop := match x with Limits _ => False | _ => True end.
Definition is_post (x : action) : Prop := match x with Post _ => True | _ => False end.

(** [P] holds whenever an update happens during [xs]. *)
Definition at_updates (P : entity -> Prop) (e : entity) (xs : list action) : Prop :=
  forall a step b, xs = a ++ Post step :: b -> P (acts plan a e).

(** The absolute requests: their speed, and whether they are held forever. A time-constrained request
    is never held. *)
Inductive requests (v : Q) : bool -> action -> Prop :=
| requests_direct k : requests v k (RequestSpeed v k)
| requests_free tr k : requests v k (Request v tr NoConstraint k)
| requests_acceleration tr a k : requests v k (Request v tr (LongitudinalAcceleration a) k)
| requests_time tr t k : requests v false (Request v tr (Time t) k).

(** No request of the kind [t] is in force. *)
Definition idle (t : type) (e : entity) : Prop :=
  forall j, In j (fst e) -> j_type j = t -> j_active j = false.
End Spec.
