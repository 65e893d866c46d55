(** * Specification of when actions are over.

    Only the data types of M_Action are used: what the simulator reports of an object, the target of
    a speed action, the entry of a speed profile. *)
From Coq Require Import List Bool Arith ZArith QArith Qabs String.
From Verif Require Import M_Action.
Import ListNotations.
Local Open Scope Q_scope.

(** Two speeds are the same, up to the spacing of doubles at one. *)
Definition same (a b : Q) : Prop := Qabs (a - b) < 1 # (2 ^ 52).

(** The speed that a target means in a frame. *)
Inductive means (w : sight) : target -> Q -> Prop :=
| Means_absolute v : means w (Absolute v) v
| Means_delta e v c s : w e = Some s -> means w (Delta e v c) (speed s + v)
| Means_factor e v c s : w e = Some s -> means w (Factor e v c) (speed s * v).

(** Every one of the objects has the speed that the target means. *)
Definition reached (w : sight) (t : target) (objects : list nat) : Prop :=
  forall o, In o objects ->
  exists s v, w o = Some s /\ means w t v /\ same (speed s) v.

(** The target is to be held from then on, without end. *)
Definition lasting (t : target) : Prop :=
  match t with Absolute _ => False | Delta _ _ c => c = true | Factor _ _ c => c = true end.

(** Every one of the objects has the speed of the entry, relative to an entity if one is given. *)
Definition at_entry (w : sight) (reference : option nat) (e : entry) (objects : list nat) : Prop :=
  forall o, In o objects ->
  exists s, w o = Some s /\
  match reference with
  | None => same (speed s) (e_speed e)
  | Some r => exists s', w r = Some s' /\ same (speed s) (e_speed e + speed s')
  end.

(** The entries are met one after the other, each in a later frame than the one before. *)
Inductive met (ok : sight -> entry -> Prop) : list entry -> list sight -> Prop :=
| Met_none ws : met ok [] ws
| Met_now e es w ws : ok w e -> met ok es ws -> met ok (e :: es) (w :: ws)
| Met_later es w ws : met ok es ws -> met ok es (w :: ws).

(** All objects of all actors are spawned. *)
Definition spawned (objects : nat -> list nat) (actors : list nat) (w : sight) : Prop :=
  forall a o, In a actors -> In o (objects a) -> w o <> None.

(** The object is changing lanes. *)
Definition changing (w : sight) (o : nat) : Prop :=
  exists s, w o = Some s /\ state s = "lane_change"%string.

(** The actors, each once, in some order. *)
Definition once (l l' : list nat) : Prop := NoDup l' /\ forall a, In a l' <-> In a l.

(** All actions of Init, in the order of the document. *)
Definition items (x : init) : list item := (globals x ++ users x ++ List.concat (privates x))%list.
(** The actions that are started. *)
Definition starts (l : list call) : list nat :=
  flat_map (fun c => match c with Start i => [i] | Run _ => [] end) l.
