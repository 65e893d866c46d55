(** * Specification of the set of entities of a scenario.

    The abstract state says which entity, if any, carries each name. *)
From Coq Require Import String.
From Coq Require Import List Bool QArith.
From Verif Require Import M_World.
Import ListNotations.

Definition population := string -> option entity.
Definition empty : population := fun _ => None.
Definition ego_present (p : population) : Prop := exists n e, p n = Some e /\ e_kind e = Ego.

(** Within reach of a sink: of one of its kinds, at most the radius away. *)
Definition in_reach (k : sink) (e : entity) : Prop :=
  In (e_kind e) (k_kinds k) /\ (0 <= k_radius k)%Q /\
  ((k_x k - e_x e) * (k_x k - e_x e) + (k_y k - e_y e) * (k_y k - e_y e) +
   (k_z k - e_z e) * (k_z k - e_z e) <= k_radius k * k_radius k)%Q.

(** What each action does to the population, and what the caller sees. *)
Inductive effect (p : population) : action -> population -> outcome -> Prop :=
| SpawnFresh n e q :
    p n = None -> (e_kind e = Ego -> ~ ego_present p) ->
    (forall x, q x = if String.eqb n x then Some e else p x) ->
    effect p (Spawn n e true) q (Returned true)
| SpawnTaken n e c q :
    p n <> None -> (forall x, q x = p x) -> effect p (Spawn n e c) q Threw
| SpawnSecondEgo n e c q :
    e_kind e = Ego -> ego_present p -> (forall x, q x = p x) -> effect p (Spawn n e c) q Threw
| SpawnUnbuildable n e q :
    (forall x, q x = p x) -> effect p (Spawn n e false) q Threw
| DespawnKnown n q :
    p n <> None -> (forall x, q x = if String.eqb n x then None else p x) ->
    effect p (Despawn n) q (Returned true)
| DespawnUnknown n q :
    p n = None -> (forall x, q x = p x) -> effect p (Despawn n) q (Returned false)
| DespawnEverything q :
    (forall x, q x = None) -> effect p DespawnAll q (Returned true)
| ResetNpc n e q :
    p n = Some e -> e_kind e = Vehicle \/ e_kind e = Pedestrian -> (forall x, q x = p x) ->
    effect p (Reset n true) q (Returned true)
| ResetNpcLost n e q :
    p n = Some e -> e_kind e = Vehicle \/ e_kind e = Pedestrian ->
    (forall x, q x = if String.eqb n x then None else p x) ->
    effect p (Reset n false) q Threw
| ResetOther n c q :
    (forall e, p n = Some e -> e_kind e = Ego \/ e_kind e = Misc) -> (forall x, q x = p x) ->
    effect p (Reset n c) q Threw
| SinkRuns k q :
    (forall x e, p x = Some e -> in_reach k e -> q x = None) ->
    (forall x e, p x = Some e -> ~ in_reach k e -> q x = Some e) ->
    (forall x, p x = None -> q x = None) ->
    effect p (Sink k) q (Returned true)
| Moved f q :
    (forall x, q x = match p x with
                     | None => None
                     | Some e => let '(a, b, c) := f x e in
                                 Some {| e_kind := e_kind e; e_x := a; e_y := b; e_z := c |}
                     end) ->
    effect p (Move f) q (Returned true).

(** A run of the specification. *)
Inductive effects : population -> list action -> population -> list outcome -> Prop :=
| Nothing p q : (forall x, q x = p x) -> effects p [] q []
| Then p a q o xs r os : effect p a q o -> effects q xs r os -> effects p (a :: xs) r (o :: os).

(** The populations of the two processes. *)
Definition simulated (w : world) : population := fun n => find n (manager w).
Definition sensed_as (w : world) (n : string) (k : kind) : Prop := In n (of_kind k (server w)).
(** Both processes hold the same entities, each exactly once. *)
Definition same_entities (w : world) : Prop :=
  (forall n k, sensed_as w n k <-> exists e, simulated w n = Some e /\ e_kind e = k) /\
  (forall n, In n (s_status (server w)) <-> simulated w n <> None) /\
  (forall k, NoDup (of_kind k (server w))).
(** The environment simulator accepts everything the traffic simulator asks it about its entities. *)
Definition accepted (w : world) : Prop :=
  (forall n e, simulated w n = Some e -> accepts_status (server w) n = true) /\
  (forall n, In n (s_status (server w)) -> has_bounding_box (server w) n = true).
