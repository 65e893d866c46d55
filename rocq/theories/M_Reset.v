(** * Model of resetting the behaviour of an entity, with the memory that its status is in.

    "manager" is /repo/simulation/traffic_simulator/src/entity/entity_manager.cpp, "manager.hpp" its header.
    Simplifications: an entity is its status (M_Status.entity), what it has counted and its parameters, and
    is one cell of the memory; a reference is the address of a cell. Reading a cell that was freed is
    [Undefined]. The plugin is a name, and spawning one fails if there is none of that name. *)
From Coq Require Import String List Bool ZArith Reals.
From Verif Require Import M_Status.
Import ListNotations.
Local Open Scope R_scope.

(** What EntityBase holds beside its status: the way travelled and the time it stands still
    (entity_base.hpp:365-366), the target speed and the parameters. *)
Record cell := {
  c_entity : entity; c_travelled : R; c_still : R; c_target : option R; c_parameters : Z;
  c_plugin : string }.
(** The memory, and entities_ of the manager: a map from names to addresses (shared pointers, of which
    the map holds the only one). *)
Record manager := { m_cells : nat -> option cell; m_next : nat; m_names : list (string * nat) }.
Inductive result (A : Type) := Ok (a : A) | Error | Undefined.
Arguments Ok {A}. Arguments Error {A}. Arguments Undefined {A}.

Fixpoint address (n : string) (l : list (string * nat)) : option nat :=
  match l with
  | [] => None
  | (m, a) :: l' => if string_dec m n then Some a else address n l'
  end.
Definition read (m : manager) (a : nat) : result cell :=
  match m_cells m a with Some c => Ok c | None => Undefined end.
Definition set_cell (a : nat) (c : option cell) (f : nat -> option cell) : nat -> option cell :=
  fun b => if Nat.eq_dec b a then c else f b.
(** manager:362-365, despawnEntity: the map's pointer is the last one. *)
Definition despawn (n : string) (m : manager) : manager :=
  match address n (m_names m) with
  | None => m
  | Some a => {| m_cells := set_cell a None (m_cells m); m_next := m_next m;
                 m_names := filter (fun p => if string_dec (fst p) n then false else true) (m_names m) |}
  end.

Section Reset.
  Variable canonicalize : lane_pose -> option lane_pose.
  Variable on_map : lane_pose -> pose.
  Variable match_any : pose -> Z -> bool -> R -> option lane_pose.
  Variable plugin_exists : string -> bool.
  Variable distance : Z -> R.                (* manager.hpp:154-166, of the parameters *)
  Variable box_of : Z -> Z.                  (* the bounding box of the parameters *)
  Variable subtype_of : Z -> Z.

  (** manager.hpp:115-181, spawnEntity, at a map pose. *)
  Definition spawn (k : kind) (n : string) (p : pose) (params : Z) (t : R) (plugin : string) (m : manager)
    : result manager :=
    if plugin_exists plugin then
      match address n (m_names m) with
      | Some _ => Error
      | None =>
          Ok {| m_cells := set_cell (m_next m)
                  (Some {| c_entity := spawned canonicalize on_map match_any
                             (fresh k (subtype_of params) t n (box_of params) p) (distance params);
                           c_travelled := 0; c_still := 0; c_target := None; c_parameters := params;
                           c_plugin := plugin |}) (m_cells m);
                m_next := S (m_next m); m_names := (n, m_next m) :: m_names m |}
      end
    else Error.
  (** manager:355-358: setLinearJerk, setAcceleration and setTwist of the new entity, with what is read
      from the status. *)
  Definition with_values (a : action) (c : cell) : cell :=
    {| c_entity := write_action (c_entity c)
                     {| a_name := a_name (s_action (e_status (c_entity c))); a_speed := a_speed a;
                        a_acceleration := a_acceleration a; a_jerk := a_jerk a |};
       c_travelled := c_travelled c; c_still := c_still c; c_target := c_target c;
       c_parameters := c_parameters c; c_plugin := c_plugin c |}.
  (** manager:328-360. [kept]: the status is a copy, taken before the entity is despawned; it is false for
      the code, which takes a reference. *)
  Definition reset_with (kept : bool) (n : string) (plugin : string) (m : manager) : result manager :=
    match address n (m_names m) with
    | None => Error
    | Some a =>
        match read m a with
        | Ok old =>
            let status (m' : manager) := if kept then Ok old else read m' a in
            match s_kind (e_status (c_entity old)) with
            | Ego | Misc => Error
            | k =>
                let m1 := despawn n m in
                match status m1 with
                | Ok c =>
                    match spawn k n (s_pose (e_status (c_entity c))) (c_parameters old)
                            (s_time (e_status (c_entity c))) plugin m1 with
                    | Ok m2 =>
                        match address n (m_names m2) with
                        | None => Error
                        | Some b =>
                            match status m2, m_cells m2 b with
                            | Ok c', Some new =>
                                Ok {| m_cells := set_cell b
                                        (Some (with_values (s_action (e_status (c_entity c'))) new))
                                        (m_cells m2);
                                      m_next := m_next m2; m_names := m_names m2 |}
                            | _, _ => Undefined
                            end
                        end
                    | Error => Error
                    | Undefined => Undefined
                    end
                | Error => Error
                | Undefined => Undefined
                end
            end
        | Error => Error
        | Undefined => Undefined
        end
    end.
  Definition reset := reset_with false.
End Reset.
