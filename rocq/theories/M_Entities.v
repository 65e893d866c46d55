(** * Model of entity declarations, entity selections, triggering entities and entity actions.

    Files (under openscenario/openscenario_interpreter): src/syntax/entities.cpp,
    src/syntax/entity.cpp, include/openscenario_interpreter/syntax/entity.hpp,
    src/syntax/entity_selection.cpp, src/syntax/selected_entities.cpp, src/reader/element.cpp
    (choice), src/syntax/by_object_type.cpp, src/syntax/triggering_entities.cpp,
    include/.../syntax/triggering_entities_rule.hpp, src/syntax/entity_action.cpp,
    src/syntax/add_entity_action.cpp, src/syntax/delete_entity_action.cpp; and
    simulation/traffic_simulator/src/api/api.cpp (spawn, despawn).

    Simplifications: names are numbers; attributes are already read (C72, C73); an exception is the
    outcome [Throw], whatever its type and text; a shared pointer to an entity is the object it
    points to, whose only mutable part, is_added, is kept beside it (see [lifecycle]). *)
From Coq Require Import ZArith QArith List Bool Arith.
From Verif Require Import M_Condition.
Import ListNotations.
Local Close Scope Q_scope.

Definition name := nat.

(** The result of code that may throw. *)
Inductive res (A : Type) := Ok (a : A) | Throw.
Arguments Ok {A} a.
Arguments Throw {A}.

Definition bind {A B} (r : res A) (f : A -> res B) : res B :=
  match r with Ok a => f a | Throw => Throw end.

(** include/syntax/object_type.hpp:45-51. *)
Inductive object_type := Vehicle | External | Miscellaneous | Pedestrian.
Definition type_eqb (a b : object_type) : bool :=
  match a, b with
  | Vehicle, Vehicle | External, External | Miscellaneous, Miscellaneous
  | Pedestrian, Pedestrian => true
  | _, _ => false
  end.

(** The children of an Entities element, in document order: a ScenarioObject with its name and
    object type, or an EntitySelection with its name and the EntityRef and ByType children of its
    Members. *)
Inductive decl :=
| DObject (n : name) (ty : object_type)
| DSelection (n : name) (refs : list name) (types : list object_type).

(** What an Entity points to: a ScenarioObject, or an EntitySelection, whose entityRef list holds
    Entities (src/syntax/selected_entities.cpp:31-33). *)
Inductive object :=
| Obj (n : name) (ty : object_type)
| Sel (n : name) (refs : list object) (types : list object_type).

(** src/syntax/entity.cpp:59 (Entity::name). *)
Definition name_of (o : object) : name := match o with Obj n _ => n | Sel n _ _ => n end.

(** The map of Entities (std::unordered_map<String, Object>). *)
Definition table := list (name * object).

Fixpoint find (t : table) (n : name) : option object :=
  match t with
  | [] => None
  | (m, o) :: t' => if m =? n then Some o else find t' n
  end.

(** std::unordered_map::emplace: an existing key is left alone. *)
Definition emplace (t : table) (n : name) (o : object) : table :=
  match find t n with Some _ => t | None => t ++ [(n, o)] end.

(** src/syntax/entities.cpp:45-52 (Entities::ref). *)
Definition ref (t : table) (n : name) : res object :=
  match find t n with Some o => Ok o | None => Throw end.

Fixpoint refs (t : table) (l : list name) : res (list object) :=
  match l with
  | [] => Ok []
  | n :: l' => bind (ref t n) (fun o => bind (refs t l') (fun os => Ok (o :: os)))
  end.

(** src/reader/element.cpp:33-85 as called in src/syntax/selected_entities.cpp:38-41: exactly one of
    the two kinds of children is present. *)
Definition choice_ok (rs : list name) (tys : list object_type) : bool :=
  match rs, tys with
  | [], [] => false
  | _ :: _, _ :: _ => false
  | _, _ => true
  end.

(** src/syntax/entities.cpp:27-29: the scenario objects, wherever they stand. *)
Fixpoint build_objects (t : table) (ds : list decl) : table :=
  match ds with
  | [] => t
  | DObject n ty :: ds' => build_objects (emplace t n (Obj n ty)) ds'
  | DSelection _ _ _ :: ds' => build_objects t ds'
  end.

(** src/syntax/entities.cpp:33-35 with src/syntax/entity_selection.cpp:32-36: the selections, each
    resolving its members among what is declared so far. *)
Fixpoint build_selections (t : table) (ds : list decl) : res table :=
  match ds with
  | [] => Ok t
  | DObject _ _ :: ds' => build_selections t ds'
  | DSelection n rs tys :: ds' =>
      bind (refs t rs) (fun os =>
        if choice_ok rs tys then build_selections (emplace t n (Sel n os tys)) ds' else Throw)
  end.

(** src/syntax/entities.cpp:25-36. *)
Definition build (ds : list decl) : res table := build_selections (build_objects [] ds) ds.

(** src/syntax/by_object_type.cpp:33-42 and the by-type branch of
    src/syntax/entity_selection.cpp:46-51: the scenario objects whose type is accepted. *)
Fixpoint of_types (p : object_type -> bool) (t : table) : list name :=
  match t with
  | [] => []
  | (n, Obj _ ty) :: t' => if p ty then n :: of_types p t' else of_types p t'
  | (_, Sel _ _ _) :: t' => of_types p t'
  end.

(** src/syntax/entity.cpp:61-70 and src/syntax/entity_selection.cpp:38-54 (objects). The result is
    a std::set ordered by address. An EntityRef to a scenario object yields a fresh copy
    (src/syntax/entity.cpp:35), so a scenario object reached twice is listed twice; the order is
    the order of the document here. *)
Fixpoint objects (t : table) (o : object) : list name :=
  match o with
  | Obj n _ => [n]
  | Sel _ (r :: rs) _ => flat_map (objects t) (r :: rs)
  | Sel _ [] tys => of_types (fun ty => existsb (type_eqb ty) tys) t
  end.

(** src/syntax/entity.cpp:83-92 (operator EntityRef): only a scenario object converts. *)
Definition as_ref (o : object) : res name :=
  match o with Obj n _ => Ok n | Sel _ _ _ => Throw end.

(** include/syntax/entity.hpp:63-75 (Entity::apply): the function is applied to every object before
    anything is done with the results. *)
Fixpoint traverse {A} (f : name -> res A) (l : list name) : res (list A) :=
  match l with
  | [] => Ok []
  | n :: l' => bind (f n) (fun a => bind (traverse f l') (fun r => Ok (a :: r)))
  end.
Definition apply {A} (t : table) (f : name -> res A) (o : object) : res (list A) :=
  traverse f (objects t o).

(** src/syntax/entities.cpp:38-43 (Entities::isAdded). *)
Definition is_added (t : table) (added : name -> bool) (o : object) : bool :=
  forallb added (objects t o).

(** include/syntax/triggering_entities.hpp:47-52 and triggering_entities_rule.hpp:55-71:
    std::all_of, std::any_of and std::none_of with a predicate that may throw. *)
Fixpoint all_res {A} (f : A -> res bool) (l : list A) : res bool :=
  match l with
  | [] => Ok true
  | x :: l' => bind (f x) (fun b => if b then all_res f l' else Ok false)
  end.
Fixpoint any_res {A} (f : A -> res bool) (l : list A) : res bool :=
  match l with
  | [] => Ok false
  | x :: l' => bind (f x) (fun b => if b then Ok true else any_res f l')
  end.
Definition te_res {A} (r : te_rule) (f : A -> res bool) (l : list A) : res bool :=
  match r with
  | All => all_res f l
  | Any => any_res f l
  | NoneOf => bind (any_res f l) (fun b => Ok (negb b))
  end.

(** src/syntax/triggering_entities.cpp:24-29: at least one EntityRef, all declared. *)
Definition triggering (t : table) (ns : list name) : res (list object) :=
  match ns with [] => Throw | _ => refs t ns end.

(** The common form of the entity conditions, e.g. src/syntax/speed_condition.cpp:85-95: the value
    of every object of every triggering entity is compared; an entity without objects counts as
    satisfied ([not results.back().size() or ...min()]). *)
Definition value_condition (t : table) (te : te_rule) (r : rule) (threshold : num)
  (value : name -> res num) (entities : list object) : res bool :=
  te_res te (fun o => bind (apply t value o) (fun vs => Ok (entity_predicate r threshold vs)))
    entities.

(** The same with a truth value per object (src/syntax/collision_condition.cpp:62-67). *)
Definition bool_condition (t : table) (te : te_rule) (check : name -> res bool)
  (entities : list object) : res bool :=
  te_res te (fun o => bind (apply t check o) (fun bs => Ok (forallb (fun b => b) bs))) entities.

(** ** Entity actions *)

(** What the interpreter remembers about a scenario object (is_added,
    include/syntax/scenario_object.hpp:44) and what the simulator holds. *)
Record lifecycle := { added : name -> bool; present : name -> bool }.

Definition set_flag (f : name -> bool) (n : name) (b : bool) : name -> bool :=
  fun m => if m =? n then b else f m.

Inductive entity_action := AddEntity | DeleteEntity.

(** src/syntax/add_entity_action.cpp:48-183 with traffic_simulator's spawn, which refuses a name
    that is in use (C43); position, controller and performance are not modelled.
    src/syntax/delete_entity_action.cpp:22-25 with src/api/api.cpp:323-335 (despawn): the result of
    despawn is ignored, and is_added is not touched. *)
Definition act (a : entity_action) (s : lifecycle) (n : name) : res lifecycle :=
  match a with
  | AddEntity =>
      if added s n then Throw
      else if present s n then Throw
      else Ok {| added := set_flag (added s) n true; present := set_flag (present s) n true |}
  | DeleteEntity => Ok {| added := added s; present := set_flag (present s) n false |}
  end.

Fixpoint act_all (a : entity_action) (s : lifecycle) (l : list name) : res lifecycle :=
  match l with
  | [] => Ok s
  | n :: l' => bind (act a s n) (fun s' => act_all a s' l')
  end.

(** src/syntax/entity_action.cpp:41-44. *)
Definition start (t : table) (s : lifecycle) (a : entity_action) (o : object) : res lifecycle :=
  act_all a s (objects t o).

(** A history: actions of the scenario, and entities the simulator removes by itself (a traffic
    sink, C46). *)
Inductive event := Start (a : entity_action) (o : object) | Removed (n : name).
Definition step (t : table) (s : lifecycle) (e : event) : res lifecycle :=
  match e with
  | Start a o => start t s a o
  | Removed n => Ok {| added := added s; present := set_flag (present s) n false |}
  end.
Fixpoint history (t : table) (s : lifecycle) (es : list event) : res lifecycle :=
  match es with
  | [] => Ok s
  | e :: es' => bind (step t s e) (fun s' => history t s' es')
  end.

(** include/syntax/scenario_object.hpp:44, and an empty simulator. *)
Definition initial : lifecycle := {| added := fun _ => false; present := fun _ => false |}.
