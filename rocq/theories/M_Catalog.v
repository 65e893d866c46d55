(** * Model of catalogs and references to them.

    Paths are relative to /repo/openscenario/openscenario_interpreter. Strings are lists of bytes. *)
From Coq Require Import Ascii String List Bool Arith.
From Verif Require Import M_Scope.
Import ListNotations.
Local Open Scope list_scope.

(** An entry of a catalog: its tag, its name (empty if it has none: pugixml's as_string), and the
    parameters it declares, with the values their defaults evaluate to (see M_Parameter). *)
Record entry := { n_tag : str; n_name : str; n_declared : list (str * obj) }.

(** A file of a directory: [None] if it is not loaded, or has no OpenSCENARIO/Catalog with a name;
    src/syntax/catalog_location.cpp:50-73. Converting YAML files is not modelled. *)
Definition file := option (str * list entry).
(** A directory, in the order its files are listed in, which is not specified. *)
Definition location := list file.

(** src/syntax/catalog_location.cpp:62-73: emplace keeps the first catalog of a name. *)
Fixpoint in_location (l : location) (name : str) : option (list entry) :=
  match l with
  | [] => None
  | Some (n, es) :: l' => if str_eqb n name then Some es else in_location l' name
  | None :: l' => in_location l' name
  end.
(** src/syntax/catalog_reference.cpp:81-99: std::find_if over the locations, an unordered map, so in an
    order that is not specified. *)
Fixpoint find_catalog (ls : list location) (name : str) : option (list entry) :=
  match ls with
  | [] => None
  | l :: ls' => match in_location l name with Some es => Some es | None => find_catalog ls' name end
  end.

(** src/syntax/catalog_reference.cpp:35-73, choice_by_attribute with one name: [None] is a SyntaxError. *)
Definition choose (es : list entry) (name : str) : option entry :=
  match filter (fun e => str_eqb (n_name e) name) es with [e] => Some e | _ => None end.
(** src/syntax/catalog_reference.cpp:112-123: the tags in the table, without those that throw. *)
Definition supported (tag : str) : bool :=
  existsb (fun t => str_eqb tag (text t)) ["Vehicle"; "Controller"; "Pedestrian"; "MiscObject"; "Maneuver"]%string.
(** src/syntax/catalog_reference.cpp:75-141, the constructor and make: the entry an object is made of;
    without CatalogLocations ([None]), and in all other cases of [None], it throws. *)
Definition refer (locations : option (list location)) (catalog name : str) : option entry :=
  match locations with
  | None => None
  | Some ls =>
    match find_catalog ls catalog with
    | None => None
    | Some es =>
      match choose es name with
      | Some e => if supported (n_tag e) then Some e else None
      | None => None
      end
    end
  end.

(** include/syntax/parameter_assignment.hpp:43-49 for every assignment, and likewise
    src/syntax/parameter_declaration.cpp:55 for every declaration: Scope::insert. *)
Definition insert_all (e : env) (f : frame_id) (l : list (str * obj)) : env :=
  fold_left (fun e a => step e (Define f (fst a) (snd a))) l e.
(** catalog_reference.cpp:79 and 114-118, with vehicle.cpp:23-30 and the like: the assignments go into
    the scope [f] of the reference; then the entry opens a scope in it and declares its parameters
    there. The number of the new scope is the length of the environment. *)
Definition instantiate (e : env) (f : frame_id) (assigned : list (str * obj)) (n : entry) : env :=
  let e' := insert_all e f assigned in
  insert_all (step e' (NewScope f (n_name n))) (length e') (n_declared n).
Definition plain (name : str) : prefixed := {| absolute := false; prefixes := []; pname := name |}.
(** What a parameter means in the elements of an entry that was referred to in [f]. *)
Definition inside (e : env) (f : frame_id) (assigned : list (str * obj)) (n : entry) (name : str) : result :=
  ref (instantiate e f assigned n) (fun _ => true) (length e) (plain name).
(** What it means in the scope of the reference. *)
Definition outside (e : env) (f : frame_id) (assigned : list (str * obj)) (n : entry) (name : str) : result :=
  ref (instantiate e f assigned n) (fun _ => true) f (plain name).
