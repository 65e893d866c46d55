(** * Model of the scenario preprocessor.

    /repo/openscenario/openscenario_preprocessor/src/openscenario_preprocessor.cpp (abbreviated
    "src") and include/openscenario_preprocessor/openscenario_preprocessor.hpp ("hpp"). The services
    Load, Derive and Check hold one mutex for their whole body (src:30, 47, 61), so they are atomic.
    SetParameter does not (src:66-70); it is taken to be atomic here, which is a simplification:
    running it concurrently with Load is a data race. *)
From Coq Require Import List Bool Arith ZArith Ascii String.
From Verif Require Import M_Scope.
Import ListNotations.
Local Open Scope list_scope.

(** A path: directory and file name. *)
Definition path := (str * str)%type.
Definition path_eqb (p q : path) : bool := str_eqb (fst p) (fst q) && str_eqb (snd p) (snd q).

(** What the file at a path contains, as far as the preprocessor looks at it: whether validation.py
    accepts it (src:74-79), whether constructing OpenScenario from an ordinary scenario succeeds
    (src:87; false: an exception), and whether it is a ParameterValueDistribution (naming its base scenario) or an
    ordinary scenario with the children of its ParameterDeclarations element (name, value); the rest
    of the document is a [nat]. *)
Inductive kind := Distribution (base : path) | Ordinary (declared : list (str * str)) (rest : nat).
Record document := { valid : bool; loadable : bool; kind_of : kind }.

Definition filesystem := path -> option document.
Definition write (fs : filesystem) (p : path) (d : option document) : filesystem :=
  fun q => if path_eqb p q then d else fs q.

(** hpp:31-54, ScenarioSet. *)
Definition scenario := (path * Z)%type.

(** hpp:56-84: the members of Preprocessor and the disk. override_parameters is a map: a list with
    one entry per key, in the (unspecified) order of iteration. *)
Record state := { fs : filesystem; queue : list scenario; overrides : list (str * str) }.

(** What the operating system does during a Load: everything works, std::filesystem::rename /
    create_directories throws (src:124-125), or save_file fails (src:129). *)
Inductive io := Works | RenameFails | SaveFails.

(** src:74-79, validateXOSC: a missing file is not valid. *)
Definition validate (f : filesystem) (p : path) : bool :=
  match f p with Some d => valid d | None => false end.

(** src:111-113: the first child with that name gets the value. *)
Fixpoint set_declared (l : list (str * str)) (n v : str) : list (str * str) :=
  match l with
  | [] => []
  | (m, w) :: l' => if str_eqb m n then (m, v) :: l' else (m, w) :: set_declared l' n v
  end.
(** src:109-120. *)
Definition apply_overrides (os : list (str * str)) (l : list (str * str)) : list (str * str) :=
  fold_left (fun l o => set_declared l (fst o) (snd o)) os l.

(** src:123, scenario.path.parent_path() / "raw" / filename. *)
Definition raw (p : path) : path := (fst p ++ list_ascii_of_string "/raw", snd p).

(** src:87, whether OpenScenario can be constructed. Of a ParameterValueDistribution it cannot:
    openscenario_interpreter/src/syntax/parameter_value_distribution_definition.cpp:22-27 looks for an
    element parameterValueDistribution inside of the element ParameterValueDistribution, and in a valid
    file there is none ([C160_rejected] in T_Reader.v, where the reading is modelled). *)
Definition constructs (d : document) : bool :=
  match kind_of d with Distribution _ => false | Ordinary _ _ => loadable d end.

(** src:81-141, preprocessScenario. [None]: an exception. The file system is returned in both cases
    (the original may already have been moved away). *)
Definition preprocess (s : state) (p : path) (rate : Z) (i : io) : filesystem * option (list scenario) :=
  if validate (fs s) p then
    match fs s p with
    | Some d =>
        if constructs d then
          match kind_of d with
          | Distribution base =>
              match fs s base with
              | Some _ => if validate (fs s) base then (fs s, Some []) else (fs s, None)
              | None => (fs s, None)
              end
          | Ordinary l r =>
              let d' := {| valid := valid d; loadable := loadable d;
                           kind_of := Ordinary (apply_overrides (overrides s) l) r |} in
              match i with
              | RenameFails => (fs s, None)
              | SaveFails => (write (write (fs s) (raw p) (Some d)) p None, None)
              | Works => (write (write (fs s) (raw p) (Some d)) p (Some d'), Some [(p, rate)])
              end
          end
        else (fs s, None)
    | None => (fs s, None)
    end
  else (fs s, None).

Inductive request := Load (p : path) (rate : Z) (i : io) | Derive | Check | SetParameter (n v : str).
Inductive response := Loaded (succeeded : bool) | Derived (s : option scenario) | Remains (b : bool) | Done.

(** std::unordered_map::operator[] and assignment. *)
Fixpoint put (l : list (str * str)) (n v : str) : list (str * str) :=
  match l with
  | [] => [(n, v)]
  | (m, w) :: l' => if str_eqb m n then (m, v) :: l' else (m, w) :: put l' n v
  end.

(** src:27-71, the four services. [Derived None] is the answer "no output". *)
Definition serve (s : state) (r : request) : state * response :=
  match r with
  | Load p rate i =>
      match preprocess s p rate i with
      | (f, Some l) => ({| fs := f; queue := queue s ++ l; overrides := overrides s |}, Loaded true)
      | (f, None) => ({| fs := f; queue := []; overrides := overrides s |}, Loaded false)
      end
  | Derive =>
      match queue s with
      | [] => (s, Derived None)
      | x :: q => ({| fs := fs s; queue := q; overrides := overrides s |}, Derived (Some x))
      end
  | Check => (s, Remains (match queue s with [] => false | _ => true end))
  | SetParameter n v => ({| fs := fs s; queue := queue s; overrides := put (overrides s) n v |}, Done)
  end.

Fixpoint serve_all (s : state) (rs : list request) : state * list (request * response) :=
  match rs with
  | [] => (s, [])
  | r :: rs' =>
      let '(s1, a) := serve s r in
      let '(s2, l) := serve_all s1 rs' in
      (s2, (r, a) :: l)
  end.
Definition start (f : filesystem) : state := {| fs := f; queue := []; overrides := [] |}.
