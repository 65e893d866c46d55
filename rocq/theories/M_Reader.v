(** Reading the elements of an XML document:
    openscenario/openscenario_interpreter/include/openscenario_interpreter/reader/element.hpp ("hpp") and
    src/reader/element.cpp ("cpp"), and with it the reading of parameter distributions in src/syntax.
    A constructor is a function from a node to what it makes or to an error; what it does to the scope
    is left out (simplification). Attributes are the subject of M_Attribute.v. *)
From Coq Require Import String List Bool Arith.
Import ListNotations.
Local Open Scope list_scope.

(** pugi::xml_node, as far as the functions here look at it: the name and the children *)
Inductive Node : Set := node (name : string) (children : list Node).
Definition name_of (n : Node) : string := match n with node s _ => s end.
Definition children_of (n : Node) : list Node := match n with node _ c => c end.

(** An exception: those of the reader itself, or one thrown by a constructor *)
Inductive Error : Set := Missing | TooFew | TooMany | NoneOf | SeveralOf | Thrown (which : nat).
Inductive Result (A : Type) : Type := Made (a : A) | Failed (e : Error).
Arguments Made {A}. Arguments Failed {A}.

(** pugi's [children(name)] and [child(name)] *)
Definition children_named (s : string) (n : Node) : list Node :=
  filter (fun c => String.eqb (name_of c) s) (children_of n).
Definition child_named (s : string) (n : Node) : option Node := hd_error (children_named s n).

(** hpp:73-75, the constructors called one after the other *)
Fixpoint make_all {A} (make : Node -> Result A) (l : list Node) : Result (list A) :=
  match l with
  | [] => Made []
  | c :: l' =>
      match make c with
      | Failed e => Failed e
      | Made a => match make_all make l' with Failed e => Failed e | Made r => Made (a :: r) end
      end
  end.

(** hpp:56-82 and 133-143, traverse and readElements; no upper bound is [None] *)
Definition read_elements {A} (least : nat) (most : option nat) (s : string) (make : Node -> Result A) (n : Node)
  : Result (list A) :=
  let children := children_named s n in
  let size := length children in
  if negb (size =? 0) then
    if negb (least =? 0) && (size <? least) then Failed TooFew
    else if match most with Some m => m <? size | None => false end then Failed TooMany
    else make_all make children
  else if negb (least =? 0) then Failed Missing
  else Made [].

(** hpp:84-100; [default] is the default constructor, if there is one
    (type_traits/must_be_default_constructible.hpp:25-44). With a default value, lines 115-121, the same. *)
Definition read_element {A} (default : option A) (s : string) (make : Node -> Result A) (n : Node) : Result A :=
  match child_named s n with
  | Some c => make c
  | None => match default with Some a => Made a | None => Failed Missing end
  end.

(** hpp:145-173 *)
Definition read_groups {A} (least : nat) (most : option nat) (make : Node -> Result A) (n : Node) : Result (list A) :=
  let groups := flat_map (fun c => match make c with Made a => [a] | Failed _ => [] end) (children_of n) in
  if negb (least =? 0) && (length groups <? least) then Failed TooFew
  else if match most with Some m => m <? length groups | None => false end then Failed TooMany
  else Made groups.

(** cpp:33-87; the callees are a map: a list with one entry per name, in any order *)
Definition choice {A} (n : Node) (callees : list (string * (Node -> Result A))) : Result A :=
  let specs := flat_map (fun e => match child_named (fst e) n with Some c => [(snd e, c)] | None => [] end) callees in
  match specs with
  | [] => Failed NoneOf
  | [(f, c)] => f c
  | _ => Failed SeveralOf
  end.

(** *** Parameter distributions. What is read of them: for one parameter or for several together, and a
    number for the distribution itself, made by [leaf] out of its node (simplification: the constructors
    of the distributions themselves, and the attributes, are left out). *)
Inductive Distribution : Set := Single (which : nat) | Multi (which : nat).
Definition leaf_constructor := Node -> Result nat.
Definition map_result {A B} (f : A -> B) (r : Result A) : Result B :=
  match r with Made a => Made (f a) | Failed e => Failed e end.

(** syntax/deterministic_single_parameter_distribution_type.cpp:22-34 *)
Definition deterministic_single (leaf : leaf_constructor) (n : Node) : Result nat :=
  choice n [("DistributionSet"%string, leaf); ("DistributionRange"%string, leaf);
            ("UserDefinedDistribution"%string, leaf)].
(** syntax/deterministic_multi_parameter_distribution_type.cpp:22-26 *)
Definition deterministic_multi (leaf : leaf_constructor) (n : Node) : Result nat :=
  read_element None "ValueSetDistribution" leaf n.
(** syntax/deterministic_parameter_distribution.cpp:22-33 *)
Definition deterministic_parameter_distribution (leaf : leaf_constructor) (n : Node) : Result Distribution :=
  choice n [("DeterministicMultiParameterDistribution"%string, fun c => map_result Multi (deterministic_multi leaf c));
            ("DeterministicSingleParameterDistribution"%string, fun c => map_result Single (deterministic_single leaf c))].
(** syntax/deterministic.cpp:22-26 *)
Definition deterministic (leaf : leaf_constructor) (n : Node) : Result (list Distribution) :=
  read_groups 0 None (deterministic_parameter_distribution leaf) n.

(** syntax/stochastic.cpp:27-34 and stochastic_distribution.cpp:22-27, stochastic_distribution_type.cpp:22-36 *)
Definition stochastic_distribution (leaf : leaf_constructor) (n : Node) : Result nat :=
  choice n [("ProbabilityDistributionSet"%string, leaf); ("NormalDistribution"%string, leaf);
            ("UniformDistribution"%string, leaf); ("PoissonDistribution"%string, leaf);
            ("Histogram"%string, leaf); ("UserDefinedDistribution"%string, leaf)].
Definition stochastic (leaf : leaf_constructor) (n : Node) : Result (list Distribution) :=
  map_result (fun w => [Single w]) (read_element None "StochasticDistribution" (stochastic_distribution leaf) n).

(** syntax/distribution_definition.cpp:22-32 *)
Definition distribution_definition (leaf : leaf_constructor) (n : Node) : Result (list Distribution) :=
  choice n [("Deterministic"%string, deterministic leaf); ("Stochastic"%string, stochastic leaf)].
(** syntax/parameter_value_distribution.cpp:22-26; [file] is the constructor of File *)
Definition parameter_value_distribution (leaf file : leaf_constructor) (n : Node) : Result (nat * list Distribution) :=
  match distribution_definition leaf n with
  | Failed e => Failed e
  | Made l => map_result (fun f => (f, l)) (read_element None "ScenarioFile" file n)
  end.
(** syntax/parameter_value_distribution_definition.cpp:22-27 *)
Definition parameter_value_distribution_definition (leaf file : leaf_constructor) (n : Node)
  : Result (nat * list Distribution) :=
  read_element None "parameterValueDistribution" (parameter_value_distribution leaf file) n.

(** syntax/open_scenario_category.cpp:25-35; [scenario] and [catalog] stand for the constructors of
    ScenarioDefinition and CatalogDefinition, which are given the parent *)
Inductive Category : Set :=
| Scenario (which : nat) | Catalog (which : nat) | Distributed (file : nat) (l : list Distribution).
Definition open_scenario_category (scenario catalog leaf file : leaf_constructor) (tree : Node) : Result Category :=
  choice tree
    [("Storyboard"%string, fun _ => map_result Scenario (scenario tree));
     ("Catalog"%string, fun _ => map_result Catalog (catalog tree));
     ("ParameterValueDistribution"%string,
      fun c => map_result (fun x => Distributed (fst x) (snd x)) (parameter_value_distribution_definition leaf file c))].
