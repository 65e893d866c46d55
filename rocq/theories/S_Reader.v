(** Specification of reading elements: in terms of the children of a node. *)
From Coq Require Import String List Bool Arith.
From Verif Require Import M_Reader.
Import ListNotations.
Local Open Scope list_scope.

(** [c] is the first child of [n] called [s] *)
Definition first_called (s : string) (n c : Node) : Prop :=
  exists before after, children_of n = before ++ c :: after /\ name_of c = s
    /\ forall x, In x before -> name_of x <> s.
(** No child is called [s] *)
Definition none_called (s : string) (n : Node) : Prop := forall x, In x (children_of n) -> name_of x <> s.

(** [part] is what [whole] has of the elements that satisfy [P], in the same order. *)
Inductive those {A} (P : A -> Prop) : list A -> list A -> Prop :=
| those_nil : those P [] []
| those_yes : forall x whole part, P x -> those P whole part -> those P (x :: whole) (x :: part)
| those_no : forall x whole part, ~ P x -> those P whole part -> those P (x :: whole) part.
(** Those that can be made, and what is made of them *)
Inductive made {A} (make : Node -> Result A) : list Node -> list A -> Prop :=
| made_nil : made make [] []
| made_yes : forall c whole a part, make c = Made a -> made make whole part -> made make (c :: whole) (a :: part)
| made_no : forall c e whole part, make c = Failed e -> made make whole part -> made make (c :: whole) part.

Definition within (least : nat) (most : option nat) (k : nat) : Prop :=
  least <= k /\ match most with Some m => k <= m | None => True end.

(** The document as it is without one child *)
Definition with_child (name : string) (before : list Node) (x : Node) (after : list Node) : Node :=
  node name (before ++ x :: after).
Definition without_child (name : string) (before after : list Node) : Node := node name (before ++ after).

(** *** The schema of parameter distributions (openscenario_validator/schema/OpenSCENARIO-1.3.xsd,
    lines 1035-1068, 1097-1102, 1673-1683 and 2093-2103), as far as names and nesting go *)
Definition named (l : list string) (n : Node) : Prop := In (name_of n) l.
Inductive conforms_single : Node -> Prop :=
| cs : forall d, named ["DistributionSet"; "DistributionRange"; "UserDefinedDistribution"]%string d ->
    conforms_single (node "DeterministicSingleParameterDistribution" [d]).
Inductive conforms_multi : Node -> Prop :=
| cm : forall d, named ["ValueSetDistribution"]%string d ->
    conforms_multi (node "DeterministicMultiParameterDistribution" [d]).
Inductive conforms_deterministic : Node -> Prop :=
| cd : forall l, (forall x, In x l -> conforms_single x \/ conforms_multi x) ->
    conforms_deterministic (node "Deterministic" l).
Inductive conforms_stochastic : Node -> Prop :=
| ct : forall l, l <> [] ->
    (forall x, In x l -> exists d, x = node "StochasticDistribution" [d]
      /\ named ["ProbabilityDistributionSet"; "NormalDistribution"; "UniformDistribution"; "PoissonDistribution";
                "Histogram"; "UserDefinedDistribution"]%string d) ->
    conforms_stochastic (node "Stochastic" l).
(** A file of parameter distributions *)
Inductive conforms_distribution : Node -> Prop :=
| cf : forall header file d, name_of header = "FileHeader"%string -> name_of file = "ScenarioFile"%string ->
    conforms_deterministic d \/ conforms_stochastic d ->
    conforms_distribution
      (node "OpenSCENARIO" [header; node "ParameterValueDistribution" [file; d]]).
