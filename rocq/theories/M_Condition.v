(** * Model of conditions, condition groups, triggers, rules and state conditions.

    Paths are relative to /repo/openscenario/openscenario_interpreter (include/... abbreviates
    include/openscenario_interpreter/...).

    Time is a [Z] count of an arbitrary unit: every finite double is an integer multiple of
    2^-1074, so nothing is lost by that, except that the subtraction [back().time - delay] is
    exact here and rounded in the code. *)
From Coq Require Import ZArith List Bool QArith Qabs.
From Verif Require Import M_Storyboard.
Import ListNotations.
Local Open Scope Z_scope.

(** include/syntax/condition_edge.hpp (enumeration value_type). *)
Inductive edge := Rising | Falling | RisingOrFalling | NoEdge | Sticky.

(** include/syntax/condition.hpp:60-64, struct History. *)
Record hist := { h_time : Z; h_result : bool }.

(** include/syntax/condition.hpp:50-66: the mutable members of Condition ([histories] oldest first,
    [current_value]) and its constants [delay] and [condition_edge]. *)
Record condition := { c_edge : edge; c_delay : Z; c_hist : list hist; c_value : bool }.

(** src/syntax/condition.cpp:30-47, constructor: no history, current_value false. *)
Definition make_condition (e : edge) (d : Z) : condition :=
  {| c_edge := e; c_delay := d; c_hist := []; c_value := false |}.

(** Number of Boolean parameters of the function object handed to update_condition,
    src/syntax/condition.cpp:52-65 ([sizeof...(Booleans)]). *)
Definition arity (e : edge) : nat :=
  match e with Rising | Falling | RisingOrFalling => 2 | NoEdge | Sticky => 1 end.

(** src/syntax/condition.cpp:52-65, the five function objects. [a] is the first argument, [b] the
    second (ignored by the unary ones), [cur] the member current_value captured by sticky. *)
Definition edge_fun (e : edge) (cur a b : bool) : bool :=
  match e with
  | Rising => a && negb b
  | Falling => negb a && b
  | RisingOrFalling => xorb a b
  | NoEdge => a
  | Sticky => cur || a
  end.

(** std::distance(begin, std::find_if(begin, end, entry.time > limit)),
    include/syntax/condition.hpp:78-82. *)
Fixpoint find_later (limit : Z) (l : list hist) : nat :=
  match l with
  | [] => 0
  | x :: l' => if limit <? h_time x then 0%nat else S (find_later limit l')
  end.

Definition result_at (l : list hist) (i : nat) : bool :=
  match nth_error l i with Some x => h_result x | None => false end.

(** include/syntax/condition.hpp:74-90, update_condition, at simulation time [now] with the
    expression (ByEntityCondition / ByValueCondition) answering [v]. The tuple is brace-initialised,
    so [--iterator] is evaluated left to right: the first argument is the newest entry before
    [iterator], the second the one before it. Erased: everything before the last entry read. *)
Definition update_condition (c : condition) (now : Z) (v : bool) : condition :=
  let h := c_hist c ++ [ {| h_time := now; h_result := v |} ] in
  let k := find_later (now - c_delay c) h in
  let n := arity (c_edge c) in
  if (n <=? k)%nat then
    {| c_edge := c_edge c; c_delay := c_delay c;
       c_hist := skipn (k - n) h;
       c_value := edge_fun (c_edge c) (c_value c) (result_at h (k - 1)) (result_at h (k - 2)) |}
  else
    {| c_edge := c_edge c; c_delay := c_delay c; c_hist := h; c_value := false |}.

(** Evaluations number 0, 1, ..., n-1 of a condition; evaluation [i] happens at time [t i] with
    expression value [v i]. *)
Fixpoint run_condition (t : nat -> Z) (v : nat -> bool) (n : nat) (c : condition) : condition :=
  match n with
  | O => c
  | S m => update_condition (run_condition t v m c) (t m) (v m)
  end.

(** The value returned by evaluation number [n] of a fresh condition. *)
Definition answer (e : edge) (d : Z) (t : nat -> Z) (v : nat -> bool) (n : nat) : bool :=
  c_value (run_condition t v (S n) (make_condition e d)).

(** ** Groups and triggers *)

(** include/syntax/condition_group.hpp, include/syntax/trigger.hpp: a ConditionGroup is a list of
    Conditions, a Trigger a list of ConditionGroups; both have a [current_value]. *)
Record group := { g_conds : list condition; g_value : bool }.
Record trigger := { tr_groups : list group; tr_value : bool }.

(** Evaluating an expression asks the world. The answer may depend on everything asked before,
    e.g. because evaluating an expression has side effects: [world] is abstracted to the list of
    expressions asked so far (newest first), an expression is named by (group, index). *)
Definition name := (nat * nat)%type.
Definition oracle := list name -> name -> bool.

(** src/syntax/condition_group.cpp:27-36: std::accumulate over the conditions, [lhs and rhs] after
    evaluating [rhs] unconditionally. *)
Fixpoint eval_conds (o : oracle) (now : Z) (g i : nat) (acc : bool) (asked : list name)
  (l : list condition) : bool * list name * list condition :=
  match l with
  | [] => (acc, asked, [])
  | c :: l' =>
      let c' := update_condition c now (o asked (g, i)) in
      let '(r, asked', l'') := eval_conds o now g (S i) (acc && c_value c') ((g, i) :: asked) l' in
      (r, asked', c' :: l'')
  end.

Definition eval_group (o : oracle) (now : Z) (g : nat) (asked : list name) (gr : group) :
  bool * list name * group :=
  let '(r, asked', l) := eval_conds o now g 0 true asked (g_conds gr) in
  (r, asked', {| g_conds := l; g_value := r |}).

(** src/syntax/trigger.cpp:29-47. *)
Fixpoint eval_groups (o : oracle) (now : Z) (g : nat) (acc : bool) (asked : list name)
  (l : list group) : bool * list name * list group :=
  match l with
  | [] => (acc, asked, [])
  | gr :: l' =>
      let '(r, asked', gr') := eval_group o now g asked gr in
      let '(r', asked'', l'') := eval_groups o now (S g) (acc || r) asked' l' in
      (r', asked'', gr' :: l'')
  end.

Definition eval_trigger (o : oracle) (now : Z) (asked : list name) (tr : trigger) :
  bool * list name * trigger :=
  let '(r, asked', l) := eval_groups o now 0 false asked (tr_groups tr) in
  (r, asked', {| tr_groups := l; tr_value := r |}).

(** src/syntax/trigger.cpp:49-56, activeConditionGroupIndex: position of the first group all of
    whose conditions have a true current_value; the number of groups if there is none. *)
Fixpoint find_group (l : list group) : nat :=
  match l with
  | [] => 0
  | g :: l' => if forallb c_value (g_conds g) then 0%nat else S (find_group l')
  end.
Definition active_group (tr : trigger) : nat := find_group (tr_groups tr).

(** src/syntax/trigger.cpp:58-66, activeConditionGroupDescription dereferences
    [std::next(begin(), activeConditionGroupIndex())]: [None] is the undefined behaviour of
    dereferencing end(). *)
Definition active_group_described (tr : trigger) : option group :=
  nth_error (tr_groups tr) (active_group tr).

(** src/syntax/trigger.cpp:27: Trigger::truthy, one empty group. *)
Definition truthy : trigger := {| tr_groups := [ {| g_conds := []; g_value := false |} ]; tr_value := false |}.

(** ** StoryboardElementStateCondition *)

(** src/syntax/storyboard_element_state_condition.cpp:24-57: the monitored state and the member
    current_state (initially standbyState). *)
Record scond := { sc_state : state; sc_current : state }.
Definition make_scond (s : state) : scond := {| sc_state := s; sc_current := Standby |}.

(** What happens over time, seen from the condition: the referenced element makes a transition, or
    the condition is evaluated. Simplification: the element is a state only. *)
Inductive sop := Enter (s : state) | Evaluate.

(** include/syntax/storyboard_element.hpp:172-179 (transitionTo calls the callbacks registered for
    the new state after updating it) with the callback of
    src/syntax/storyboard_element_state_condition.cpp:44-50, and
    src/syntax/storyboard_element_state_condition.cpp:66-89 (evaluate: [or] short-circuits, so
    update() runs only if the first comparison fails). The answer is [Some] for an evaluation. *)
Definition sstep (el : state) (c : scond) (op : sop) : state * scond * option bool :=
  match op with
  | Enter s =>
      (s, if state_eqb s (sc_state c) then {| sc_state := sc_state c; sc_current := s |} else c,
       None)
  | Evaluate =>
      if state_eqb (sc_current c) (sc_state c) then (el, c, Some true)
      else (el, {| sc_state := sc_state c; sc_current := el |},
            Some (state_eqb el (sc_state c)))
  end.

Fixpoint srun (el : state) (c : scond) (ops : list sop) : state * scond * list bool :=
  match ops with
  | [] => (el, c, [])
  | op :: ops' =>
      let '(el', c', r) := sstep el c op in
      let '(el'', c'', rs) := srun el' c' ops' in
      (el'', c'', match r with Some b => b :: rs | None => rs end)
  end.

(** ** Rule and TriggeringEntitiesRule *)

(** IEEE-754 values, with the finite ones as rationals (exact; the difference in equalTo is not
    rounded here, which by Sterbenz' lemma only matters for operands that are far apart). *)
Inductive num := Fin (q : Q) | PInf | NInf | NaN.

(** include/syntax/rule.hpp:62-69. *)
Inductive rule := EqualTo | GreaterThan | LessThan | GreaterOrEqual | LessOrEqual | NotEqualTo.

Definition lt_num (a b : num) : bool :=
  match a, b with
  | NaN, _ | _, NaN => false
  | Fin x, Fin y => negb (Qle_bool y x)
  | NInf, NInf => false | NInf, _ => true
  | _, NInf => false
  | PInf, _ => false | _, PInf => true
  end.
Definition eq_num (a b : num) : bool :=
  match a, b with
  | Fin x, Fin y => Qeq_bool x y
  | PInf, PInf | NInf, NInf => true
  | _, _ => false
  end.
Definition is_nan (a : num) : bool := match a with NaN => true | _ => false end.

(** std::numeric_limits<double>::epsilon(). *)
Definition epsilon : Q := 1 # 4503599627370496.

(** include/functional/equal_to.hpp:33-60, [std::abs(lhs - rhs) < epsilon]: inf - inf and anything
    with NaN is NaN, inf minus a finite value is infinite, so only finite operands can be equal. *)
Definition equal_to_floating (a b : num) : bool :=
  match a, b with
  | Fin x, Fin y => negb (Qle_bool epsilon (Qabs (x - y)))
  | _, _ => false
  end.

(** include/syntax/rule.hpp:77-100. [floating] tells which specialisation of equal_to is selected:
    true for T = double and T = std::valarray<double> (the entity conditions), false for
    T = Double (SimulationTimeCondition, ParameterCondition), where the primary template
    (include/functional/equal_to.hpp:28-31) is std::equal_to. *)
Definition apply_rule (floating : bool) (r : rule) (a b : num) : bool :=
  match r with
  | EqualTo => if floating then equal_to_floating a b else eq_num a b
  | GreaterThan => lt_num b a
  | LessThan => lt_num a b
  | GreaterOrEqual => lt_num b a || eq_num a b
  | LessOrEqual => lt_num a b || eq_num a b
  | NotEqualTo => negb (eq_num a b)
  end.

(** include/syntax/triggering_entities_rule.hpp:45-71. *)
Inductive te_rule := All | Any | NoneOf.

(** std::all_of / any_of / none_of with the list of entities actually tested (in order). *)
Fixpoint all_of {A} (f : A -> bool) (l : list A) : bool * list A :=
  match l with
  | [] => (true, [])
  | x :: l' => if f x then let '(b, s) := all_of f l' in (b, x :: s) else (false, [x])
  end.
Fixpoint any_of {A} (f : A -> bool) (l : list A) : bool * list A :=
  match l with
  | [] => (false, [])
  | x :: l' => if f x then (true, [x]) else let '(b, s) := any_of f l' in (b, x :: s)
  end.
Definition apply_te {A} (r : te_rule) (f : A -> bool) (l : list A) : bool * list A :=
  match r with
  | All => all_of f l
  | Any => any_of f l
  | NoneOf => let '(b, s) := any_of f l in (negb b, s)
  end.

(** An entity condition, e.g. src/syntax/speed_condition.cpp:85-97,
    src/syntax/stand_still_condition.cpp:45-54, src/syntax/acceleration_condition.cpp:45-54: each
    triggering entity stands for a valarray of values (one per member of a selection), and
    satisfies the predicate if the valarray is empty or the minimum of the comparisons is true. *)
Definition entity_predicate (r : rule) (threshold : num) (values : list num) : bool :=
  match values with
  | [] => true
  | _ => forallb (fun x => apply_rule true r x threshold) values
  end.
Definition entity_condition (te : te_rule) (r : rule) (threshold : num) (entities : list (list num))
  : bool := fst (apply_te te (entity_predicate r threshold) entities).
