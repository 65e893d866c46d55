(** * Model of parameter declarations, constraints, parameter conditions and parameter actions.

    Paths are relative to /repo/openscenario/openscenario_interpreter (include/... abbreviates
    include/openscenario_interpreter/...). Strings are lists of bytes. *)
From Coq Require Import Ascii String List Bool Arith ZArith QArith Qround.
From Verif Require Import M_Condition M_Scope.
Import ListNotations.
Local Open Scope Z_scope.
Local Open Scope list_scope.

(** src/syntax/parameter_type.cpp:39-45. *)
Inductive ptype := PInteger | PDouble | PString | PUnsignedInt | PUnsignedShort | PBoolean | PDateTime.

(** The run-time types a parameter object can have: include/syntax/boolean.hpp:26, double.hpp:22,
    integer.hpp:22 (std::int64_t), string.hpp, unsigned_integer.hpp:24 (std::uint64_t),
    unsigned_short.hpp:24 (std::uint16_t). Finite doubles are rationals. *)
Inductive value :=
| VBoolean (b : bool) | VDouble (d : num) | VInteger (z : Z) | VString (s : str)
| VUnsignedInteger (z : Z) | VUnsignedShort (z : Z).

(** Everything the modelled functions can do: return, throw, or run into undefined behaviour. *)
Inductive outcome (A : Type) := Returns (a : A) | Throws | Undefined.
Arguments Returns {A} a.
Arguments Throws {A}.
Arguments Undefined {A}.
Definition bind {A B} (x : outcome A) (f : A -> outcome B) : outcome B :=
  match x with Returns a => f a | Throws => Throws | Undefined => Undefined end.
Definition of_option {A} (x : option A) : outcome A :=
  match x with Some a => Returns a | None => Throws end.

(** ** Literals *)

Definition digit (c : ascii) : option Z :=
  let n := Z.of_N (N_of_ascii c) in
  if (48 <=? n) && (n <=? 57) then Some (n - 48) else None.
Fixpoint digits (acc : Z) (s : str) : option Z :=
  match s with
  | [] => Some acc
  | c :: s' => match digit c with Some d => digits (10 * acc + d) s' | None => None end
  end.
(** One or more decimal digits. *)
Definition natural (s : str) : option Z := match s with [] => None | _ => digits 0 s end.
Definition minus_sign : ascii := "-"%char.
Definition plus_sign : ascii := "+"%char.
(** An optional sign: (negative?, magnitude). *)
Definition signed (s : str) : option (bool * Z) :=
  match s with
  | c :: s' =>
      if Ascii.eqb c minus_sign then option_map (pair true) (natural s')
      else if Ascii.eqb c plus_sign then option_map (pair false) (natural s')
      else option_map (pair false) (natural s)
  | [] => None
  end.

(** boost::lexical_cast<std::int64_t>, src/syntax/integer.cpp:30-36 and 71-79 (in the second the
    token is all of the text or the cast fails). *)
Definition read_integer (s : str) : option Z :=
  match signed s with
  | Some (true, m) => if m <=? 2 ^ 63 then Some (- m) else None
  | Some (false, m) => if m <? 2 ^ 63 then Some m else None
  | None => None
  end.
(** boost::lexical_cast and operator>> for an unsigned type of [bits] bits,
    src/syntax/unsigned_integer.cpp:30-36, 59-62, unsigned_short.cpp:30-36, 57-60: a minus sign is
    accepted and negates modulo 2^bits. *)
Definition read_unsigned (bits : Z) (s : str) : option Z :=
  match signed s with
  | Some (true, m) => if m <? 2 ^ bits then Some ((- m) mod 2 ^ bits) else None
  | Some (false, m) => if m <? 2 ^ bits then Some m else None
  | None => None
  end.

Definition chars (s : string) : str := list_ascii_of_string s.
Fixpoint strip_prefix (p s : str) : option str :=
  match p, s with
  | [], _ => Some s
  | a :: p', b :: s' => if Ascii.eqb a b then strip_prefix p' s' else None
  | _ :: _, [] => None
  end.
(** std::istream >> std::boolalpha >> bool: the longest of "true" / "false" the text starts with,
    and the text left. *)
Definition read_bool (s : str) : option (bool * str) :=
  match strip_prefix (chars "true") s with
  | Some r => Some (true, r)
  | None => option_map (pair false) (strip_prefix (chars "false") s)
  end.
(** isspace in the C locale. *)
Definition is_space (c : ascii) : bool :=
  let n := N_of_ascii c in (n =? 32)%N || ((9 <=? n) && (n <=? 13))%N.
Fixpoint skip_space (s : str) : str :=
  match s with c :: s' => if is_space c then skip_space s' else s | [] => [] end.
(** src/syntax/boolean.cpp:31-38, Boolean(const std::string &): a stream extraction that skips
    white space and ignores what follows. *)
Definition construct_boolean (s : str) : option bool := option_map fst (read_bool (skip_space s)).
(** boost::lexical_cast<Boolean>, src/syntax/boolean.cpp:52-56: does not skip white space, all of
    the text has to be consumed. *)
Definition cast_boolean (s : str) : option bool :=
  match read_bool s with Some (b, []) => Some b | _ => None end.

(** Reading doubles is not modelled; [lexical] stands for boost::lexical_cast<double>. Everything
    below holds for every such function. *)
Definition lexical := str -> option num.
(** src/syntax/double.cpp:30-35, Double(const std::string &). *)
Definition construct_double (lex : lexical) (s : str) : option num := lex s.
(** src/syntax/double.cpp:82-99, operator>>, as used by boost::lexical_cast<Double>: one token (no
    white space), "INF" with an optional sign is an infinity. *)
Definition cast_double (lex : lexical) (s : str) : option num :=
  if existsb is_space s then None
  else if str_eqb s (chars "INF") || str_eqb s (chars "+INF") then Some PInf
  else if str_eqb s (chars "-INF") then Some NInf
  else match s with [] => None | _ => lex s end.

(** src/syntax/parameter_declaration.cpp:60-74, get_value: the constructors from a string. *)
Definition construct (lex : lexical) (t : ptype) (s : str) : outcome value :=
  match t with
  | PBoolean => of_option (option_map VBoolean (construct_boolean s))
  | PDateTime => Returns (VString s)
  | PDouble => of_option (option_map VDouble (construct_double lex s))
  | PInteger => of_option (option_map VInteger (read_integer s))
  | PString => Returns (VString s)
  | PUnsignedInt => of_option (option_map VUnsignedInteger (read_unsigned 64 s))
  | PUnsignedShort => of_option (option_map VUnsignedShort (read_unsigned 16 s))
  end.

(** ** Comparison *)

(** std::string's operator<: lexicographic, bytes as unsigned char. *)
Fixpoint lt_str (a b : str) : bool :=
  match a, b with
  | _, [] => false
  | [], _ :: _ => true
  | x :: a', y :: b' =>
      (N_of_ascii x <? N_of_ascii y)%N || (Ascii.eqb x y && lt_str a' b')
  end.
(** include/syntax/rule.hpp:77-100 for a type with operators < and ==; equal_to is std::equal_to
    for all parameter types (include/functional/equal_to.hpp:28-31). *)
Definition compare_with {A} (lt eq : A -> A -> bool) (r : rule) (a b : A) : bool :=
  match r with
  | EqualTo => eq a b
  | GreaterThan => lt b a
  | LessThan => lt a b
  | GreaterOrEqual => lt b a || eq a b
  | LessOrEqual => lt a b || eq a b
  | NotEqualTo => negb (eq a b)
  end.
Definition lt_bool (a b : bool) : bool := negb a && b.

(** src/syntax/parameter_condition.cpp:35-59, compare. *)
Definition compare (lex : lexical) (p : value) (r : rule) (s : str) : outcome bool :=
  match p with
  | VBoolean b =>
      bind (of_option (construct_boolean s)) (fun x => Returns (compare_with lt_bool Bool.eqb r b x))
  | VDouble d =>
      bind (of_option (construct_double lex s)) (fun x => Returns (apply_rule false r d x))
  | VInteger z =>
      bind (of_option (read_integer s)) (fun x => Returns (compare_with Z.ltb Z.eqb r z x))
  | VString t => Returns (compare_with lt_str str_eqb r t s)
  | VUnsignedInteger z =>
      bind (of_option (read_unsigned 64 s)) (fun x => Returns (compare_with Z.ltb Z.eqb r z x))
  | VUnsignedShort z =>
      bind (of_option (read_unsigned 16 s)) (fun x => Returns (compare_with Z.ltb Z.eqb r z x))
  end.

(** ** Constraints and declarations *)

(** include/syntax/value_constraint.hpp. *)
Record constraint := { k_rule : rule; k_value : str }.

(** src/syntax/value_constraint_group.cpp:27-32: std::all_of, leaving at the first false one; a
    constraint that throws (src/syntax/value_constraint.cpp:29-32) ends everything. *)
Fixpoint eval_constraints (lex : lexical) (p : value) (l : list constraint) : outcome bool :=
  match l with
  | [] => Returns true
  | k :: l' =>
      bind (compare lex p (k_rule k) (k_value k))
        (fun b => if b then eval_constraints lex p l' else Returns false)
  end.
(** src/syntax/value_constraint_group.cpp:22-25: traverse<1, unbounded>. *)
Definition group_accepted (l : list constraint) : bool := match l with [] => false | _ => true end.

(** src/syntax/parameter_declaration.cpp:78-80: std::any_of, leaving at the first true one. *)
Fixpoint eval_alternatives (lex : lexical) (p : value) (l : list (list constraint)) : outcome bool :=
  match l with
  | [] => Returns false
  | g :: l' =>
      bind (eval_constraints lex p g)
        (fun b => if b then Returns true else eval_alternatives lex p l')
  end.

(** include/syntax/parameter_declaration.hpp, attributes already read. *)
Record declaration :=
  { d_name : str; d_type : ptype; d_value : str; d_groups : list (list constraint) }.

(** src/syntax/parameter_declaration.cpp:58-89, evaluate. The switch on constraint_groups.empty()
    comes first, then get_value() is called for each group and once for the result; it is pure. *)
Definition evaluate (lex : lexical) (d : declaration) : outcome value :=
  match d_groups d with
  | [] => construct lex (d_type d) (d_value d)
  | gs =>
      bind (construct lex (d_type d) (d_value d)) (fun v =>
      bind (eval_alternatives lex v gs) (fun b => if b then Returns v else Throws))
  end.

(** src/syntax/parameter_declaration.cpp:25-46, checkName. *)
Definition check_name (n : str) : outcome str :=
  if str_eqb (firstn 3 n) (chars "OSC") then Throws else Returns n.

(** The parameters of a scope, in order of declaration; a later insertion under the same name does
    not replace an earlier one (std::multimap, see M_Scope). *)
Definition parameters := list (str * value).

(** src/syntax/parameter_declaration.cpp:48-56, the constructor: groups first (traverse), then
    checkName and evaluate (in either order: both are pure or throw), then the insertion. *)
Definition declare (lex : lexical) (ps : parameters) (d : declaration) : outcome parameters :=
  if forallb group_accepted (d_groups d) then
    bind (check_name (d_name d)) (fun n =>
    bind (evaluate lex d) (fun v => Returns (ps ++ [(n, v)])))
  else Throws.
Fixpoint declare_all (lex : lexical) (ps : parameters) (ds : list declaration) : outcome parameters :=
  match ds with
  | [] => Returns ps
  | d :: ds' => bind (declare lex ps d) (fun ps' => declare_all lex ps' ds')
  end.

(** ** Conditions and actions on parameters *)

(** Scope::ref within one scope (see M_Scope for the whole lookup): [None] if the name is not there
    or is ambiguous (include/scope.hpp:85-104), which every caller below turns into an exception. *)
Definition named (n : str) (p : str * value) : bool := str_eqb (fst p) n.
Definition lookup (ps : parameters) (n : str) : option value :=
  match filter (named n) ps with [p] => Some (snd p) | _ => None end.
(** Assignment through the object found by Scope::ref. *)
Definition assign (ps : parameters) (n : str) (v : value) : parameters :=
  map (fun p => if named n p then (fst p, v) else p) ps.

(** src/syntax/parameter_condition.cpp:71-83, evaluate. *)
Definition condition_holds (lex : lexical) (ps : parameters) (n : str) (r : rule) (s : str) :
  outcome bool :=
  match lookup ps n with
  | Some v => compare lex v r s
  | None => Throws
  end.

(** src/syntax/parameter_set_action.cpp:40-51: boost::lexical_cast to the type the parameter
    already has. *)
Definition cast_like (lex : lexical) (p : value) (s : str) : outcome value :=
  match p with
  | VBoolean _ => of_option (option_map VBoolean (cast_boolean s))
  | VDouble _ => of_option (option_map VDouble (cast_double lex s))
  | VInteger _ => of_option (option_map VInteger (read_integer s))
  | VString _ => Returns (VString s)
  | VUnsignedInteger _ => of_option (option_map VUnsignedInteger (read_unsigned 64 s))
  | VUnsignedShort _ => of_option (option_map VUnsignedShort (read_unsigned 16 s))
  end.
(** src/syntax/parameter_set_action.cpp:37-56, set. *)
Definition set (lex : lexical) (ps : parameters) (n s : str) : outcome parameters :=
  match lookup ps n with
  | Some v => bind (cast_like lex v s) (fun w => Returns (assign ps n w))
  | None => Throws
  end.

(** Conversion of a double to an integer type: truncation, undefined unless the truncated value
    is representable. *)
Definition truncate (q : Q) : Z := Z.quot (Qnum q) (Zpos (Qden q)).
Definition to_integral (lo hi : Z) (d : num) : outcome Z :=
  match d with
  | Fin q => if (lo <=? truncate q) && (truncate q <? hi) then Returns (truncate q) else Undefined
  | _ => Undefined
  end.
(** IEEE addition and multiplication, exact on finite values. *)
Definition add_num (a b : num) : num :=
  match a, b with
  | NaN, _ | _, NaN => NaN
  | Fin x, Fin y => Fin (x + y)
  | PInf, NInf | NInf, PInf => NaN
  | PInf, _ | _, PInf => PInf
  | NInf, _ | _, NInf => NInf
  end.
Definition sign_num (a : num) : Z :=
  match a with Fin q => Z.sgn (Qnum q) | PInf => 1 | NInf => -1 | NaN => 0 end.
Definition mul_num (a b : num) : num :=
  match a, b with
  | NaN, _ | _, NaN => NaN
  | Fin x, Fin y => Fin (x * y)
  | _, _ => match sign_num a * sign_num b with Zpos _ => PInf | Zneg _ => NInf | Z0 => NaN end
  end.

Inductive modification := AddValue (d : num) | MultiplyByValue (d : num).

(** src/syntax/parameter_add_value_rule.cpp:30-70, parameter_multiply_by_value_rule.cpp:31-71, with
    Integer::operator+=(const double &) (integer.cpp:48-58: the sum is a double, truncated on
    assignment) and UnsignedInteger / UnsignedShort::operator+=(const value_type &)
    (unsigned_integer.cpp:44-54, unsigned_short.cpp:43-53: the operand is converted to the unsigned
    type first). Simplification: double arithmetic on integers is exact. *)
Definition modify_value (m : modification) (p : value) : outcome value :=
  match p, m with
  | VInteger z, AddValue d =>
      bind (to_integral (- 2 ^ 63) (2 ^ 63) (add_num (Fin (inject_Z z)) d)) (fun r => Returns (VInteger r))
  | VInteger z, MultiplyByValue d =>
      bind (to_integral (- 2 ^ 63) (2 ^ 63) (mul_num (Fin (inject_Z z)) d)) (fun r => Returns (VInteger r))
  | VDouble x, AddValue d => Returns (VDouble (add_num x d))
  | VDouble x, MultiplyByValue d => Returns (VDouble (mul_num x d))
  | VUnsignedInteger z, AddValue d =>
      bind (to_integral 0 (2 ^ 64) d) (fun k => Returns (VUnsignedInteger ((z + k) mod 2 ^ 64)))
  | VUnsignedInteger z, MultiplyByValue d =>
      bind (to_integral 0 (2 ^ 64) d) (fun k => Returns (VUnsignedInteger ((z * k) mod 2 ^ 64)))
  | VUnsignedShort z, AddValue d =>
      bind (to_integral 0 (2 ^ 16) d) (fun k => Returns (VUnsignedShort ((z + k) mod 2 ^ 16)))
  | VUnsignedShort z, MultiplyByValue d =>
      bind (to_integral 0 (2 ^ 16) d) (fun k => Returns (VUnsignedShort ((z * k) mod 2 ^ 16)))
  | VBoolean _, _ | VString _, _ => Throws
  end.
(** src/syntax/parameter_modify_action.cpp:34-46, start. *)
Definition modify (ps : parameters) (n : str) (m : modification) : outcome parameters :=
  match lookup ps n with
  | Some v => bind (modify_value m v) (fun w => Returns (assign ps n w))
  | None => Throws
  end.

(** A sequence of parameter actions. *)
Inductive action := Set_ (n s : str) | Modify (n : str) (m : modification).
Definition perform (lex : lexical) (ps : parameters) (a : action) : outcome parameters :=
  match a with Set_ n s => set lex ps n s | Modify n m => modify ps n m end.
Fixpoint perform_all (lex : lexical) (ps : parameters) (l : list action) : outcome parameters :=
  match l with
  | [] => Returns ps
  | a :: l' => bind (perform lex ps a) (fun ps' => perform_all lex ps' l')
  end.
