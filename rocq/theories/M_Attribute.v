(** * Model of reading attribute values: substitution, references, expressions, literals.

    Paths are relative to /repo/openscenario/openscenario_interpreter. Strings are lists of bytes. *)
From Coq Require Import Ascii String List Bool Arith ZArith.
From Verif Require Import M_Scope M_Parameter M_Expression.
Import ListNotations.
Local Open Scope list_scope.

(** ** Substitution *)

(** The characters "." does not match in a std::regex (bytes of the C locale). *)
Definition newline (c : ascii) : bool :=
  Ascii.eqb c (ascii_of_nat 10) || Ascii.eqb c (ascii_of_nat 13).
(** [\w-]. *)
Definition word (c : ascii) : bool := is_name c || Ascii.eqb c minus_sign.

(** The text up to the first ')' and the text after it. *)
Fixpoint until_close (s : str) : option (str * str) :=
  match s with
  | [] => None
  | c :: s' =>
      if Ascii.eqb c ")"%char then Some ([], s')
      else option_map (fun p => (c :: fst p, snd p)) (until_close s')
  end.

Record match_ := { before : str; what : str; args : str; behind : str }.

(** src/reader/attribute.cpp:76, the part of the pattern after its first group, at the beginning
    of [s] and up to its end: a dollar sign and an opening parenthesis, [\w-]+, \s?, any number of
    [^\)], a closing parenthesis, any number of ".". The name takes all the word characters there are, \s? takes
    one white space if there is one; no shorter choice can match where this one does not, as
    the repeated [^\)] takes whatever is left before the first closing parenthesis. *)
Definition match_here (s : str) : option match_ :=
  match strip_prefix (chars "$(") s with
  | None => None
  | Some r =>
      match until_close r with
      | None => None
      | Some (inner, rest) =>
          let (name, a) := span word inner in
          match name with
          | [] => None
          | _ =>
              if existsb newline rest then None
              else Some {| before := [];
                           what := name;
                           args := match a with c :: a' => if is_space c then a' else a | [] => [] end;
                           behind := rest |}
          end
      end
  end.

(** src/reader/attribute.cpp:76 and 79: std::regex_match against the whole pattern. The leading
    group of any number of "." is greedy, so the last place where the rest matches is taken; it does not match a newline. *)
Fixpoint last_match (s : str) : option match_ :=
  match s with
  | [] => None
  | c :: s' =>
      match (if newline c then None else last_match s') with
      | Some m => Some {| before := c :: before m; what := what m; args := args m; behind := behind m |}
      | None => match_here s
      end
  end.

(** src/reader/attribute.cpp:61-74: the table. [None]: no such substitution; a function may throw or
    be undefined (find-pkg-share for an unknown package, ros2 for a command without output). *)
Definition table := str -> option (str -> outcome str).

(** src/reader/attribute.cpp:51-58, var: the text of the parameter, empty if there is none. [text]
    is Scope::ref followed by boost::lexical_cast<String>. *)
Definition var_of (text : str -> outcome (option str)) (name : str) : outcome str :=
  bind (text name) (fun found => Returns (match found with Some t => t | None => [] end)).

(** src/reader/attribute.cpp:23-88, substitute: as long as there is a match. [None]: not finished
    after [fuel] replacements. *)
Fixpoint substitute (t : table) (fuel : nat) (s : str) : option (outcome str) :=
  match last_match s with
  | None => Some (Returns s)
  | Some m =>
      match fuel with
      | O => None
      | S f =>
          match t (what m) with
          | None => Some Throws
          | Some value =>
              match value (args m) with
              | Returns v => substitute t f (before m ++ v ++ behind m)
              | Throws => Some Throws
              | Undefined => Some Undefined
              end
          end
      end
  end.

(** ** Reading a value *)
Section Read.
(** [T] is the type of the attribute, [empty] its value-initialized value T(), [cast] is
    boost::lexical_cast<T>, [None] when it throws. *)
Context {T : Type} (empty : T) (cast : str -> option T).
(** evaluate(expression, scope), and Scope::ref followed by boost::lexical_cast<String>. *)
Context (eval : str -> option (outcome str)) (text : str -> outcome (option str)).

(** include/openscenario_interpreter/reader/attribute.hpp:48-50. *)
Definition is_expression (s : str) : bool :=
  match strip_prefix (chars "${") s with
  | Some _ => Ascii.eqb (last s nul) "}"%char
  | None => false
  end.

(** attribute.hpp:85-93, the value after substitution. A bad cast is an exception in all cases. *)
Definition read_value (v : str) : option (outcome T) :=
  match v with
  | [] => Some (Returns empty)
  | c :: name =>
      if is_expression v then
        option_map (fun o => bind o (fun r => of_option (cast r))) (eval (removelast (skipn 2 v)))
      else if Ascii.eqb c "$"%char then
        Some (bind (text name) (fun found =>
                match found with Some r => of_option (cast r) | None => Throws end))
      else Some (of_option (cast v))
  end.

(** attribute.hpp:45-99, readAttribute<T>(name, node, scope); [a] is the attribute if the element
    has it. *)
Definition read_attribute (t : table) (fuel : nat) (a : option str) : option (outcome T) :=
  match a with
  | None => Some Throws
  | Some s =>
      match substitute t fuel s with
      | None => None
      | Some (Returns v) => read_value v
      | Some Throws => Some Throws
      | Some Undefined => Some Undefined
      end
  end.

(** attribute.hpp:114-123, readAttribute<T>(name, node, scope, value). *)
Definition read_attribute_or (t : table) (fuel : nat) (a : option str) (value : T)
  : option (outcome T) :=
  match a with Some _ => read_attribute t fuel a | None => Some (Returns value) end.

(** attribute.hpp:125-133, readAttribute<T>(name, node, scope, std::nullopt). *)
Definition read_attribute_optional (t : table) (fuel : nat) (a : option str)
  : option (outcome (option T)) :=
  match a with
  | Some _ => option_map (fun o => bind o (fun v => Returns (Some v))) (read_attribute t fuel a)
  | None => Some (Returns None)
  end.
End Read.
