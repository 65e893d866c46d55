(** * Model of the conditions on user-defined values.

    Paths are relative to /repo/openscenario/openscenario_interpreter; line numbers without a file
    are of src/syntax/user_defined_value_condition.cpp. Strings are lists of bytes. *)
From Coq Require Import Ascii String List Bool Arith ZArith.
From Verif Require Import M_Condition M_Scope M_Parameter.
Import ListNotations.
Local Open Scope list_scope.

(** ** Names *)

(** ECMAScript's [\w] *)
Definition word (c : ascii) : bool :=
  let n := N_of_ascii c in
  ((48 <=? n) && (n <=? 57) || (65 <=? n) && (n <=? 90) || (97 <=? n) && (n <=? 122) || (n =? 95))%N.
Definition line_end (c : ascii) : bool := let n := N_of_ascii c in ((n =? 10) || (n =? 13))%N.
Definition dot : ascii := "."%char.
Definition slash : ascii := "/"%char.
Definition opening : ascii := "("%char.
Definition at_sign : ascii := "@"%char.
Definition hyphen : ascii := "-"%char.

(** What comes before the first dot and what comes after it *)
Fixpoint cut (s : str) : option (str * str) :=
  match s with
  | [] => None
  | c :: s' => if Ascii.eqb c dot then Some ([], s') else option_map (fun p => (c :: fst p, snd p)) (cut s')
  end.
(** 123, the pattern [([^.]+)\.(.+)]; a full stop of a pattern does not match the end of a line. *)
Definition dotted (s : str) : option (str * str) :=
  match cut s with
  | Some (a :: e, b :: f) => if existsb line_end (b :: f) then None else Some (a :: e, b :: f)
  | _ => None
  end.

(** 125-151, the table *)
Inductive state := Current | RiskBehavior | RiskState | Emergency | Turn.
Definition state_name (x : state) : str :=
  chars match x with
        | Current => "currentState"
        | RiskBehavior => "currentMinimumRiskManeuverState.behavior"
        | RiskState => "currentMinimumRiskManeuverState.state"
        | Emergency => "currentEmergencyState"
        | Turn => "currentTurnIndicatorsState"
        end.
Definition named_state (s : str) : option state :=
  find (fun x => str_eqb (state_name x) s) [Current; RiskBehavior; RiskState; Emergency; Turn].

(** include/regex/function_call_expression.hpp:38-43: a name and, if anything follows, what is in
    brackets. What the pattern accepts between the brackets, and splitParameters (45-57), are the
    function [parameters]; it is only asked about texts that start with a bracket. *)
Fixpoint leading (s : str) : str * str :=
  match s with
  | [] => ([], [])
  | c :: s' => if word c || Ascii.eqb c at_sign then let p := leading s' in (c :: fst p, snd p) else ([], s)
  end.
Definition call (parameters : str -> option (list str)) (s : str) : option (str * list str) :=
  match leading s with
  | ([], _) => None
  | (f, []) => Some (f, [])
  | (f, c :: r) => if Ascii.eqb c opening then option_map (pair f) (parameters (c :: r)) else None
  end.

(** 173, the pattern [^(?:\/[\w-]+)*\/([\w]+)$], read from left to right: [fresh] tells that the last
    character was a slash, [plain] that there was no hyphen since. *)
Fixpoint topic_rest (fresh plain : bool) (s : str) : bool :=
  match s with
  | [] => negb fresh && plain
  | c :: s' =>
      if Ascii.eqb c slash then negb fresh && topic_rest true true s'
      else if word c then topic_rest false plain s'
      else Ascii.eqb c hyphen && topic_rest false false s'
  end.
Definition topic (s : str) : bool :=
  match s with c :: s' => Ascii.eqb c slash && topic_rest true true s' | [] => false end.

(** 118-209, the constructor: what the value will be taken from. *)
Inductive source :=
| State (entity : str) (x : state)
| Heading (arguments : list str)
| Topic (name : str).
Definition source_of (parameters : str -> option (list str)) (name : str) : outcome source :=
  match dotted name with
  | Some (e, f) => match named_state f with Some x => Returns (State e x) | None => Throws end
  | None =>
    match call parameters name with
    | Some (f, xs) =>
        if str_eqb f (chars "RelativeHeadingCondition") then Returns (Heading xs) else Throws
    | None => if topic name then Returns (Topic name) else Throws
    end
  end.

(** 126-137 and 222-230: the condition on a state, given what the simulator says it is. *)
Definition evaluate_state (lex : lexical) (query : str -> state -> str) (e : str) (x : state)
    (r : rule) (v : str) : outcome bool :=
  match x with
  | Current =>
      if str_eqb v (chars "EMERGENCY") then Throws else compare lex (VString (query e Current)) r v
  | _ => compare lex (VString (query e x)) r v
  end.

(** ** Topics *)

(** tier4_simulation_msgs/msg/UserDefinedValue; the type is [None] if it is none of 185-198. *)
Record message := { m_type : option ptype; m_value : str }.
(** A default-constructed message (35, 90); its type does not matter. *)
Definition no_message : message := {| m_type := None; m_value := [] |}.

(** 34-116: the static members [count] and [node] (of the node: whether [thrown] is set), and the
    subscriptions that exist, which are numbered. *)
Record world := { w_count : nat; w_node : option bool; w_messages : list (nat * message) }.
Definition start : world := {| w_count := 0; w_node := None; w_messages := [] |}.

(** A condition on a topic is made or destroyed; a subscription receives a message; receiving fails. *)
Inductive event := Made (id : nat) | Gone (id : nat) | Received (id : nat) (m : message) | Failed.

Definition has (id : nat) (p : nat * message) : bool := Nat.eqb (fst p) id.
Definition step (w : world) (e : event) : world :=
  match e with
  | Made id => (* 90-101 *)
      {| w_count := S (w_count w);
         w_node := if Nat.eqb (w_count w) 0 then Some false else w_node w;
         w_messages := (id, no_message) :: w_messages w |}
  | Gone id => (* 103-108 *)
      {| w_count := pred (w_count w);
         w_node := if Nat.eqb (pred (w_count w)) 0 then None else w_node w;
         w_messages := filter (fun p => negb (has id p)) (w_messages w) |}
  | Received id m => (* 97-100 *)
      {| w_count := w_count w; w_node := w_node w;
         w_messages := map (fun p => if has id p then (id, m) else p) (w_messages w) |}
  | Failed => (* 52-59 *)
      {| w_count := w_count w; w_node := option_map (fun _ => true) (w_node w);
         w_messages := w_messages w |}
  end.
Definition run (h : list event) : world := fold_left step h start.

(** 110-115, with rethrow, 72-77 *)
Definition get (w : world) (id : nat) : outcome message :=
  match w_node w with
  | None => Undefined
  | Some true => Throws
  | Some false => match find (has id) (w_messages w) with Some p => Returns (snd p) | None => Undefined end
  end.

(** 178-203 and 222-230; [unspecified] is compared by identity. *)
Definition evaluate_topic (lex : lexical) (w : world) (id : nat) (r : rule) (v : str) : outcome bool :=
  bind (get w id) (fun m =>
    match m_value m, m_type m with
    | [], _ | _, None => Returns false
    | s, Some t => bind (construct lex t s) (fun x => compare lex x r v)
    end).
