(** Specification of parameters: what a constraint means, independently of how it is evaluated. *)
From Coq Require Import Ascii String List ZArith QArith.
From Verif Require Import M_Condition M_Scope M_Parameter.
Import ListNotations.
Local Open Scope Z_scope.
Local Open Scope list_scope.

(** The declared type a value belongs to. *)
Definition type_of (v : value) : ptype :=
  match v with
  | VBoolean _ => PBoolean | VDouble _ => PDouble | VInteger _ => PInteger
  | VString _ => PString | VUnsignedInteger _ => PUnsignedInt | VUnsignedShort _ => PUnsignedShort
  end.
(** dateTime values are kept as text. *)
Definition belongs (v : value) (t : ptype) : Prop :=
  type_of v = t \/ (t = PDateTime /\ exists s, v = VString s).

(** The order of doubles: -inf < every number < inf, NaN unrelated. *)
Inductive less_num : num -> num -> Prop :=
| less_fin x y : (x < y)%Q -> less_num (Fin x) (Fin y)
| less_ninf_fin y : less_num NInf (Fin y)
| less_fin_pinf x : less_num (Fin x) PInf
| less_inf : less_num NInf PInf.
Inductive same_num : num -> num -> Prop :=
| same_fin x y : (x == y)%Q -> same_num (Fin x) (Fin y)
| same_pinf : same_num PInf PInf
| same_ninf : same_num NInf NInf.

(** The dictionary order. *)
Inductive before : str -> str -> Prop :=
| before_shorter p c t : before p (p ++ c :: t)
| before_differ p a s b t :
    (N_of_ascii a < N_of_ascii b)%N -> before (p ++ a :: s) (p ++ b :: t).

Inductive less : value -> value -> Prop :=
| less_boolean : less (VBoolean false) (VBoolean true)
| less_double a b : less_num a b -> less (VDouble a) (VDouble b)
| less_integer a b : a < b -> less (VInteger a) (VInteger b)
| less_string a b : before a b -> less (VString a) (VString b)
| less_unsigned a b : a < b -> less (VUnsignedInteger a) (VUnsignedInteger b)
| less_short a b : a < b -> less (VUnsignedShort a) (VUnsignedShort b).
Definition same (a b : value) : Prop :=
  match a, b with VDouble x, VDouble y => same_num x y | _, _ => a = b end.

Definition related (r : rule) (a b : value) : Prop :=
  match r with
  | EqualTo => same a b
  | NotEqualTo => ~ same a b
  | GreaterThan => less b a
  | LessThan => less a b
  | GreaterOrEqual => less b a \/ same a b
  | LessOrEqual => less a b \/ same a b
  end.

(** [v] is in the given relation to the value the literal [s] denotes in the type of [v]. *)
Definition compares (lex : lexical) (v : value) (r : rule) (s : str) : Prop :=
  exists x, construct lex (type_of v) s = Returns x /\ related r v x.
Definition satisfies (lex : lexical) (v : value) (k : constraint) : Prop :=
  compares lex v (k_rule k) (k_value k).
(** The literal denotes something in the type of [v]. *)
Definition literal (lex : lexical) (v : value) (s : str) : Prop :=
  exists x, construct lex (type_of v) s = Returns x.

(** What a constrained declaration promises about the value. *)
Definition admissible (lex : lexical) (groups : list (list constraint)) (v : value) : Prop :=
  groups = [] \/ exists g, In g groups /\ forall k, In k g -> satisfies lex v k.

Definition reserved (n : str) : Prop := exists rest, n = chars "OSC"%string ++ rest.

(** The number written by a list of decimal digits. *)
Fixpoint positional (ds : list Z) : Z :=
  match ds with
  | [] => 0
  | d :: ds' => d * 10 ^ Z.of_nat (length ds') + positional ds'
  end.
Definition is_digit (d : Z) : Prop := 0 <= d < 10.
Definition digit_char (d : Z) : ascii := ascii_of_N (Z.to_N (48 + d)).
Definition numeral (ds : list Z) : str := map digit_char ds.

(** The values each type can hold. *)
Definition in_range (v : value) : Prop :=
  match v with
  | VInteger z => - 2 ^ 63 <= z < 2 ^ 63
  | VUnsignedInteger z => 0 <= z < 2 ^ 64
  | VUnsignedShort z => 0 <= z < 2 ^ 16
  | _ => True
  end.

(** The numeric value of a parameter and what adding to / multiplying it should give. *)
Definition numeric (v : value) : option Q :=
  match v with
  | VDouble (Fin q) => Some q
  | VInteger z | VUnsignedInteger z | VUnsignedShort z => Some (inject_Z z)
  | _ => None
  end.
(** [z] is [q] rounded towards zero. *)
Definition towards_zero (q : Q) (z : Z) : Prop :=
  ((0 <= q)%Q -> (inject_Z z <= q)%Q /\ (q < inject_Z (z + 1))%Q) /\
  ((q <= 0)%Q -> (q <= inject_Z z)%Q /\ (inject_Z (z - 1) < q)%Q).
Definition stores (q : Q) (v : value) : Prop :=
  match v with
  | VDouble (Fin x) => (x == q)%Q
  | VInteger z | VUnsignedInteger z | VUnsignedShort z => towards_zero q z
  | _ => False
  end.
