(** * Specification of expressions: how they are written and what they mean.

    Independent of the parser. The text of an expression is given by an ordinary grammar with one
    level per precedence; its meaning follows the tree, operands from left to right. *)
From Coq Require Import Ascii String List Bool Arith ZArith.
From Verif Require Import M_Scope M_Parameter M_Expression.
Import ListNotations.
Local Open Scope list_scope.
Local Open Scope Z_scope.

Inductive operator := Or | And | Plus | Minus | Times | Divide | Modulo.
Inductive function := Round | Floor | Ceil | Sqrt.
Inductive ast :=
| AInt (digits : str)                       (* 12 *)
| ADec (whole fraction : str)               (* 1.25 *)
| ABool (b : bool)
| ARef (name : str)                         (* $name *)
| ANeg (e : ast)
| ANot (e : ast)
| ABin (o : operator) (l r : ast)
| ACall (f : function) (e : ast)
| APow (l r : ast).

(** ** Text *)

Definition sign (o : operator) : str :=
  match o with
  | Or => chars "or" | And => chars "and" | Plus => chars "+" | Minus => chars "-"
  | Times => chars "*" | Divide => chars "/" | Modulo => chars "%"
  end.
(** Weakest first; all are left associative. *)
Definition precedence (o : operator) : nat :=
  match o with Or => 0 | And => 1 | Plus | Minus => 2 | Times | Divide | Modulo => 3 end.
Definition name_of (f : function) : str :=
  match f with
  | Round => chars "round" | Floor => chars "floor" | Ceil => chars "ceil" | Sqrt => chars "sqrt"
  end.

Definition blank (w : str) : Prop :=
  forall c, In c w -> In (N_of_ascii c) [32; 9; 10; 11; 12; 13]%N.
Definition a_digit (c : ascii) : Prop := In c (chars "0123456789").
Definition a_name_char (c : ascii) : Prop :=
  In c (chars "ABCDEFGHIJKLMNOPQRSTUVWXYZabcdefghijklmnopqrstuvwxyz0123456789_").
Definition all (P : ascii -> Prop) (s : str) : Prop := forall c, In c s -> P c.
(** The words "or" and "and" have to be separated from what is before them. *)
Definition gap (o : operator) (w : str) : Prop :=
  blank w /\ match o with Or | And => w <> [] | _ => True end.

(** The number a row of digits stands for. *)
Fixpoint number (ds : str) : Z :=
  match ds with
  | [] => 0
  | c :: ds' => (Z.of_N (N_of_ascii c) - 48) * 10 ^ Z.of_nat (length ds') + number ds'
  end.

(** [spelled k e s]: the text [s] is a way of writing [e] where an expression of level [k] is
    expected. Levels 0-3 are the binary operators, 4 signs and "not", 5 function calls, 6 the rest. *)
Inductive spelled : nat -> ast -> str -> Prop :=
| sp_next k e s : (k < 6)%nat -> spelled (S k) e s -> spelled k e s
| sp_bin o a b sa w sb :
    spelled (precedence o) a sa -> gap o w -> spelled (S (precedence o)) b sb ->
    spelled (precedence o) (ABin o a b) (sa ++ w ++ sign o ++ sb)
| sp_neg e w s : blank w -> spelled 5 e s -> spelled 4 (ANeg e) (w ++ chars "-" ++ s)
| sp_not e w s : blank w -> spelled 5 e s -> spelled 4 (ANot e) (w ++ chars "not" ++ s)
| sp_call f e w1 w2 s w3 :
    blank w1 -> blank w2 -> blank w3 -> spelled 0 e s ->
    spelled 5 (ACall f e) (w1 ++ name_of f ++ w2 ++ chars "(" ++ s ++ w3 ++ chars ")")
| sp_pow a b w1 w2 sa w3 sb w4 :
    blank w1 -> blank w2 -> blank w3 -> blank w4 -> spelled 0 a sa -> spelled 0 b sb ->
    spelled 5 (APow a b)
      (w1 ++ chars "pow" ++ w2 ++ chars "(" ++ sa ++ w3 ++ chars "," ++ sb ++ w4 ++ chars ")")
| sp_paren e w1 s w2 :
    blank w1 -> blank w2 -> spelled 0 e s -> spelled 6 e (w1 ++ chars "(" ++ s ++ w2 ++ chars ")")
| sp_true w : blank w -> spelled 6 (ABool true) (w ++ chars "true")
| sp_false w : blank w -> spelled 6 (ABool false) (w ++ chars "false")
| sp_int w ds :
    blank w -> ds <> [] -> all a_digit ds -> number ds < 2 ^ 31 -> spelled 6 (AInt ds) (w ++ ds)
| sp_dec w ds fs :
    blank w -> ds <> [] -> all a_digit ds -> fs <> [] -> all a_digit fs ->
    spelled 6 (ADec ds fs) (w ++ ds ++ chars "." ++ fs)
| sp_ref w name : blank w -> all a_name_char name -> spelled 6 (ARef name) (w ++ chars "$" ++ name).

(** ** Meaning *)
Section Meaning.
Context (F : doubles).

(** The three kinds of arithmetic: the larger kind wins. *)
Inductive kind := Signed | Unsigned | Floating.
Definition kind_of (v : evalue F) : kind :=
  match v with EInt _ | EShort _ | EBool _ => Signed | EUns _ => Unsigned | EDbl _ => Floating end.
Definition larger (a b : kind) : kind :=
  match a, b with
  | Floating, _ | _, Floating => Floating
  | Unsigned, _ | _, Unsigned => Unsigned
  | Signed, Signed => Signed
  end.
Definition is_bool (v : evalue F) : bool := match v with EBool _ => true | _ => false end.
Definition integer_of (v : evalue F) : Z :=
  match v with
  | EInt z | EUns z | EShort z => z | EBool b => if b then 1 else 0 | EDbl _ => 0
  end.
Definition double_of (v : evalue F) : D F :=
  match v with EDbl d => d | _ => d_of_Z F (integer_of v) end.

(** A signed result has to fit 32 bits; an unsigned one is reduced to 32 bits. *)
Definition fits (z : Z) : outcome (evalue F) :=
  if (- 2147483648 <=? z) && (z <=? 2147483647) then Returns (EInt z) else Undefined.
Definition arithmetic (f : Z -> Z -> Z) (g : D F -> D F -> D F) (a b : evalue F)
  : outcome (evalue F) :=
  if is_bool a || is_bool b then Throws
  else match larger (kind_of a) (kind_of b) with
       | Signed => fits (f (integer_of a) (integer_of b))
       | Unsigned => Returns (EUns (f (integer_of a) (integer_of b) mod 4294967296))
       | Floating => Returns (EDbl (g (double_of a) (double_of b)))
       end.
Definition logic (f : bool -> bool -> bool) (a b : evalue F) : outcome (evalue F) :=
  match a, b with EBool x, EBool y => Returns (EBool (f x y)) | _, _ => Throws end.

Definition apply (o : operator) (a b : evalue F) : outcome (evalue F) :=
  match o with
  | Or => logic orb a b
  | And => logic andb a b
  | Plus => arithmetic Z.add (d_add F) a b
  | Minus => arithmetic Z.sub (d_sub F) a b
  | Times => arithmetic Z.mul (d_mul F) a b
  | Divide => Returns (EDbl (d_div F (double_of a) (double_of b)))
  | Modulo => if is_bool a || is_bool b then Throws
              else Returns (EDbl (d_fmod F (double_of a) (double_of b)))
  end.
Definition negation (v : evalue F) : outcome (evalue F) :=
  if is_bool v then Throws
  else match kind_of v with
       | Signed => fits (- integer_of v)
       | Unsigned => Returns (EUns ((- integer_of v) mod 4294967296))
       | Floating => Returns (EDbl (d_neg F (double_of v)))
       end.
Definition complement (v : evalue F) : outcome (evalue F) :=
  match v with EBool b => Returns (EBool (negb b)) | _ => Throws end.
Definition rounding (f : function) : D F -> option Z :=
  match f with
  | Round => d_round F | Floor => d_floor F | Ceil => d_ceil F | Sqrt => d_sqrt F
  end.
Definition call (f : function) (v : evalue F) : outcome (evalue F) :=
  match rounding f (double_of v) with Some z => fits z | None => Undefined end.

Context (scope : env F).
(** A parameter: integers are taken to 32 bits. *)
Definition parameter (name : str) : outcome (evalue F) :=
  bind (scope name) (fun found =>
    match found with
    | None | Some POther => Throws
    | Some (PInt z) => Returns (EInt ((z + 2147483648) mod 4294967296 - 2147483648))
    | Some (PUns z) => Returns (EUns (z mod 4294967296))
    | Some (PShort z) => Returns (EShort z)
    | Some (PDbl d) => Returns (EDbl d)
    | Some (PBool b) => Returns (EBool b)
    end).

Fixpoint meaning (e : ast) : outcome (evalue F) :=
  match e with
  | AInt ds => Returns (EInt (number ds))
  | ADec ds fs => Returns (EDbl (d_read F (ds ++ chars "." ++ fs)))
  | ABool b => Returns (EBool b)
  | ARef n => parameter n
  | ANeg a => bind (meaning a) negation
  | ANot a => bind (meaning a) complement
  | ABin o a b => bind (meaning a) (fun x => bind (meaning b) (fun y => apply o x y))
  | ACall f a => bind (meaning a) (call f)
  | APow a b => bind (meaning a) (fun x => bind (meaning b) (fun y =>
                  Returns (EDbl (d_pow F (double_of x) (double_of y)))))
  end.
End Meaning.
