(** * Model of expressions "${...}" in attribute values.

    Paths are relative to /repo/openscenario/openscenario_interpreter. Strings are lists of bytes.
    The grammar is a Boost.Spirit Qi grammar: alternatives are tried in order, the first one that
    matches is taken, repetition is greedy, white space is skipped before each terminal, and the
    semantic actions run as soon as what they are attached to has matched. *)
From Coq Require Import Ascii String List Bool Arith ZArith Lia.
From Verif Require Import M_Scope M_Parameter.
Import ListNotations.
Local Open Scope list_scope.
Local Open Scope Z_scope.

(** Arithmetic on doubles is not modelled: [D] is the type of doubles and the fields stand for the
    operations the code uses (the C++ operators, std::fmod, std::pow, std::round, std::floor,
    std::ceil, std::sqrt, std::to_string and Spirit's reading of a literal). Everything below holds
    for every choice of them. The four roundings give the integer static_cast<int> is applied to,
    or [None] for a NaN or an infinity. *)
Record doubles := {
  D : Type;
  d_of_Z : Z -> D;
  d_add : D -> D -> D;
  d_sub : D -> D -> D;
  d_mul : D -> D -> D;
  d_div : D -> D -> D;
  d_fmod : D -> D -> D;
  d_pow : D -> D -> D;
  d_neg : D -> D;
  d_round : D -> option Z;
  d_floor : D -> option Z;
  d_ceil : D -> option Z;
  d_sqrt : D -> option Z;
  d_show : D -> str;
  d_read : str -> D }.

Section Expression.
Context (F : doubles).

(** src/evaluate.cpp:28-31, Value: std::variant<int, unsigned int, unsigned short, double, bool>. *)
Inductive evalue :=
| EInt (z : Z) | EUns (z : Z) | EShort (z : Z) | EDbl (d : D F) | EBool (b : bool).

Definition int_ok (z : Z) : bool := (- 2 ^ 31 <=? z) && (z <? 2 ^ 31).
Definition uns (z : Z) : Z := z mod 2 ^ 32.

(** A result of type int: signed overflow and a cast of a double that does not fit are undefined. *)
Definition as_int (z : Z) : outcome evalue := if int_ok z then Returns (EInt z) else Undefined.

(** src/evaluate.cpp:147-153, cast<double>: every alternative converts, bool included. *)
Definition to_double (v : evalue) : D F :=
  match v with
  | EInt z | EUns z | EShort z => d_of_Z F z
  | EDbl d => d
  | EBool b => d_of_Z F (if b then 1 else 0)
  end.

(** src/evaluate.cpp:155-159, cast<Numeric>. *)
Definition numeric (v : evalue) : outcome evalue :=
  match v with EBool _ => Throws | _ => Returns v end.

(** src/evaluate.cpp:161-165, cast<bool>. *)
Definition boolean (v : evalue) : outcome bool :=
  match v with EBool b => Returns b | _ => Throws end.

(** src/evaluate.cpp:126-128, std::multiplies<void>, std::plus<void>, std::minus<void> on every pair
    of numeric alternatives, by the usual arithmetic conversions: unsigned short becomes int, int
    meets unsigned int as unsigned int (modulo 2^32), anything meets double as double. *)
Definition arith (f : Z -> Z -> Z) (g : D F -> D F -> D F) (l r : evalue) : outcome evalue :=
  match l, r with
  | EBool _, _ | _, EBool _ => Throws
  | EDbl a, _ => Returns (EDbl (g a (to_double r)))
  | _, EDbl b => Returns (EDbl (g (to_double l) b))
  | EUns a, EUns b | EUns a, EInt b | EUns a, EShort b
  | EInt a, EUns b | EShort a, EUns b => Returns (EUns (uns (f a b)))
  | EInt a, EInt b | EInt a, EShort b | EShort a, EInt b | EShort a, EShort b => as_int (f a b)
  end.
Definition e_mul := arith Z.mul (d_mul F).
Definition e_add := arith Z.add (d_add F).
Definition e_sub := arith Z.sub (d_sub F).

(** src/evaluate.cpp:129, std::fmod on numeric alternatives: the arguments are converted to double
    and so is the result. *)
Definition e_mod (l r : evalue) : outcome evalue :=
  bind (numeric l) (fun l => bind (numeric r) (fun r =>
    Returns (EDbl (d_fmod F (to_double l) (to_double r))))).

(** src/evaluate.cpp:130 and 133, std::divides<double> and std::pow on double. *)
Definition e_div (l r : evalue) : outcome evalue :=
  Returns (EDbl (d_div F (to_double l) (to_double r))).
Definition e_pow (l r : evalue) : outcome evalue :=
  Returns (EDbl (d_pow F (to_double l) (to_double r))).

(** src/evaluate.cpp:131-132. Both operands have been evaluated. *)
Definition e_and (l r : evalue) : outcome evalue :=
  bind (boolean l) (fun a => bind (boolean r) (fun b => Returns (EBool (a && b)))).
Definition e_or (l r : evalue) : outcome evalue :=
  bind (boolean l) (fun a => bind (boolean r) (fun b => Returns (EBool (a || b)))).

(** src/evaluate.cpp:123-124. *)
Definition e_neg (v : evalue) : outcome evalue :=
  match v with
  | EInt z | EShort z => as_int (- z)
  | EUns z => Returns (EUns (uns (- z)))
  | EDbl d => Returns (EDbl (d_neg F d))
  | EBool _ => Throws
  end.
Definition e_not (v : evalue) : outcome evalue :=
  bind (boolean v) (fun b => Returns (EBool (negb b))).

(** src/evaluate.cpp:118-121: round, floor, ceil and sqrt all end in static_cast<int>. *)
Definition e_int (f : D F -> option Z) (v : evalue) : outcome evalue :=
  match f (to_double v) with Some z => as_int z | None => Undefined end.
Definition e_round := e_int (d_round F).
Definition e_floor := e_int (d_floor F).
Definition e_ceil := e_int (d_ceil F).
Definition e_sqrt := e_int (d_sqrt F).

(** What Scope::ref can find: src/evaluate.cpp:214-226 tells these apart. *)
Inductive entry :=
| PInt (z : Z) | PUns (z : Z) | PShort (z : Z) | PDbl (d : D F) | PBool (b : bool) | POther.
(** The scope: [None] is a null object. Scope::ref may throw or be undefined (C16, C17). *)
Definition env := str -> outcome (option entry).

(** static_cast<int>(std::int64_t): modulo 2^32 (as every compiler does; the standard leaves it to
    the implementation before C++20). *)
Definition narrow (z : Z) : Z := (z + 2 ^ 31) mod 2 ^ 32 - 2 ^ 31.

(** src/evaluate.cpp:207-227, toValue. *)
Definition to_value (scope : env) (key : str) : outcome evalue :=
  bind (scope key) (fun found =>
    match found with
    | None => Throws
    | Some (PInt z) => Returns (EInt (narrow z))
    | Some (PUns z) => Returns (EUns (uns z))
    | Some (PShort z) => Returns (EShort z)
    | Some (PDbl d) => Returns (EDbl d)
    | Some (PBool b) => Returns (EBool b)
    | Some POther => Throws
    end).

(** ** The parser *)

(** A parser matches a prefix and gives a value and the rest, does not match, throws, runs into
    undefined behaviour, or (only in the model) is out of fuel. *)
Inductive pres := POk (v : evalue) (rest : str) | PFail | PThrow | PUndef | PFuel.
Definition pbind (r : pres) (f : evalue -> str -> pres) : pres :=
  match r with POk v s => f v s | r => r end.
(** Ordered choice: a | b. *)
Definition por (a b : pres) : pres := match a with PFail => b | r => r end.
Definition pval (o : outcome evalue) (rest : str) : pres :=
  match o with Returns v => POk v rest | Throws => PThrow | Undefined => PUndef end.

(** qi::lit: skips white space, then matches the characters. *)
Definition lit (t : str) (s : str) : option str := strip_prefix t (skip_space s).
Definition after (t : str) (s : str) (p : str -> pres) : pres :=
  match lit t s with Some r => p r | None => PFail end.

Definition is_digit (c : ascii) : bool := match digit c with Some _ => true | None => false end.
Definition is_alpha (c : ascii) : bool :=
  let n := Z.of_N (N_of_ascii c) in
  ((65 <=? n) && (n <=? 90)) || ((97 <=? n) && (n <=? 122)).
(** qi::char_("A-Za-z0-9_"). *)
Definition is_name (c : ascii) : bool := is_alpha c || is_digit c || Ascii.eqb c "_"%char.

Fixpoint span (f : ascii -> bool) (s : str) : str * str :=
  match s with
  | c :: s' => if f c then let (a, b) := span f s' in (c :: a, b) else ([], s)
  | [] => ([], [])
  end.

(** An optional sign. *)
Definition take_sign (s : str) : str * str :=
  match s with
  | c :: s' => if Ascii.eqb c minus_sign || Ascii.eqb c plus_sign then ([c], s') else ([], s)
  | [] => ([], [])
  end.

(** qi::int_: an optional sign and digits; no match if the number does not fit an int. *)
Definition p_int (s : str) : pres :=
  let (sg, s1) := take_sign (skip_space s) in
  let (ds, s2) := span is_digit s1 in
  match natural ds with
  | None => PFail
  | Some m =>
      let z := match sg with c :: _ => if Ascii.eqb c minus_sign then - m else m | [] => m end in
      if int_ok z then POk (EInt z) s2 else PFail
  end.

(** The exponent of a real literal: e or E, an optional sign, digits. *)
Definition take_exponent (s : str) : str * str :=
  match s with
  | c :: s' =>
      if Ascii.eqb c "e"%char || Ascii.eqb c "E"%char then
        let (sg, s1) := take_sign s' in
        let (ds, s2) := span is_digit s1 in
        match ds with [] => ([], s) | _ => (c :: sg ++ ds, s2) end
      else ([], s)
  | [] => ([], [])
  end.

(** Letters regardless of case. *)
Definition lower (c : ascii) : ascii :=
  let n := Z.of_N (N_of_ascii c) in
  if (65 <=? n) && (n <=? 90) then ascii_of_N (Z.to_N (n + 32)) else c.
Fixpoint strip_prefix_nocase (t s : str) : option str :=
  match t, s with
  | [], _ => Some s
  | a :: t', b :: s' => if Ascii.eqb a (lower b) then strip_prefix_nocase t' s' else None
  | _ :: _, [] => None
  end.

(** qi::real_parser<double, qi::strict_real_policies<double>>: an optional sign, then digits with a
    point and possibly an exponent, or digits with an exponent, or "nan", "inf", "infinity" in any
    case ("nan(...)" is left out). Plain digits do not match. *)
Definition p_dbl (s : str) : pres :=
  let s0 := skip_space s in
  let (sg, s1) := take_sign s0 in
  let (ds, s2) := span is_digit s1 in
  let special :=
    match strip_prefix_nocase (chars "nan") s1 with
    | Some r => POk (EDbl (d_read F (sg ++ chars "nan"))) r
    | None =>
        match strip_prefix_nocase (chars "infinity") s1 with
        | Some r => POk (EDbl (d_read F (sg ++ chars "inf"))) r
        | None =>
            match strip_prefix_nocase (chars "inf") s1 with
            | Some r => POk (EDbl (d_read F (sg ++ chars "inf"))) r
            | None => PFail
            end
        end
    end in
  match s2 with
  | c :: s3 =>
      if Ascii.eqb c "."%char then
        let (fs, s4) := span is_digit s3 in
        match ds, fs with
        | [], [] => special
        | _, _ => let (ex, s5) := take_exponent s4 in
                  POk (EDbl (d_read F (sg ++ ds ++ chars "." ++ fs ++ ex))) s5
        end
      else
        match ds with
        | [] => special
        | _ => match take_exponent s2 with
               | ([], _) => PFail
               | (ex, s5) => POk (EDbl (d_read F (sg ++ ds ++ ex))) s5
               end
        end
  | [] => match ds with [] => special | _ => PFail end
  end.

(** src/evaluate.cpp:200-203: '$' and any number of name characters, with no white space between. *)
Definition p_ref (scope : env) (s : str) : pres :=
  match lit (chars "$") s with
  | None => PFail
  | Some s1 => let (name, s2) := span is_name s1 in pval (to_value scope name) s2
  end.

Section Levels.
Context (scope : env).
(** lv0, one level of parentheses or arguments further in. *)
Context (p0 : str -> pres).

(** src/evaluate.cpp:195-203. *)
Definition lv6 (s : str) : pres :=
  por (after (chars "(") s (fun s1 => pbind (p0 s1) (fun v s2 =>
        after (chars ")") s2 (fun s3 => POk v s3))))
  (por (after (chars "true") s (fun r => POk (EBool true) r))
  (por (after (chars "false") s (fun r => POk (EBool false) r))
  (por (p_dbl s)
  (por (p_int s)
       (p_ref scope s))))).

(** One of the functions of one argument of src/evaluate.cpp:190-193. *)
Definition call1 (name : str) (f : evalue -> outcome evalue) (s : str) : pres :=
  after name s (fun s1 => after (chars "(") s1 (fun s2 => pbind (p0 s2) (fun v s3 =>
    after (chars ")") s3 (fun s4 => pval (f v) s4)))).
Definition call2 (name : str) (f : evalue -> evalue -> outcome evalue) (s : str) : pres :=
  after name s (fun s1 => after (chars "(") s1 (fun s2 => pbind (p0 s2) (fun v s3 =>
    after (chars ",") s3 (fun s4 => pbind (p0 s4) (fun w s5 =>
      after (chars ")") s5 (fun s6 => pval (f v w) s6)))))).

(** src/evaluate.cpp:189-194. *)
Definition lv5 (s : str) : pres :=
  por (call2 (chars "pow") e_pow s)
  (por (call1 (chars "round") e_round s)
  (por (call1 (chars "floor") e_floor s)
  (por (call1 (chars "ceil") e_ceil s)
  (por (call1 (chars "sqrt") e_sqrt s)
       (lv6 s))))).

(** src/evaluate.cpp:186-188: the operand is lv5, so a sign or "not" is not repeated. *)
Definition lv4 (s : str) : pres :=
  por (after (chars "-") s (fun s1 => pbind (lv5 s1) (fun v r => pval (e_neg v) r)))
  (por (after (chars "not") s (fun s1 => pbind (lv5 s1) (fun v r => pval (e_not v) r)))
       (lv5 s)).

(** The operators of src/evaluate.cpp:182-185, in the order in which they are tried. *)
Definition operators (k : nat) : list (str * (evalue -> evalue -> outcome evalue)) :=
  match k with
  | 0%nat => [(chars "or", e_or)]
  | 1%nat => [(chars "and", e_and)]
  | 2%nat => [(chars "+", e_add); (chars "-", e_sub)]
  | _ => [(chars "*", e_mul); (chars "/", e_div); (chars "%", e_mod)]
  end.

(** One round of the repetition: the first operator that is there with an operand after it. *)
Fixpoint round_of (ops : list (str * (evalue -> evalue -> outcome evalue)))
    (operand : str -> pres) (v : evalue) (s : str) : pres :=
  match ops with
  | [] => PFail
  | (t, f) :: ops' =>
      por (after t s (fun s1 => pbind (operand s1) (fun w r => pval (f v w) r)))
          (round_of ops' operand v s)
  end.
(** The repetition, *( ... ). *)
Fixpoint rounds (n : nat) (ops : list (str * (evalue -> evalue -> outcome evalue)))
    (operand : str -> pres) (v : evalue) (s : str) : pres :=
  match n with
  | O => PFuel
  | S n' =>
      match round_of ops operand v s with
      | POk w r => rounds n' ops operand w r
      | PFail => POk v s
      | r => r
      end
  end.

(** src/evaluate.cpp:182-185, lv0 to lv3. *)
Definition lv3 (n : nat) (s : str) : pres :=
  pbind (lv4 s) (fun v r => rounds n (operators 3) lv4 v r).
Definition lv2 (n : nat) (s : str) : pres :=
  pbind (lv3 n s) (fun v r => rounds n (operators 2) (lv3 n) v r).
Definition lv1 (n : nat) (s : str) : pres :=
  pbind (lv2 n s) (fun v r => rounds n (operators 1) (lv2 n) v r).
Definition lv0 (n : nat) (s : str) : pres :=
  pbind (lv1 n s) (fun v r => rounds n (operators 0) (lv1 n) v r).
End Levels.

Fixpoint parse (scope : env) (n : nat) (s : str) : pres :=
  match n with
  | O => PFuel
  | S m => lv0 scope (parse scope m) n s
  end.

(** Decimal text of an integer, std::to_string. *)
Fixpoint show_pos (fuel : nat) (z : Z) (acc : str) : str :=
  match fuel with
  | O => acc
  | S f =>
      let acc' := ascii_of_N (Z.to_N (48 + z mod 10)) :: acc in
      if z <? 10 then acc' else show_pos f (z / 10) acc'
  end.
Definition show_Z (z : Z) : str :=
  let m := Z.abs z in
  let ds := show_pos (S (Z.to_nat (Z.log2 m))) m [] in
  if z <? 0 then minus_sign :: ds else ds.
Definition show (v : evalue) : str :=
  match v with
  | EInt z | EUns z | EShort z => show_Z z
  | EDbl d => d_show F d
  | EBool b => chars (if b then "true" else "false")
  end.

(** src/evaluate.cpp:232-250, evaluate. What phrase_parse returns is not looked at: if it fails,
    nothing has been consumed and the output is still Value(), which is 0; this is an error only if
    there was something to consume. On success trailing white space is skipped. [None]: out of
    fuel, shown not to happen. *)
Definition evaluate (scope : env) (s : str) : option (outcome str) :=
  match parse scope (S (length s)) s with
  | POk v rest => Some (match skip_space rest with [] => Returns (show v) | _ => Throws end)
  | PFail => Some (match s with [] => Returns (show (EInt 0)) | _ => Throws end)
  | PThrow => Some Throws
  | PUndef => Some Undefined
  | PFuel => None
  end.
End Expression.

Arguments EInt {F} z.
Arguments EUns {F} z.
Arguments EShort {F} z.
Arguments EDbl {F} d.
Arguments EBool {F} b.
Arguments PInt {F} z.
Arguments PUns {F} z.
Arguments PShort {F} z.
Arguments PDbl {F} d.
Arguments PBool {F} b.
Arguments POther {F}.
Arguments POk {F} v rest.
Arguments PFail {F}.
Arguments PThrow {F}.
Arguments PUndef {F}.
Arguments PFuel {F}.
