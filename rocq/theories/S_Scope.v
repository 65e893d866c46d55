(** Specification vocabulary for names and scopes. *)
From Coq Require Import Ascii String List Bool Arith.
From Verif Require Import M_Scope.
Import ListNotations.
Local Open Scope list_scope.

(** ** Names *)

(** Pieces joined by "::". *)
Fixpoint join (l : list str) : str :=
  match l with
  | [] => []
  | [x] => x
  | x :: l' => x ++ sep ++ join l'
  end.

Definition colon_free (s : str) : Prop := ~ In colon s.
Definition has_sep (s : str) : Prop := exists a b, s = a ++ sep ++ b.
Definition starts_with_sep (s : str) : Prop := exists b, s = sep ++ b.

(** ** Scopes *)

(** A program that only mentions scopes that exist. *)
Definition scope_exists (e : env) (f : frame_id) : Prop := f < List.length e.

(** [g] is reached from [f] through [k] unnamed sub-scopes. *)
Inductive below (e : env) : nat -> frame_id -> frame_id -> Prop :=
| below_0 f : below e 0 f f
| below_S k f g h : below e k f g -> In h (unnamed (get e g)) -> below e (S k) f h.

(** [g] is the [j]-th scope enclosing [f]. *)
Inductive encloses (e : env) : nat -> frame_id -> frame_id -> Prop :=
| encloses_0 f : encloses e 0 f f
| encloses_S j f o g : outer (get e f) = Some o -> encloses e j o g -> encloses e (S j) f g.

(** Definition number [i] of scope [g] gives [name] the value [x] of type [T]. *)
Definition defines (e : env) (T : obj -> bool) (name : str) (g : frame_id) (i : nat) (x : obj) :=
  nth_error (variables (get e g)) i = Some (name, x) /\ T x = true.

(** A candidate for [name] seen from [f]: [j] scopes outward and then [k] unnamed scopes inward. *)
Definition candidate (e : env) (T : obj -> bool) (name : str) (f : frame_id)
  (j k : nat) (g : frame_id) (i : nat) (x : obj) : Prop :=
  exists h, encloses e j f h /\ below e k h g /\ defines e T name g i x.

(** Nearer: fewer scopes outward; among these fewer scopes inward. *)
Definition nearer (j k j' k' : nat) : Prop := j < j' \/ (j = j' /\ k < k').

Definition nothing_nearer (e : env) (T : obj -> bool) (name : str) (f : frame_id) (j k : nat) :=
  forall j' k' g i x, nearer j' k' j k -> ~ candidate e T name f j' k' g i x.

(** [f] sees a sub-scope [g] named [p]: directly or through unnamed scopes. *)
Definition named_below (e : env) (p : str) (f g : frame_id) : Prop :=
  exists k h, below e k f h /\ In (p, g) (inner (get e h)).

(** A chain of named sub-scopes. *)
Fixpoint named_path (e : env) (f : frame_id) (ps : list str) (g : frame_id) : Prop :=
  match ps with
  | [] => g = f
  | p :: ps' => exists h, named_below e p f h /\ named_path e h ps' g
  end.

(** ... where at every step there is just one sub-scope of that name. *)
Fixpoint unique_path (e : env) (f : frame_id) (ps : list str) (g : frame_id) : Prop :=
  match ps with
  | [] => g = f
  | p :: ps' => exists h, named_below e p f h /\ (forall h', named_below e p f h' -> h' = h) /\
                  unique_path e h ps' g
  end.

(** The first qualifier [p] of a relative reference in [f] means scope [g]: [g] is a sub-scope
    named [p] of the nearest scope strictly enclosing [f] that has one. *)
Definition qualifier_means (e : env) (p : str) (f g : frame_id) : Prop :=
  exists j h, encloses e (S j) f h /\ named_below e p h g /\
    forall j' h' g', j' < j -> encloses e (S j') f h' -> ~ named_below e p h' g'.

Definition no_scope_visible (e : env) (p : str) (f : frame_id) : Prop :=
  forall j h g, encloses e (S j) f h -> ~ named_below e p h g.

(** What an unqualified lookup from [f] has to answer. *)
Definition find_ok (e : env) (T : obj -> bool) (name : str) (f : frame_id) (r : result) : Prop :=
  match r with
  | Found x => exists j k g i, candidate e T name f j k g i x /\ nothing_nearer e T name f j k /\
      (forall g' i' x', candidate e T name f j k g' i' x' -> g' = g /\ i' = i)
  | Ambiguous => exists j k g1 i1 x1 g2 i2 x2,
      candidate e T name f j k g1 i1 x1 /\ candidate e T name f j k g2 i2 x2 /\
      (g1, i1) <> (g2, i2) /\ nothing_nearer e T name f j k
  | NoSuch => forall j k g i x, ~ candidate e T name f j k g i x
  | OutOfFuel => False
  end.

(** ** The program that builds the scopes *)

(** Every operation mentions a scope that exists when it is done; [n] scopes exist before. *)
Fixpoint legal (n : nat) (ops : list op) : Prop :=
  match ops with
  | [] => True
  | NewScope i _ :: r => i < n /\ legal (S n) r
  | Define i _ _ :: r => i < n /\ legal n r
  end.

(** The scopes opened, in order: enclosing scope and name.  The k-th one is scope k + 1. *)
Fixpoint openings (ops : list op) : list (frame_id * str) :=
  match ops with
  | [] => []
  | NewScope i m :: r => (i, m) :: openings r
  | Define _ _ _ :: r => openings r
  end.
Definition opened_in (ops : list op) (g : frame_id) : option frame_id :=
  match g with O => None | S k => option_map fst (nth_error (openings ops) k) end.

(** What was defined in scope [g] under a valid name, in order. *)
Fixpoint definitions (g : frame_id) (ops : list op) : list (str * obj) :=
  match ops with
  | [] => []
  | NewScope _ _ :: r => definitions g r
  | Define i m x :: r =>
      if Nat.eqb i g && valid_name m then (m, x) :: definitions g r else definitions g r
  end.

Definition nonempty (m : str) : bool := match m with [] => false | _ => true end.
(** The named (or the unnamed) scopes opened in [g]. *)
Fixpoint children (g : frame_id) (named : bool) (l : list (frame_id * str)) (k : nat)
  : list (str * frame_id) :=
  match l with
  | [] => []
  | (i, m) :: r =>
      (if Nat.eqb i g && (negb named || nonempty m) && (named || negb (nonempty m))
       then [(m, S k)] else []) ++ children g named r (S k)
  end.
