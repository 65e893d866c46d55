(** * Model of qualified names and scopes.

    Paths are relative to /repo/openscenario/openscenario_interpreter (include/... abbreviates
    include/openscenario_interpreter/...). Strings are lists of bytes. *)
From Coq Require Import Ascii String List Bool Arith.
Import ListNotations.
Local Open Scope nat_scope.
Local Open Scope list_scope.

Definition str := list ascii.
Definition colon : ascii := ":"%char.
Definition nul : ascii := Ascii.zero.
Definition sep : str := [colon; colon].
Definition str_eqb (a b : str) : bool := if list_eq_dec ascii_dec a b then true else false.

(** std::string::find("::", from), as an offset from [from] in the remaining text. *)
Fixpoint find_sep (s : str) : option nat :=
  match s with
  | a :: (b :: _) as s' =>
      if Ascii.eqb a colon && Ascii.eqb b colon then Some 0
      else option_map S (find_sep s')
  | _ => None
  end.

(** include/name.hpp:75-93, separate. [prev] is prev_pos; the loop runs at most once per
    separator, [fuel] bounds it ([None]: out of fuel, shown not to happen). *)
Fixpoint separate_loop (fuel : nat) (s : str) (prev : nat) (result : list str) :
  option (list str) :=
  match fuel with
  | O => None
  | S fuel' =>
      match find_sep (skipn prev s) with
      | Some off =>                      (* pos = prev_pos + off *)
          separate_loop fuel' s (prev + off + length sep)
            (result ++ [firstn off (skipn prev s)])
      | None => Some (result ++ [skipn prev s])   (* substr(prev_pos, npos) *)
      end
  end.
Definition separate (s : str) : option (list str) := separate_loop (S (length s)) s 0 [].

(** include/name.hpp:26-37: the constructor of Name throws if the text contains one of the
    characters of the array ":", i.e. ':' or the terminating NUL. *)
Definition valid_name (s : str) : bool :=
  forallb (fun a => negb (Ascii.eqb a colon) && negb (Ascii.eqb a nul)) s.

Record prefixed := { absolute : bool; prefixes : list str; pname : str }.

(** Outcome of constructing a Prefixed. [Undefined] is undefined behaviour. *)
Inductive parsed := Parsed (p : prefixed) | Invalid | Undefined.

(** include/name.hpp:59-67: Prefixed(std::vector<std::string>). If the only piece is empty, the
    range [next(begin), prev(end)) is reversed and the std::list constructor runs off the end. *)
Definition prefixed_of (given : list str) : parsed :=
  let abs := match given with [] => false | g :: _ => match g with [] => true | _ => false end end in
  if abs && (length given <=? 1) then Undefined
  else
    let ps := if abs then tl (removelast given) else removelast given in
    let n := last given [] in
    if valid_name n then Parsed {| absolute := abs; prefixes := ps; pname := n |} else Invalid.

(** include/name.hpp:69: Prefixed(const std::string &). *)
Definition parse (s : str) : parsed :=
  match separate s with Some l => prefixed_of l | None => Undefined end.

(** include/name.hpp:71-74, strip<1>. *)
Definition strip1 (p : prefixed) : prefixed :=
  {| absolute := false; prefixes := tl (prefixes p); pname := pname p |}.

(** include/name.hpp:95-106, operator<<. *)
Definition text (s : string) : str := list_ascii_of_string s.
Definition print_prefixed (p : prefixed) : str :=
  (if absolute p then text "{root}::" else []) ++
  concat (map (fun q => (match q with [] => text "{anonymous}" | _ => q end) ++ sep) (prefixes p)) ++
  pname p.

(** ** Environment frames *)

(** include/scope.hpp:32-71. Frames live in a heap and are named by their index. Objects are
    numbers, the type asked for ([is_also<T>]) is a predicate on them. A std::multimap keeps equal
    keys in insertion order, which is all that is ever observed of it here, so [variables] and
    [inner_frames] are association lists in insertion order. Not modelled: the life time of frames
    (an inner frame is referenced by raw pointer). *)
Definition frame_id := nat.
Definition obj := nat.
Record frame := {
  variables : list (str * obj);
  outer : option frame_id;
  inner : list (str * frame_id);
  unnamed : list frame_id }.
Definition env := list frame.

Definition empty_frame (o : option frame_id) : frame :=
  {| variables := []; outer := o; inner := []; unnamed := [] |}.

(** src/scope.cpp:91-96: the outermost scope. *)
Definition env0 : env := [empty_frame None].

Fixpoint update (e : env) (i : nat) (f : frame -> frame) : env :=
  match e, i with
  | [], _ => []
  | x :: e', O => f x :: e'
  | x :: e', S i' => x :: update e' i' f
  end.

Inductive op :=
| NewScope (o : frame_id) (name : str)   (* Scope(name, outer) *)
| Define (f : frame_id) (name : str) (x : obj).  (* Scope::insert / EnvironmentFrame::define *)

(** src/scope.cpp:26-39 and 98-105 (Scope(name, outer)), src/scope.cpp:36-39 (define). The
    new frame gets the next index. Operations on scopes that do not exist cannot be written in the
    code and do nothing here; define throws for an invalid name (include/name.hpp:26-37). *)
Definition step (e : env) (o : op) : env :=
  match o with
  | NewScope i name =>
      if i <? length e then
        update e i (fun f =>
          match name with
          | [] => {| variables := variables f; outer := outer f; inner := inner f;
                     unnamed := unnamed f ++ [length e] |}
          | _ => {| variables := variables f; outer := outer f;
                    inner := inner f ++ [(name, length e)]; unnamed := unnamed f |}
          end) ++ [empty_frame (Some i)]
      else e
  | Define i name x =>
      if valid_name name then
        update e i (fun f => {| variables := variables f ++ [(name, x)]; outer := outer f;
                                inner := inner f; unnamed := unnamed f |})
      else e
  end.

Definition build (ops : list op) : env := fold_left step ops env0.

Definition get (e : env) (i : frame_id) : frame := nth i e (empty_frame None).

Inductive result := Found (x : obj) | NoSuch | Ambiguous | OutOfFuel.

Section Find.
Variables (e : env) (T : obj -> bool).

(** equal_range(name) of one frame. *)
Definition range {A} (name : str) (l : list (str * A)) : list A :=
  map snd (filter (fun x => str_eqb (fst x) name) l).

(** include/scope.hpp:75-107, the breadth first loop of find(Name) within one frame; [None] when
    [frames] becomes empty. *)
Fixpoint bfs (fuel : nat) (frames : list frame_id) (name : str) : option result :=
  match frames with
  | [] => None
  | _ =>
    match fuel with
    | O => Some OutOfFuel
    | S fuel' =>
        match filter T (concat (map (fun f => range name (variables (get e f))) frames)) with
        | [] => bfs fuel' (concat (map (fun f => unnamed (get e f)) frames)) name
        | [x] => Some (Found x)
        | _ => Some Ambiguous
        end
    end
  end.

(** include/scope.hpp:72-108, find(Name). *)
Fixpoint find_name (fuel : nat) (f : frame_id) (name : str) : result :=
  match fuel with
  | O => OutOfFuel
  | S fuel' =>
      match bfs (S (length e)) [f] name with
      | Some r => r
      | None =>
          match outer (get e f) with
          | None => NoSuch
          | Some o => find_name fuel' o name
          end
      end
  end.

(** src/scope.cpp:43-60, resolvePrefix. The std::list::merge of lists that are not sorted is
    modelled as concatenation: only the size and, for size one, the element are ever used.
    [None]: out of fuel. *)
Fixpoint resolve_prefix (fuel : nat) (f : frame_id) (p : str) : option (list frame_id) :=
  match fuel with
  | O => None
  | S fuel' =>
      match range p (inner (get e f)) with
      | [] =>
          fold_left (fun acc c =>
            match acc, resolve_prefix fuel' c p with
            | Some a, Some b => Some (a ++ b)
            | _, _ => None
            end) (unnamed (get e f)) (Some [])
      | l => Some l
      end
  end.

(** include/scope.hpp:110-126, find(Prefixed). *)
Fixpoint find_prefixed (f : frame_id) (ps : list str) (name : str) : result :=
  match ps with
  | [] => find_name (S (length e)) f name
  | p :: ps' =>
      match resolve_prefix (S (length e)) f p with
      | None => OutOfFuel
      | Some [] => NoSuch
      | Some [g] => find_prefixed g ps' name
      | Some _ => Ambiguous
      end
  end.

(** src/scope.cpp:62-65, outermostFrame. *)
Fixpoint outermost (fuel : nat) (f : frame_id) : option frame_id :=
  match fuel with
  | O => None
  | S fuel' => match outer (get e f) with None => Some f | Some o => outermost fuel' o end
  end.

(** src/scope.cpp:67-89, lookupFrame. *)
Inductive looked := Frame (f : frame_id) | Multiple | NoFuel.
Fixpoint lookup_frame (fuel : nat) (f : frame_id) (p : str) : looked :=
  match fuel with
  | O => NoFuel
  | S fuel' =>
      match outer (get e f) with
      | None => Frame f
      | Some o =>
          match resolve_prefix (S (length e)) o p with
          | None => NoFuel
          | Some [] => lookup_frame fuel' o p
          | Some [g] => Frame g
          | Some _ => Multiple
          end
      end
  end.

(** include/scope.hpp:128-138, ref. *)
Definition ref (f : frame_id) (p : prefixed) : result :=
  if absolute p then
    match outermost (S (length e)) f with
    | Some r => find_prefixed r (prefixes p) (pname p)
    | None => OutOfFuel
    end
  else
    match prefixes p with
    | [] => find_name (S (length e)) f (pname p)
    | q :: ps =>
        match lookup_frame (S (length e)) f q with
        | Frame g => find_prefixed g ps (pname p)
        | Multiple => Ambiguous
        | NoFuel => OutOfFuel
        end
    end.
End Find.
