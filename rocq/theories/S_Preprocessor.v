(** Specification of the preprocessor in terms of the requests made and the responses given. *)
From Coq Require Import List Bool ZArith.
From Verif Require Import M_Scope M_Preprocessor.
Import ListNotations.

Definition transcript := list (request * response).

(** The scenarios successfully loaded, oldest first. *)
Fixpoint loaded (tr : transcript) : list scenario :=
  match tr with
  | [] => []
  | (Load p rate _, Loaded true) :: tr' => (p, rate) :: loaded tr'
  | _ :: tr' => loaded tr'
  end.
(** The scenarios handed out, oldest first. *)
Fixpoint derived (tr : transcript) : list scenario :=
  match tr with
  | [] => []
  | (Derive, Derived (Some x)) :: tr' => x :: derived tr'
  | _ :: tr' => derived tr'
  end.
Definition fails (x : request * response) : Prop := snd x = Loaded false.
Definition is_distribution (d : document) : Prop := exists b, kind_of d = Distribution b.

(** The value of the first declaration of [n]. *)
Fixpoint value_of (l : list (str * str)) (n : str) : option str :=
  match l with
  | [] => None
  | (m, v) :: l' => if str_eqb m n then Some v else value_of l' n
  end.
(** The value most recently given to [n] by SetParameter. *)
Fixpoint last_set (rs : list request) (n : str) : option str :=
  match rs with
  | [] => None
  | SetParameter m v :: rs' =>
      match last_set rs' n with Some w => Some w | None => if str_eqb m n then Some v else None end
  | _ :: rs' => last_set rs' n
  end.

(** The scenarios waiting after [tr], oldest first: a load adds one at the
    end, a failing load discards all, Derive takes the first. *)
Fixpoint waiting (before : list scenario) (tr : transcript) : list scenario :=
  match tr with
  | [] => before
  | (Load p rate _, Loaded true) :: tr' => waiting (before ++ [(p, rate)]) tr'
  | (Load _ _ _, _) :: tr' => waiting [] tr'
  | (Derive, _) :: tr' => waiting (tl before) tr'
  | _ :: tr' => waiting before tr'
  end.
