(** The rate that requests ask for. *)
From Coq Require Import Reals List.
From Verif Require Import M_Rate.
Import ListNotations.
Local Open Scope R_scope.

Definition is_start (q : request) : Prop := exists r, q = Start r.
(** The rate [r] is asked for: by the first request, or by a later reset, and only starts came after. *)
Definition asked (h : list request) (r : R) : Prop :=
  exists h1 h2, Forall is_start h2 /\
    (h = h1 ++ Reset r :: h2 \/ (h1 = [] /\ h = Start r :: h2)).
