(** * Specification of traffic light texts and of the operations on lights.

    Written from the documentation of the state format (docs/developer_guide: "green", "red solidOn
    circle", "green, yellow flashing left", ...), using only the name tables and character classes of
    the model. *)
From Coq Require Import Ascii String List Bool ZArith Permutation.
From Verif Require Import M_TrafficLight.
Import ListNotations.
Local Open Scope list_scope.

(** The three hash tables may be walked in any order. *)
Definition some_order (co so ho : list str) : Prop :=
  Permutation co (map fst color_table) /\ Permutation so (map fst status_table) /\
  Permutation ho (map fst shape_table).

Definition blank (w : str) : Prop := Forall (fun c => is_space c = true) w.
Definition prefix (p s : str) : Prop := exists r, s = p ++ r.
(** A part that is left out has its default value. *)
Definition part {A} (t : list (str * A)) (d : A) (n : str) (v : A) : Prop :=
  (n = [] /\ v = d) \/ In (n, v) t.

(** [s] is a color, a status and a shape name in this order, each optional, with blanks between
    them. A name that belongs to several tables is read as the leftmost part it can stand for. *)
Definition reads (s : str) (b : bulb) : Prop :=
  exists cn w1 sn w2 hn,
    s = cn ++ w1 ++ sn ++ w2 ++ hn /\ blank w1 /\ blank w2 /\
    part color_table Green cn (b_color b) /\
    part status_table SolidOn sn (b_status b) /\
    part shape_table Circle hn (b_shape b) /\
    (cn = [] -> forall n, In n (map fst color_table) -> ~ prefix n s) /\
    (sn = [] -> w2 = [] /\ forall n, In n (map fst status_table) -> ~ prefix n hn).

(** A state of a light: bulbs separated by commas, possibly none. *)
Definition plain (h : str) : Prop := Forall (fun c => is_word c || is_space c = true) h.
Definition starts_with_word (h : str) : Prop := exists c d h', h = c :: d :: h' /\ is_word c = true.
Inductive state_text : str -> list bulb -> Prop :=
| state_nil : state_text [] []
| state_one h b : plain h -> starts_with_word h -> reads h b -> state_text h [b]
| state_cons h b w t bs :
    plain h -> starts_with_word h -> reads h b -> blank w ->
    (forall c t', t = c :: t' -> is_space c = false) ->
    Forall (fun c => is_newline c = false) t ->
    state_text t bs -> state_text (h ++ ","%char :: w ++ t) (b :: bs).

(** The bulbs shown by a light: a set, i.e. strictly sorted by the order of the code. *)
Inductive bulb_set : list bulb -> Prop :=
| set_nil : bulb_set []
| set_one b : bulb_set [b]
| set_cons a b l : (hash a < hash b)%Z -> bulb_set (b :: l) -> bulb_set (a :: b :: l).

(** [l] shows exactly the bulbs [P]. *)
Definition shows (l : list bulb) (P : bulb -> Prop) : Prop := bulb_set l /\ forall b, In b l <-> P b.
