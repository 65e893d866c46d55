(** What references to catalogs should mean. *)
From Coq Require Import Ascii String List Bool Arith Permutation.
From Verif Require Import M_Scope M_Catalog.
Import ListNotations.
Local Open Scope list_scope.

(** All catalogs there are. *)
Definition catalogs (ls : list location) : list (str * list entry) :=
  flat_map (fun f : file => match f with Some c => [c] | None => [] end) (concat ls).
(** No two of them have the same name. *)
Definition distinct (ls : list location) : Prop := NoDup (map fst (catalogs ls)).
(** The kinds of entries that objects can be made of. *)
Inductive makeable : str -> Prop :=
| makeable_vehicle : makeable (text "Vehicle")
| makeable_controller : makeable (text "Controller")
| makeable_pedestrian : makeable (text "Pedestrian")
| makeable_misc : makeable (text "MiscObject")
| makeable_maneuver : makeable (text "Maneuver").
(** [e] is the only entry of that name. *)
Definition only (es : list entry) (name : str) (e : entry) : Prop :=
  exists es1 es2, es = es1 ++ e :: es2 /\ n_name e = name /\
    Forall (fun x => n_name x <> name) es1 /\ Forall (fun x => n_name x <> name) es2.
(** The values a list gives to a name. *)
Definition values (l : list (str * obj)) (name : str) : list obj :=
  map snd (filter (fun a => if list_eq_dec ascii_dec (fst a) name then true else false) l).
Definition valid (l : list (str * obj)) : Prop := Forall (fun a => valid_name (fst a) = true) l.
