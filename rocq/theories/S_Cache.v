(** * Specification of the map's answers. *)
From Coq Require Import String List Bool Arith ZArith QArith.
From Verif Require Import M_Cache.
Import ListNotations.

(** The map that was activated last. *)
Definition last_path (h : list call) : string :=
  fold_left (fun p c => match c with Activate q => q | Ask _ => p end) h ""%string.

(** The points of a centerline as they are used: with a third one halfway if there are two. *)
Inductive centered : list point -> list point -> Prop :=
| Centered_two a b m :
    (x m == (x a + x b) / 2 -> y m == (y a + y b) / 2 -> z m == (z a + z b) / 2 ->
     centered [a; b] [a; m; b])%Q
| Centered_other l : List.length l <> 2%nat -> centered l l.

(** What the map itself says, without caches. *)
Inductive says {spline : Type} (make : list point -> option spline) (m : lanelet_map)
  : question -> answer spline -> Prop :=
| Says_route g a b l r : m_route m g a b l = Some (Some r) -> says make m (AskRoute g a b l) (Ids r)
| Says_no_route g a b l : m_route m g a b l = Some None -> says make m (AskRoute g a b l) (Ids [])
| Says_unknown_route g a b l : m_route m g a b l = None -> says make m (AskRoute g a b l) Threw
| Says_points i l p : m_centerline m i = Some l -> centered l p -> says make m (AskPoints i) (Points p)
| Says_unknown_points i : m_centerline m i = None -> says make m (AskPoints i) Threw
| Says_spline i l p s : m_centerline m i = Some l -> centered l p -> make p = Some s ->
    says make m (AskSpline i) (Curve s)
| Says_no_spline i l p : m_centerline m i = Some l -> centered l p -> make p = None ->
    says make m (AskSpline i) Threw
| Says_unknown_spline i : m_centerline m i = None -> says make m (AskSpline i) Threw
| Says_length i q : m_length m i = Some q -> says make m (AskLength i) (Length q)
| Says_unknown_length i : m_length m i = None -> says make m (AskLength i) Threw.

(** The points of the lanelet make a spline. *)
Definition drawable {spline : Type} (make : list point -> option spline) (m : lanelet_map) (q : question)
  : Prop :=
  match q with
  | AskPoints i => forall l p, m_centerline m i = Some l -> centered l p -> make p <> None
  | _ => True
  end.

(** How often a thread moved. *)
Fixpoint moves (n : nat) (schedule : list event) : nat :=
  match schedule with
  | [] => 0
  | Step n' :: rest => (if Nat.eqb n' n then 1 else 0) + moves n rest
  | Replace :: rest => moves n rest
  end.
