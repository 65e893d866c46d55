(** * Model of the choice of the entity in front.

    /repo/simulation/behavior_tree_plugin/src/action_node.cpp:195-260, getFrontEntityName, for an entity
    that is on a lanelet. Simplifications: distances are rationals; whether another entity is on a lanelet
    and within 90 degrees of the heading ([ahead]) and its distance along the spline ([along], None if
    it is not reached) are given; horizon is the larger of the spline length and the stop distance. *)
From Coq Require Import String.
From Coq Require Import List Bool QArith.
Import ListNotations.
Local Open Scope string_scope.

(** action_node.cpp:211-222: the entry of the table concerning [self], within the horizon. *)
Definition neighbour (self : string) (horizon : Q) (entry : (string * string) * Q) : option (Q * string) :=
  let '((a, b), d) := entry in
  if Qle_bool horizon d then None
  else if a =? self then Some (d, b)
  else if b =? self then Some (d, a)
  else None.
(** std::map<double, std::string>::emplace: sorted by distance; an existing key is kept. *)
Fixpoint emplace (d : Q) (n : string) (m : list (Q * string)) : list (Q * string) :=
  match m with
  | [] => [(d, n)]
  | (k, v) :: m' =>
      if Qeq_bool d k then m
      else if Qle_bool d k then (d, n) :: m
      else (k, v) :: emplace d n m'
  end.
Definition local_map (self : string) (horizon : Q) (table : list ((string * string) * Q)) : list (Q * string) :=
  fold_left (fun m e => match neighbour self horizon e with Some (d, n) => emplace d n m | None => m end) table [].
(** action_node.cpp:231-258: the loop keeping the smallest distance along the spline. *)
Definition best (ahead : string -> bool) (along : string -> option Q) (m : list (Q * string)) : option (Q * string) :=
  fold_left
    (fun acc e =>
       if ahead (snd e) then
         match along (snd e) with
         | None => acc
         | Some x => match acc with
                     | None => Some (x, snd e)
                     | Some (y, _) => if Qle_bool y x then acc else Some (x, snd e)
                     end
         end
       else acc) m None.
Definition front_entity (self : string) (horizon : Q) (table : list ((string * string) * Q))
  (ahead : string -> bool) (along : string -> option Q) : option string :=
  option_map snd (best ahead along (local_map self horizon table)).
