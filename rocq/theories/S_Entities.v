(** Specification of entity declarations and of what a condition on entities says. *)
From Coq Require Import ZArith QArith List Bool Arith.
From Verif Require Import M_Condition M_Entities.
Import ListNotations.
Local Close Scope Q_scope.

(** The declarations that count: the first scenario object of a name, and the first selection of a
    name that no scenario object bears. *)
Fixpoint first_object (ds : list decl) (n : name) : option object_type :=
  match ds with
  | [] => None
  | DObject m ty :: ds' => if m =? n then Some ty else first_object ds' n
  | _ :: ds' => first_object ds' n
  end.
Fixpoint first_selection (ds : list decl) (n : name)
  : option (list name * list object_type) :=
  match ds with
  | [] => None
  | DSelection m rs tys :: ds' => if m =? n then Some (rs, tys) else first_selection ds' n
  | _ :: ds' => first_selection ds' n
  end.

(** [m] is one of the scenario objects that the declared name [n] stands for. *)
Inductive member (ds : list decl) : name -> name -> Prop :=
| member_self : forall n ty, first_object ds n = Some ty -> member ds n n
| member_ref : forall n rs tys r m,
    first_object ds n = None -> first_selection ds n = Some (rs, tys) ->
    In r rs -> member ds r m -> member ds n m
| member_type : forall n tys m ty,
    first_object ds n = None -> first_selection ds n = Some ([], tys) ->
    first_object ds m = Some ty -> In ty tys -> member ds n m.

(** Every selection lists references or types but not both, and refers only to scenario objects
    declared anywhere and to selections declared earlier. *)
Definition well_declared (ds : list decl) : Prop :=
  forall pre n rs tys post,
    ds = pre ++ DSelection n rs tys :: post ->
    (rs <> [] /\ tys = [] \/ rs = [] /\ tys <> []) /\
    forall r, In r rs ->
      (exists ty, In (DObject r ty) ds) \/ (exists rs' tys', In (DSelection r rs' tys') pre).

Definition declared (ds : list decl) (n : name) : Prop :=
  (exists ty, In (DObject n ty) ds) \/ (exists rs tys, In (DSelection n rs tys) ds).
