(** * Specification: the goals and speeds of pedestrians. *)
From Coq Require Import List QArith.
From Verif Require Import M_Goal.
Import ListNotations.
Local Open Scope Q_scope.

(** A point is farther away than the threshold, or as far. *)
Definition far {point} (threshold : Q) (v : view point) (g : point) : Prop := threshold <= distance _ v g.
(** A point of a trajectory is done with: it is ahead, and within the threshold. *)
Definition done {point} (threshold : Q) (v : view point) (g : point) : Prop :=
  ahead _ v g = true /\ distance _ v g <= threshold.
(** The goals of lanes: leave out those before the first near one, then the near ones up to the next far one, but
    keep the last point. *)
Definition lane_goal {point} (threshold : Q) (v : view point) (goals : list point) (g : point) : Prop :=
  exists before near after, goals = before ++ near ++ after /\ near <> [] /\
    Forall (far threshold v) before /\ Forall (fun g => ~ far threshold v g) near /\
    (after = [] /\ last near g = g \/ exists rest, after = g :: rest /\ far threshold v g).
