(** * What is expected of the acceleration chosen on a polyline trajectory

    Written without reference to the model of the code. *)

From Coq Require Import List QArith Qabs.
Import ListNotations.
Open Scope Q_scope.

(** The speed after [n] frames of [dt] when the acceleration is [a] in the first frame and changes
    by [jerk * dt] from each frame to the next. *)
Fixpoint ramp (n : nat) (dt a jerk speed : Q) : Q :=
  match n with
  | O => speed
  | S n => ramp n dt (a + jerk * dt) jerk (speed + a * dt)
  end.

(** Of two places to stop, [x] metres before the waypoint is preferred to [y] metres before it
    (negative: behind it) if [x] is not behind the waypoint and [y] is behind it or farther away,
    or if both are behind it and [x] is nearer. *)
Definition preferred (x y : Q) : Prop :=
  (0 <= x /\ (y < 0 \/ x < y)) \/ (x < 0 /\ y < 0 /\ Qabs x < Qabs y).

(** Thirty-one values from [lo] to [hi] at equal distances. *)
Definition one_of_31 (lo hi a : Q) : Prop :=
  exists i : nat, (i <= 30)%nat /\ a == lo + inject_Z (Z.of_nat i) * ((hi - lo) / 30).

(** An entity whose acceleration in each frame is what [next] makes of its acceleration and its
    speed in the frame before: [(acceleration, speed)] after [n] frames. *)
Inductive driven (next : Q -> Q -> Q -> Prop) (dt : Q) (a0 v0 : Q) : nat -> Q -> Q -> Prop :=
| driven_start : driven next dt a0 v0 0 a0 v0
| driven_step n a v a' v' :
    driven next dt a0 v0 n a v -> next a v a' -> v' == v + a' * dt ->
    driven next dt a0 v0 (S n) a' v'.
