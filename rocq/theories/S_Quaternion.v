(** What orientations are, without reference to how they are computed with. *)
From Coq Require Import Reals.
From Verif Require Import M_Ego M_Quaternion.
Local Open Scope R_scope.

(** An orientation is a quaternion of length one. *)
Definition unit (q : Quat) : Prop :=
  q_x q * q_x q + q_y q * q_y q + q_z q * q_z q + q_w q * q_w q = 1.
(** Two quaternions are the same orientation if every vector is turned the same way. *)
Definition same_orientation (a b : Quat) : Prop := forall v, rotate a v = rotate b v.
Definition inner (a b : Vec) : R := vec_x a * vec_x b + vec_y a * vec_y b + vec_z a * vec_z b.
Definition inner4 (a b : Quat) : R :=
  q_x a * q_x b + q_y a * q_y b + q_z a * q_z b + q_w a * q_w b.
Definition length (v : Vec) : R := sqrt (inner v v).
(** The vector of that length straight ahead of, to the left of and above an observer. *)
Definition ahead (k : R) : Vec := vec k 0 0.
Definition leftward (k : R) : Vec := vec 0 k 0.
Definition upward (k : R) : Vec := vec 0 0 k.
(** No turn at all, and a turn to the left by an angle. *)
Definition still : Quat := quat 0 0 0 1.
Definition turn (angle : R) : Quat := quat 0 0 (sin (angle / 2)) (cos (angle / 2)).
