(** What an inertial measurement unit ought to report. *)
From Coq Require Import Reals List.
From Verif Require Import M_Ego M_Quaternion M_Imu S_Quaternion.
Import ListNotations.
Local Open Scope R_scope.

(** The longitudinal axis is not vertical. *)
Definition not_vertical (q : Quat) : Prop := forall k, rotate q (ahead 1) <> upward k.

(** No noise is asked for. *)
Definition quiet (s : Imu) : Prop :=
  override s = true \/ (sd_orientation s <= 0 /\ sd_twist s <= 0 /\ sd_acceleration s <= 0).

(** The attraction of the earth, in the frame of the map *)
Definition attraction : Vec := vec 0 0 (- (981 / 100)).

Definition plus (a b : Vec) : Vec := vec (vec_x a + vec_x b) (vec_y a + vec_y b) (vec_z a + vec_z b).
Definition minus (a b : Vec) : Vec := vec (vec_x a - vec_x b) (vec_y a - vec_y b) (vec_z a - vec_z b).

(** [a] is the vector [v] of the map as seen from a body of the orientation [q]. *)
Definition seen_as (q : Quat) (a v : Vec) : Prop := rotate q a = v.

(** A body stands upright if up for it is up in the map. *)
Definition upright (q : Quat) : Prop := rotate q (upward 1) = upward 1.

(** A body does not lean sideways if its lateral axis is horizontal. *)
Definition not_leaning (q : Quat) : Prop := vec_z (rotate q (leftward 1)) = 0.

(** The value at row i, column j of a covariance matrix *)
Definition entry (c : list R) (i j : nat) : option R := nth_error c (3 * i + j).
