(** Rays and the points where they end. *)
From Coq Require Import Reals List.
From Verif Require Import M_Ego M_Quaternion M_Rays S_Quaternion.
Import ListNotations.
Local Open Scope R_scope.

(** The rays of the columns 1 to n of a scan: one for each column and vertical angle, column by column *)
Definition columns (vertical : list R) (start resolution : R) (n : nat) : list Quat :=
  flat_map (fun i => map (fun v => from_euler 0 v (start + INR i * resolution)) vertical) (seq 1 n).

(** A scan that ends has the rays [d]. *)
Definition scan (vertical : list R) (start stop resolution : R) (d : list Quat) : Prop :=
  exists fuel, sweep fuel vertical start stop resolution = Some d.

(** The states that a new raycaster comes to by asking for directions *)
Inductive reached : Caster -> Prop :=
  | reached_new c : directions c = [] -> reached c
  | reached_asked c fuel vertical start stop resolution d c' :
      reached c -> get_directions fuel c vertical start stop resolution = Some (d, c') -> reached c'.

(** Where a ray is after a distance *)
Definition along (from direction : Vec) (distance : R) : Vec :=
  vec (vec_x from + distance * vec_x direction) (vec_y from + distance * vec_y direction)
      (vec_z from + distance * vec_z direction).

(** Where a point of the frame of a sensor is in the map *)
Definition placed (at_ : Vec) (heading : Quat) (p : Vec) : Vec :=
  vec (vec_x at_ + vec_x (rotate heading p)) (vec_y at_ + vec_y (rotate heading p))
      (vec_z at_ + vec_z (rotate heading p)).
