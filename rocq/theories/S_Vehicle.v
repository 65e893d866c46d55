(** Words for the properties of the vehicle models; of the model only commands, gears and
    parameters are used. *)
From Coq Require Import Reals List.
From Verif Require Import M_Vehicle.
Import ListNotations.
Open Scope R_scope.

(** The [k]-th of the later commands has the [k]-th desired acceleration (or speed) of what is
    waiting followed by what was commanded, the same for the angle, and everything else as
    commanded. *)
Definition shifted (waiting_long waiting_angle : list R) (cs later : list command) : Prop :=
  List.length later = List.length cs /\
  forall k c d, nth_error cs k = Some c -> nth_error later k = Some d ->
    nth_error (waiting_long ++ map (fun c => longitudinal (fst c)) cs) k = Some (longitudinal (fst d)) /\
    nth_error (waiting_angle ++ map (fun c => angle (fst c)) cs) k = Some (angle (fst d)) /\
    gear_input (fst d) = gear_input (fst c) /\ slope (fst d) = slope (fst c) /\ snd d = snd c.

(** The same vehicle without delay *)
Definition unqueued (v : Vehicle) : Vehicle :=
  vehicle (model v) (params v) (st v) (inp v) (gear v) [] [] (ax v) (prev_vx v).

(** Commands that agree in what is not delayed *)
Definition same_but_delayed (c d : command) : Prop :=
  gear_input (fst d) = gear_input (fst c) /\ slope (fst d) = slope (fst c) /\ snd d = snd c.

(** [t] lies between [a] and [b]. *)
Definition between_numbers (a t b : R) : Prop := a <= t <= b \/ b <= t <= a.

(** Gears in which the wheels are driven forward, backward *)
Definition drives (g : nat) : Prop := (2 <= g <= 19)%nat \/ g = 23%nat \/ g = 24%nat.
Definition reverses (g : nat) : Prop := g = 20%nat \/ g = 21%nat.

(** The angle the wheels are turned to: what is commanded, limited and scaled *)
Definition wanted_angle (p : Parameters) (a : R) : R :=
  Rmax (Rmin a (steer_lim p)) (- steer_lim p) * steer_factor p.

(** Parameters that make sense *)
Definition sensible (p : Parameters) : Prop :=
  0 <= vx_lim p /\ 0 <= vx_rate_lim p /\ 0 <= steer_lim p /\ 0 <= steer_rate_lim p /\
  0 < time_constant p /\ 0 < steer_time_constant p /\ 0 <= steer_dead_band p /\
  0 <= acc_factor p /\ 0 <= steer_factor p.

(** The angle a vehicle steers to when [a] is due *)
Definition aimed_angle (m : Model) (p : Parameters) (a : R) : R :=
  match m with
  | DelaySteerMapAccGeared _ | DelaySteerVel => Rmax (Rmin a (steer_lim p)) (- steer_lim p)
  | _ => wanted_angle p a
  end.

(** The acceleration a vehicle works towards when [a] is due *)
Definition aimed_acceleration (p : Parameters) (a : R) : R :=
  Rmax (Rmin a (vx_rate_lim p)) (- vx_rate_lim p) * acc_factor p.

(** What is due when [c] is commanded: the oldest of what waits and what is commanded *)
Definition due_longitudinal (v : Vehicle) (c : command) : R := hd 0 (long_queue v ++ [longitudinal (fst c)]).
Definition due_angle (v : Vehicle) (c : command) : R := hd 0 (steer_queue v ++ [angle (fst c)]).
Definition due (v : Vehicle) (c : command) : Input :=
  input (due_longitudinal v c) (due_angle v c) (gear_input (fst c)) (slope (fst c)).

(** The models in which the gear decides the direction *)
Definition has_gears (m : Model) : bool :=
  match m with DelaySteerAccGeared | DelaySteerMapAccGeared _ | IdealSteerAccGeared => true | _ => false end.
