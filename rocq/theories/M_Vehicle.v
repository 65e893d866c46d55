(** The vehicle models of the ego entity: simulation/simple_sensor_simulator/src/
    vehicle_simulation/vehicle_model/*.cpp and the headers beside them.  Numbers are exact reals;
    rounding, NaN and infinities are left out. *)
From Coq Require Import Reals List ZArith Bool Lia.
Import ListNotations.
Open Scope R_scope.

(** *** Comparisons *)
Definition below (a b : R) : bool := if Rlt_dec a b then true else false.
Definition at_most (a b : R) : bool := if Rle_dec a b then true else false.

(** The lambda [sat], sim_model_delay_steer_acc_geared.cpp:90 (and its copies); [std::clamp(v, l, u)]
    of the model with an acceleration map is the same for [l <= u]. *)
Definition sat (v u l : R) : R := Rmax (Rmin v u) l.

(** *** State and input

    The state vectors of all models in one record: the indices [X, Y, YAW, VX, STEER, ACCX,
    PEDAL_ACCX] of sim_model_delay_steer_acc_geared_wo_fall_guard.hpp:61-69. The shorter vectors of
    the other models are the fields they name; the remaining fields are not touched by them
    (simplification: one record instead of vectors of different size). *)
Record State : Set := state
  { px : R; py : R; yaw : R; vx : R; steer : R; accx : R; pedal : R }.

(** [Eigen::VectorXd::Zero] of sim_model_interface.cpp:19 *)
Definition zero_state : State := state 0 0 0 0 0 0 0.

Definition scaled (k : R) (s : State) : State :=
  state (k * px s) (k * py s) (k * yaw s) (k * vx s) (k * steer s) (k * accx s) (k * pedal s).
Definition added (s t : State) : State :=
  state (px s + px t) (py s + py t) (yaw s + yaw t) (vx s + vx t) (steer s + steer t)
    (accx s + accx t) (pedal s + pedal t).

Definition with_vx (v : R) (s : State) : State :=
  state (px s) (py s) (yaw s) v (steer s) (accx s) (pedal s).
Definition with_accx (a : R) (s : State) : State :=
  state (px s) (py s) (yaw s) (vx s) (steer s) a (pedal s).

(** The input vectors: [longitudinal] is the desired acceleration, pedal acceleration or speed,
    depending on the model; [GEAR] and [SLOPE_ACCX] exist only without fall guard
    (sim_model_delay_steer_acc_geared_wo_fall_guard.hpp:70). *)
Record Input : Set := input { longitudinal : R; angle : R; gear_input : nat; slope : R }.
Definition zero_input : Input := input 0 0 0 0.

(** *** Parameters: the arguments of the constructors after the initialisers
    (sim_model_delay_steer_acc_geared_wo_fall_guard.cpp:22-43 has all of them) *)
Record Parameters : Set := parameters
  { vx_lim : R; vx_rate_lim : R; steer_lim : R; steer_rate_lim : R; wheelbase : R;
    time_constant : R; steer_time_constant : R; steer_dead_band : R; steer_bias : R;
    acc_factor : R; steer_factor : R }.

Definition min_time_constant : R := 3 / 100.

(** sim_model_delay_steer_acc_geared.cpp:19-41 and the other constructors: time constants are at
    least [MIN_TIME_CONSTANT], scaling factors at least zero. *)
Definition constructed (vl sl vr sr wb at_ st band bias af sf : R) : Parameters :=
  parameters vl vr sl sr wb (Rmax at_ min_time_constant) (Rmax st min_time_constant) band bias
    (Rmax af 0) (Rmax sf 0).

(** *** Gears: the constants of autoware_vehicle_msgs/GearCommand *)
Definition gear_none : nat := 0.
Definition gear_neutral : nat := 1.
Definition gear_drive : nat := 2.
Definition gear_reverse : nat := 20.
Definition gear_reverse_2 : nat := 21.
Definition gear_park : nat := 22.
Definition gear_low : nat := 23.
Definition gear_low_2 : nat := 24.

(** The condition of the first branch, sim_model_delay_steer_acc_geared.cpp:137-144: [DRIVE] to
    [DRIVE_18] are 2 to 19. *)
Definition forward_gear (g : nat) : bool :=
  ((2 <=? g)%nat && (g <=? 19)%nat) || (g =? gear_low)%nat || (g =? gear_low_2)%nat.
Definition reverse_gear (g : nat) : bool := (g =? gear_reverse)%nat || (g =? gear_reverse_2)%nat.

(** *** Derivatives *)

(** The lambda [steer_diff_with_dead_band], sim_model_delay_steer_acc_geared.cpp:101-109 *)
Definition dead_banded (band diff : R) : R :=
  if below band diff then diff - band else if below diff (- band) then diff + band else 0.

(** sim_model_delay_steer_acc_geared.cpp:110-111 *)
Definition steer_rate (p : Parameters) (current desired : R) : R :=
  sat (- dead_banded (steer_dead_band p) (current - desired) / steer_time_constant p)
    (steer_rate_lim p) (- steer_rate_lim p).

(** sim_model_delay_steer_acc_geared.cpp:87-122, and the same in sim_model_delay_steer_acc.cpp:75-112 *)
Definition calc_acc (p : Parameters) (u : Input) (s : State) : State :=
  let vel := sat (vx s) (vx_lim p) (- vx_lim p) in
  let acc := sat (accx s) (vx_rate_lim p) (- vx_rate_lim p) in
  let acc_des := sat (longitudinal u) (vx_rate_lim p) (- vx_rate_lim p) * acc_factor p in
  let steer_des := sat (angle u) (steer_lim p) (- steer_lim p) * steer_factor p in
  state (vel * cos (yaw s)) (vel * sin (yaw s)) (vel * tan (steer s) / wheelbase p) acc
    (steer_rate p (steer s) steer_des) (- (acc - acc_des) / time_constant p) 0.

(** sim_model_delay_steer_map_acc_geared.cpp:253-279; [convert] is the acceleration map, or the
    identity on the desired acceleration without one. There are no dead band and no factors. *)
Definition calc_map (convert : R -> R -> R) (p : Parameters) (u : Input) (s : State) : State :=
  let vel := sat (vx s) (vx_lim p) (- vx_lim p) in
  let acc := sat (accx s) (vx_rate_lim p) (- vx_rate_lim p) in
  let acc_des := sat (longitudinal u) (vx_rate_lim p) (- vx_rate_lim p) in
  let steer_des := sat (angle u) (steer_lim p) (- steer_lim p) in
  state (vel * cos (yaw s)) (vel * sin (yaw s)) (vel * tan (steer s) / wheelbase p) acc
    (sat (- (steer s - steer_des) / steer_time_constant p) (steer_rate_lim p) (- steer_rate_lim p))
    (- (acc - convert acc_des vel) / time_constant p) 0.

(** The lambda of sim_model_delay_steer_acc_geared_wo_fall_guard.cpp:146-171 *)
Definition fall_acceleration (vel pedal_acc : R) (u : Input) : R :=
  if at_most 0 pedal_acc then
    if ((gear_input u =? gear_none) || (gear_input u =? gear_park))%nat%bool then 0
    else if (gear_input u =? gear_neutral)%nat then slope u
    else if reverse_gear (gear_input u) then - pedal_acc + slope u
    else pedal_acc + slope u
  else if below 0 vel then pedal_acc + slope u
  else if below vel 0 then - pedal_acc + slope u
  else if at_most (Rabs (slope u)) (- pedal_acc) then 0
  else slope u.

(** sim_model_delay_steer_acc_geared_wo_fall_guard.cpp:113-176. [measured] is [getSteer()] (line
    65-69), which reads the state before the step; with Euler's method it is the state given. *)
Definition calc_fall (p : Parameters) (u : Input) (s : State) : State :=
  let vel := sat (vx s) (vx_lim p) (- vx_lim p) in
  let pedal_acc := sat (pedal s) (vx_rate_lim p) (- vx_rate_lim p) in
  let pedal_des := sat (longitudinal u) (vx_rate_lim p) (- vx_rate_lim p) * acc_factor p in
  let steer_des := sat (angle u) (steer_lim p) (- steer_lim p) * steer_factor p in
  let measured := steer s + steer_bias p in
  state (vel * cos (yaw s)) (vel * sin (yaw s)) (vel * tan (steer s) / wheelbase p)
    (fall_acceleration vel pedal_acc u)
    (steer_rate p measured steer_des) 0 (- (pedal_acc - pedal_des) / time_constant p).

(** sim_model_delay_steer_vel.cpp:76-110 *)
Definition calc_vel (p : Parameters) (u : Input) (s : State) : State :=
  let vel := sat (vx s) (vx_lim p) (- vx_lim p) in
  let st := sat (steer s) (steer_lim p) (- steer_lim p) in
  let vel_des := sat (longitudinal u) (vx_lim p) (- vx_lim p) in
  let rate := sat (- (vel - vel_des) / time_constant p) (vx_rate_lim p) (- vx_rate_lim p) in
  let steer_des := sat (angle u) (steer_lim p) (- steer_lim p) in
  state (vel * cos (yaw s)) (vel * sin (yaw s)) (vel * tan st / wheelbase p) rate
    (steer_rate p st steer_des) 0 0.

(** sim_model_ideal_steer_acc.cpp:35-50, sim_model_ideal_steer_acc_geared.cpp:44-58 *)
Definition calc_ideal_acc (p : Parameters) (u : Input) (s : State) : State :=
  state (vx s * cos (yaw s)) (vx s * sin (yaw s)) (vx s * tan (angle u) / wheelbase p)
    (longitudinal u) 0 0 0.

(** sim_model_ideal_steer_vel.cpp:40-53 *)
Definition calc_ideal_vel (p : Parameters) (u : Input) (s : State) : State :=
  state (longitudinal u * cos (yaw s)) (longitudinal u * sin (yaw s))
    (longitudinal u * tan (angle u) / wheelbase p) 0 0 0 0.

(** *** Steps: sim_model_interface.cpp:23-35 *)
Definition runge_kutta (calc : State -> State) (dt : R) (s : State) : State :=
  let k1 := calc s in
  let k2 := calc (added s (scaled (1 / 2 * dt) k1)) in
  let k3 := calc (added s (scaled (1 / 2 * dt) k2)) in
  let k4 := calc (added s (scaled dt k3)) in
  added s (scaled (1 / 6 * dt) (added (added k1 (scaled 2 k2)) (added (scaled 2 k3) k4))).
Definition euler (calc : State -> State) (dt : R) (s : State) : State :=
  added s (scaled dt (calc s)).

(** *** Models *)
Inductive Model : Type :=
| DelaySteerAcc
| DelaySteerAccGeared
| DelaySteerAccGearedWoFallGuard
| DelaySteerMapAccGeared (convert : R -> R -> R)
| DelaySteerVel
| IdealSteerAcc
| IdealSteerAccGeared
| IdealSteerVel.

(** The members of [SimModelInterface] and of the classes derived from it. [ax] is
    [current_ax_] or [current_acc_], [prev_vx] is [prev_vx_] of sim_model_ideal_steer_vel.hpp:49. *)
Record Vehicle : Type := vehicle
  { model : Model; params : Parameters; st : State; inp : Input; gear : nat;
    long_queue : list R; steer_queue : list R; ax : R; prev_vx : R }.

(** [push_back], [front], [pop_front]: sim_model_delay_steer_acc_geared.cpp:57-62; the queue is not
    empty after the push. *)
Definition rotate (queue : list R) (v : R) : R * list R :=
  match queue ++ [v] with [] => (v, []) | f :: rest => (f, rest) end.

(** [round] (halves away from zero) and the conversion to [size_t] for delays of zero or more,
    sim_model_delay_steer_acc_geared.cpp:76-85 *)
Definition queue_size (delay dt : R) : nat := Z.to_nat (Int_part (delay / dt + 1 / 2)).
Definition initial_queue (delay dt : R) : list R := repeat 0 (queue_size delay dt).

(** The lambda [setStopState], sim_model_delay_steer_acc_geared.cpp:127-133; the [std::max] in the
    denominator is kept. *)
Definition minimum_dt : R := / 100000.
Definition stopped (prev s : State) : State :=
  state (px prev) (py prev) (yaw prev) 0 (steer s) (accx s) (pedal s).
Definition stopped_acc (dt : R) (prev s : State) : State :=
  with_accx ((0 - vx prev) / Rmax dt minimum_dt) (stopped prev s).

(** [updateStateWithGear], sim_model_delay_steer_acc_geared.cpp:124-156,
    sim_model_delay_steer_map_acc_geared.cpp:281-326, sim_model_ideal_steer_acc_geared.cpp:60-92 *)
Definition with_gear (stop : State -> State -> State) (g : nat) (prev s : State) : State :=
  if forward_gear g then (if below (vx s) 0 then stop prev s else s)
  else if reverse_gear g then (if below 0 (vx s) then stop prev s else s)
  else stop prev s.

(** [state_(IDX::VX) = std::max(-vx_lim_, std::min(state_(IDX::VX), vx_lim_))] *)
Definition limited (p : Parameters) (s : State) : State :=
  with_vx (Rmax (- vx_lim p) (Rmin (vx s) (vx_lim p))) s.

(** sim_model_delay_steer_acc_geared_wo_fall_guard.cpp:93-101 *)
Definition fall_step (p : Parameters) (dt : R) (u : Input) (s : State) : State :=
  let next := limited p (euler (calc_fall p u) dt s) in
  let next :=
    if at_most (vx s * vx next) 0 && at_most (Rabs (slope u)) (- pedal next)
    then with_vx 0 next else next in
  with_accx ((vx next - vx s) / dt) next.

(** [update] of the models with delay, given the delayed input: what happens to the state *)
Definition delayed_step (m : Model) (p : Parameters) (g : nat) (dt : R) (u : Input) (s : State) : State :=
  match m with
  | DelaySteerAcc => limited p (runge_kutta (calc_acc p u) dt s)
  | DelaySteerAccGeared =>
      with_gear (stopped_acc dt) g s (limited p (runge_kutta (calc_acc p u) dt s))
  | DelaySteerAccGearedWoFallGuard => fall_step p dt u s
  | DelaySteerMapAccGeared convert =>
      with_gear (stopped_acc dt) g s (limited p (runge_kutta (calc_map convert p u) dt s))
  | DelaySteerVel => runge_kutta (calc_vel p u) dt s
  | IdealSteerAcc => runge_kutta (calc_ideal_acc p u) dt s
  | IdealSteerAccGeared => with_gear stopped g s (runge_kutta (calc_ideal_acc p u) dt s)
  | IdealSteerVel => runge_kutta (calc_ideal_vel p u) dt s
  end.

Definition delayed (m : Model) : bool :=
  match m with IdealSteerAcc | IdealSteerAccGeared | IdealSteerVel => false | _ => true end.

(** [update], sim_model_delay_steer_acc_geared.cpp:53-74 and the others: queues for the models with
    delay; [GEAR] and [SLOPE_ACCX] are not delayed
    (sim_model_delay_steer_acc_geared_wo_fall_guard.cpp:81-82). The reported acceleration:
    sim_model_delay_steer_vel.cpp:59-61, sim_model_ideal_steer_acc_geared.cpp:94,
    sim_model_ideal_steer_vel.cpp:35-37. *)
Definition update (dt : R) (v : Vehicle) : Vehicle :=
  let '(lo, lq) := if delayed (model v) then rotate (long_queue v) (longitudinal (inp v))
                   else (longitudinal (inp v), long_queue v) in
  let '(an, sq) := if delayed (model v) then rotate (steer_queue v) (angle (inp v))
                   else (angle (inp v), steer_queue v) in
  let u := input lo an (gear_input (inp v)) (slope (inp v)) in
  let next := delayed_step (model v) (params v) (gear v) dt u (st v) in
  let ax' := match model v with
             | DelaySteerVel => (vx next - vx (st v)) / dt
             | IdealSteerAccGeared => (vx next - vx (st v)) / Rmax dt minimum_dt
             | IdealSteerVel => (longitudinal (inp v) - prev_vx v) / dt
             | _ => ax v
             end in
  let prev' := match model v with IdealSteerVel => longitudinal (inp v) | _ => prev_vx v end in
  vehicle (model v) (params v) next (inp v) (gear v) lq sq ax' prev'.

(** [setGear], [setInput], [setState]: sim_model_interface.cpp:38-40 *)
Definition set_state (s : State) (v : Vehicle) : Vehicle :=
  vehicle (model v) (params v) s (inp v) (gear v) (long_queue v) (steer_queue v) (ax v) (prev_vx v).
Definition set_command (u : Input) (g : nat) (v : Vehicle) : Vehicle :=
  vehicle (model v) (params v) (st v) u g (long_queue v) (steer_queue v) (ax v) (prev_vx v).

(** *** What is read: [getVx], [getAx], [getWz], [getSteer] of the models *)
Definition get_vx (v : Vehicle) : R :=
  match model v with IdealSteerVel => longitudinal (inp v) | _ => vx (st v) end.
Definition get_ax (v : Vehicle) : R :=
  match model v with
  | DelaySteerVel | IdealSteerAccGeared | IdealSteerVel => ax v
  | IdealSteerAcc => longitudinal (inp v)
  | _ => accx (st v)
  end.
Definition get_steer (v : Vehicle) : R :=
  match model v with
  | IdealSteerAcc | IdealSteerAccGeared | IdealSteerVel => angle (inp v)
  | DelaySteerAccGearedWoFallGuard => steer (st v) + steer_bias (params v)
  | _ => steer (st v)
  end.
Definition get_wz (v : Vehicle) : R :=
  match model v with
  | IdealSteerVel => longitudinal (inp v) * tan (angle (inp v)) / wheelbase (params v)
  | IdealSteerAcc | IdealSteerAccGeared => vx (st v) * tan (angle (inp v)) / wheelbase (params v)
  | _ => vx (st v) * tan (steer (st v)) / wheelbase (params v)
  end.

(** *** A run: before every step a command with its gear is set
    (ego_entity_simulation.cpp:338-340) *)
Definition command : Type := (Input * nat)%type.
Definition step (dt : R) (v : Vehicle) (c : command) : Vehicle :=
  update dt (set_command (fst c) (snd c) v).
Definition run (dt : R) (v : Vehicle) (cs : list command) : Vehicle := fold_left (step dt) cs v.

(** *** The acceleration map: sim_model_delay_steer_map_acc_geared.cpp:20-61 and the header's
    lines 30-95, 137-190. [None] is an exception. *)
Fixpoint increasing (l : list R) : bool :=
  match l with
  | a :: (b :: _) as rest => below a b && increasing rest
  | _ => true
  end.

(** sim_model_delay_steer_map_acc_geared.cpp:28-53 for one query: the loop moves on while the next
    key is below the query. *)
Fixpoint lerp_search (keys values : list R) (q : R) : option R :=
  match keys, values with
  | k0 :: (k1 :: _) as keys', v0 :: (v1 :: _) as values' =>
      if below k1 q then lerp_search keys' values' q
      else Some (v0 + (v1 - v0) * ((q - k0) / (k1 - k0)))
  | _, _ => None
  end.

Definition key_epsilon : R := / 1000.
Definition first_key (l : list R) : R := hd 0 l.
Definition last_key (l : list R) : R := last l 0.

(** header lines 62-118 and sim_model_delay_steer_map_acc_geared.cpp:28-61 *)
Definition lerp (keys values : list R) (q : R) : option R :=
  if (List.length keys <? 2)%nat then None
  else if negb (increasing keys) then None
  else if below q (first_key keys - key_epsilon) || below (last_key keys + key_epsilon) q then None
  else if (List.length values <? 2)%nat then None
  else if negb (List.length keys =? List.length values)%nat then None
  else lerp_search keys values (Rmin (Rmax q (first_key keys)) (last_key keys)).

(** [std::max_element], [std::min_element] *)
Definition greatest_of (l : list R) : R := fold_left Rmax l (hd 0 l).
Definition least_of (l : list R) : R := fold_left Rmin l (hd 0 l).

(** sim_model_delay_steer_map_acc_geared.cpp:164-177 *)
Definition clamp_value (v : R) (ranges : list R) : R :=
  if below v (least_of ranges) || below (greatest_of ranges) v
  then Rmin (Rmax v (least_of ranges)) (greatest_of ranges) else v.

(** header lines 168-187 *)
Fixpoint rows_at (vel_index : list R) (rows : list (list R)) (vel : R) : option (list R) :=
  match rows with
  | [] => Some []
  | row :: rest =>
      match lerp vel_index row vel, rows_at vel_index rest vel with
      | Some a, Some l => Some (a :: l)
      | _, _ => None
      end
  end.
Definition get_acceleration (vel_index acc_index : list R) (rows : list (list R)) (acc_des vel : R)
  : option R :=
  match rows_at vel_index rows (clamp_value vel vel_index) with
  | None => None
  | Some column => lerp acc_index column (clamp_value acc_des acc_index)
  end.
