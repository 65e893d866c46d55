(** * Model of speed change requests.

    Paths are relative to /repo/simulation/traffic_simulator; "entity_base" is
    src/entity/entity_base.cpp. Simplifications: speeds and times are rationals; entities are named by
    natural numbers; an exception sets [w_failed] and is otherwise ignored (the theorems speak about
    histories without exceptions); the planner of the time-constrained transition
    (planConstraintsFromJerkAndTimeConstraint, modelled on its own in M_SpeedPlan) is a parameter. *)
From Coq Require Import List Bool Arith ZArith QArith Qabs.
From Verif Require Import M_Job.
Import ListNotations.
Local Open Scope Q_scope.

(** simulation/traffic_simulator_msgs/msg/DynamicConstraints.msg. *)
Record limits := { max_acc : Q; max_acc_rate : Q; max_dec : Q; max_dec_rate : Q; max_speed : Q }.
(** The default values of that message; src/entity/vehicle_entity.cpp:64-69,
    getDefaultDynamicConstraints. *)
Definition default_limits : limits :=
  {| max_acc := 10; max_acc_rate := 3; max_dec := 10; max_dec_rate := 3; max_speed := 50 |}.

(** The members of an entity that the functions below read or write: its name, status_ (linear speed
    and acceleration), target_speed_, the dynamic constraints of its behaviour parameter and the
    speeds of the other entities (other_status_, which never contains the entity itself,
    entity_base:576-581). *)
Record world :=
  { w_name : nat; w_speed : Q; w_accel : Q; w_target : option Q; w_limits : limits;
    w_others : nat -> option Q; w_failed : bool }.

Definition set_speed (v : Q) (w : world) : world :=
  {| w_name := w_name w; w_speed := v; w_accel := w_accel w; w_target := w_target w;
     w_limits := w_limits w; w_others := w_others w; w_failed := w_failed w |}.
Definition set_accel (a : Q) (w : world) : world :=
  {| w_name := w_name w; w_speed := w_speed w; w_accel := a; w_target := w_target w;
     w_limits := w_limits w; w_others := w_others w; w_failed := w_failed w |}.
Definition set_target (t : option Q) (w : world) : world :=
  {| w_name := w_name w; w_speed := w_speed w; w_accel := w_accel w; w_target := t;
     w_limits := w_limits w; w_others := w_others w; w_failed := w_failed w |}.
Definition set_limits (l : limits) (w : world) : world :=
  {| w_name := w_name w; w_speed := w_speed w; w_accel := w_accel w; w_target := w_target w;
     w_limits := l; w_others := w_others w; w_failed := w_failed w |}.
Definition set_others (o : nat -> option Q) (w : world) : world :=
  {| w_name := w_name w; w_speed := w_speed w; w_accel := w_accel w; w_target := w_target w;
     w_limits := w_limits w;
     w_others := fun n => if Nat.eqb n (w_name w) then None else o n; w_failed := w_failed w |}.
Definition fail (w : world) : world :=
  {| w_name := w_name w; w_speed := w_speed w; w_accel := w_accel w; w_target := w_target w;
     w_limits := w_limits w; w_others := w_others w; w_failed := true |}.

(** src/entity/vehicle_entity.cpp:304-312, setAccelerationLimit (called with absolute values). *)
Definition set_acceleration_limit (a : Q) (w : world) : world :=
  let l := w_limits w in
  set_limits {| max_acc := a; max_acc_rate := max_acc_rate l; max_dec := max_dec l;
                max_dec_rate := max_dec_rate l; max_speed := max_speed l |} w.
(** src/entity/vehicle_entity.cpp:324-332, setDecelerationLimit. *)
Definition set_deceleration_limit (a : Q) (w : world) : world :=
  let l := w_limits w in
  set_limits {| max_acc := max_acc l; max_acc_rate := max_acc_rate l; max_dec := a;
                max_dec_rate := max_dec_rate l; max_speed := max_speed l |} w.
(** entity_base:160-163, resetDynamicConstraints. *)
Definition reset_limits (w : world) : world := set_limits default_limits w.

(** src/behavior/longitudinal_speed_planning.cpp:136-141 with the default tolerance 0.01 of the header;
    entity_base:129-132. *)
Definition reached (v : Q) (w : world) : bool := Qle_bool (Qabs (v - w_speed w)) (1 # 100).
(** src/behavior/longitudinal_speed_planning.cpp:256-266. *)
Definition accelerating (v : Q) (w : world) : bool := Qle_bool (w_speed w) v.
Definition decelerating (v : Q) (w : world) : bool := Qle_bool v (w_speed w).

(** include/traffic_simulator/data_type/speed_change.hpp:25-86. *)
Inductive transition := Linear | Step | Auto.
Inductive constraint := LongitudinalAcceleration (a : Q) | Time (t : Q) | NoConstraint.
Inductive relative := Delta (ref : nat) (v : Q) | Factor (ref : nat) (v : Q).
Definition reference (r : relative) : nat := match r with Delta n _ => n | Factor n _ => n end.
(** src/data_type/speed_change.cpp:33-62, getAbsoluteValue. None is the exception. *)
Definition absolute (r : relative) (w : world) : option Q :=
  let base :=
    match w_others w (reference r) with
    | None => if Nat.eqb (w_name w) (reference r) then Some (w_speed w) else None
    | Some v => Some v
    end in
  match base with
  | None => None
  | Some b => Some (match r with Delta _ v => b + v | Factor _ v => b * v end)
  end.

(** An entity: its job list and its other members. *)
Definition entity : Type := list (job world) * world.
Definition change (g : world -> world) (e : entity) : entity := (fst e, g (snd e)).
Definition add (f : Q -> world -> world * bool) (c : world -> world) (t : type) (e : entity) : entity :=
  let '(l, w, _) := append f c t true PostUpdate (fst e) (snd e) in (l, w).

(** entity_base:459-493, requestSpeedChange(double, bool). *)
Definition hold_speed (v : Q) : Q -> world -> world * bool :=
  fun _ w => (set_target (Some v) w, false).
Definition approach_speed (v : Q) : Q -> world -> world * bool :=
  fun _ w => if reached v w then (w, true) else (set_target (Some v) w, false).
Definition cancel_target (w : world) : world := set_target None w.
Definition keep (w : world) : world := w.
Definition request_speed (v : Q) (continuous : bool) (e : entity) : entity :=
  if reached v (snd e) && negb continuous then e
  else if continuous then
    add (hold_speed v) keep LinearVelocity (change (set_target (Some v)) e)
  else
    add (approach_speed v) cancel_target LinearVelocity (change (set_target (Some v)) e).

(** entity_base:219-268, requestSpeedChangeWithConstantAcceleration(double, ...), transition AUTO. *)
Definition above (v : Q) : Q -> world -> world * bool := fun _ w => (w, Qle_bool v (w_speed w)).
Definition below (v : Q) : Q -> world -> world * bool := fun _ w => (w, Qle_bool (w_speed w) v).
Definition constant_acceleration_auto (v a : Q) (continuous : bool) (e : entity) : entity :=
  if reached v (snd e) && negb continuous then e
  else
    let e1 :=
      if accelerating v (snd e) then
        add (above v) reset_limits LinearAcceleration (change (set_acceleration_limit (Qabs a)) e)
      else if decelerating v (snd e) then
        add (below v) reset_limits LinearAcceleration (change (set_deceleration_limit (Qabs a)) e)
      else e in
    request_speed v continuous e1.
(** entity_base:219-268. *)
Definition constant_acceleration (v : Q) (tr : transition) (a : Q) (continuous : bool) (e : entity) :
  entity :=
  if reached v (snd e) && negb continuous then e
  else
    match tr with
    | Linear => constant_acceleration_auto v a continuous (change (set_accel a) e)
    | Auto => constant_acceleration_auto v a continuous e
    | Step => change (set_speed v) (request_speed v continuous e)
    end.

Section Planner.
(** planConstraintsFromJerkAndTimeConstraint target speed acceleration duration limits; None is an
    exception. *)
Variable plan : Q -> Q -> Q -> Q -> limits -> option limits.

(** std::numeric_limits<double>::epsilon(). *)
Definition epsilon : Q := 1 # (Pos.pow 2 52).

(** entity_base:270-321, requestSpeedChangeWithTimeConstraint(double, ...). *)
Definition near (v : Q) : Q -> world -> world * bool :=
  fun _ w => (w, negb (Qle_bool (1 # 100) (Qabs (w_speed w - v)))).
Definition time_constraint (v : Q) (tr : transition) (t : Q) (e : entity) : entity :=
  if reached v (snd e) then e
  else
    let step := change (set_speed v) (request_speed v false e) in
    if Qle_bool (Qabs t) epsilon then step
    else
      match tr with
      | Linear => constant_acceleration v Linear ((v - w_speed (snd e)) / t) false e
      | Auto =>
          match plan v (w_speed (snd e)) (w_accel (snd e)) t (w_limits (snd e)) with
          | None => change fail e
          | Some l =>
              request_speed v false
                (add (near v) reset_limits LinearAcceleration (change (set_limits l) e))
          end
      | Step => step
      end.

(** entity_base:323-342, requestSpeedChange(double, Transition, Constraint, bool). *)
Definition request (v : Q) (tr : transition) (c : constraint) (continuous : bool) (e : entity) :
  entity :=
  if reached v (snd e) && negb continuous then e
  else
    match c with
    | LongitudinalAcceleration a => constant_acceleration v tr a continuous e
    | Time t => time_constraint v tr t e
    | NoConstraint => request_speed v continuous e
    end.

(** entity_base:495-539, requestSpeedChange(RelativeTargetSpeed, bool). *)
Definition follow_speed (r : relative) : Q -> world -> world * bool :=
  fun _ w =>
    match w_others w (reference r) with
    | None => (w, true)
    | Some _ =>
        match absolute r w with
        | None => (fail w, false)
        | Some v => (set_target (Some v) w, false)
        end
    end.
Definition approach_relative (r : relative) : Q -> world -> world * bool :=
  fun _ w =>
    match w_others w (reference r) with
    | None => (w, true)
    | Some _ =>
        match absolute r w with
        | None => (fail w, false)
        | Some v => if reached v w then (w, true) else (set_target (Some v) w, false)
        end
    end.
Definition request_relative_speed (r : relative) (continuous : bool) (e : entity) : entity :=
  match absolute r (snd e) with
  | None => change fail e
  | Some v =>
      if reached v (snd e) && negb continuous then e
      else if continuous then add (follow_speed r) keep LinearVelocity e
      else add (approach_relative r) cancel_target LinearVelocity e
  end.

(** entity_base:344-398, requestSpeedChangeWithConstantAcceleration(RelativeTargetSpeed, ...). *)
Definition follow_limits (r : relative) (a : Q) : Q -> world -> world * bool :=
  fun _ w =>
    match absolute r w with
    | None => (fail w, false)
    | Some v =>
        let diff := v - w_speed w in
        if Qle_bool (Qabs diff) (1 # 10) then (w, true)
        else if negb (Qle_bool diff (1 # 10)) then (set_acceleration_limit (Qabs a) w, false)
        else if negb (Qle_bool (-(1 # 10)) diff) then (set_deceleration_limit (Qabs a) w, false)
        else (w, false)
    end.
Definition relative_constant_acceleration (r : relative) (tr : transition) (a : Q) (continuous : bool)
  (e : entity) : entity :=
  match absolute r (snd e) with
  | None => change fail e
  | Some v =>
      if reached v (snd e) && negb continuous then e
      else
        let auto e :=
          request_relative_speed r continuous
            (add (follow_limits r a) reset_limits LinearAcceleration e) in
        match tr with
        | Linear => auto (change (set_accel a) e)
        | Auto => auto e
        | Step => change (set_speed v) (request_relative_speed r continuous e)
        end
  end.
(** entity_base:400-433, requestSpeedChangeWithTimeConstraint(RelativeTargetSpeed, ...). *)
Definition relative_time_constraint (r : relative) (tr : transition) (t : Q) (e : entity) : entity :=
  match absolute r (snd e) with
  | None => change fail e
  | Some v =>
      if reached v (snd e) then e
      else
        let step := change (set_speed v) (request_relative_speed r false e) in
        if Qle_bool (Qabs t) epsilon then step
        else match tr with Linear | Auto => time_constraint v tr t e | Step => step end
  end.
(** entity_base:435-457, requestSpeedChange(RelativeTargetSpeed, Transition, Constraint, bool). *)
Definition request_relative (r : relative) (tr : transition) (c : constraint) (continuous : bool)
  (e : entity) : entity :=
  match absolute r (snd e) with
  | None => change fail e
  | Some v =>
      if reached v (snd e) && negb continuous then e
      else
        match c with
        | LongitudinalAcceleration a => relative_constant_acceleration r tr a continuous e
        | Time t => if continuous then change fail e else relative_time_constraint r tr t e
        | NoConstraint => request_relative_speed r continuous e
        end
  end.

(** entity_base:750-848, requestSynchronize: not yet arrived; [f] computes the speed from the entity's
    members (None: the target entity has passed). *)
Definition synchronize (f : world -> option Q) : Q -> world -> world * bool :=
  fun _ w => match f w with None => (w, true) | Some v => (set_target (Some v) w, false) end.
Definition request_synchronize (f : world -> option Q) (e : entity) : entity :=
  add (synchronize f) keep LinearAcceleration e.

(** What happens to an entity. [Move]: the behaviour plugin changes its speed and acceleration
    (src/entity/vehicle_entity.cpp:172); [Others]: setOtherStatus; [Limits]: setBehaviorParameter, set*Limit
    or setDynamicConstraints by the user; [Post]: onPostUpdate (entity_base:155-158); [Arrived]:
    requestSynchronize when the entity has arrived (entity_base:769-778). *)
Inductive action :=
| Request (v : Q) (tr : transition) (c : constraint) (continuous : bool)
| RequestSpeed (v : Q) (continuous : bool)
| RequestRelative (r : relative) (tr : transition) (c : constraint) (continuous : bool)
| RequestRelativeSpeed (r : relative) (continuous : bool)
| Synchronize (f : world -> option Q)
| Arrived (v : Q)
| Move (v a : Q)
| Others (o : nat -> option Q)
| Limits (l : limits)
| Post (step : Q).
Definition act (x : action) (e : entity) : entity :=
  match x with
  | Request v tr c k => request v tr c k e
  | RequestSpeed v k => request_speed v k e
  | RequestRelative r tr c k => request_relative r tr c k e
  | RequestRelativeSpeed r k => request_relative_speed r k e
  | Synchronize f => request_synchronize f e
  | Arrived v => change (set_target (Some v)) e
  | Move v a => change (fun w => set_accel a (set_speed v w)) e
  | Others o => change (set_others o) e
  | Limits l => change (set_limits l) e
  | Post step => let '(l, w, _) := update step PostUpdate (fst e) (snd e) in (l, w)
  end.
Definition acts (xs : list action) (e : entity) : entity := fold_left (fun e x => act x e) xs e.

(** entity_base:35-66: the two jobs of the constructor (their callbacks touch none of the members above);
    target_speed_ is empty. *)
Definition spawned (name : nat) (speed : Q) : entity :=
  ([make_job (fun _ w => (w, false)) keep TraveledDistance true PostUpdate;
    make_job (fun _ w => (w, false)) keep StandStillDuration true PostUpdate],
   {| w_name := name; w_speed := speed; w_accel := 0; w_target := None; w_limits := default_limits;
      w_others := fun _ => None; w_failed := false |}).
End Planner.
