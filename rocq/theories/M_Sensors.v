(** * The sensors of the sensor simulator: when they sample and publish, what they detect, and the
      noise

    Paths are relative to /repo/simulation/simple_sensor_simulator; "lidar_sensor.hpp",
    "detection_sensor.hpp", "sensor_simulation.hpp" and "noise_parameter_selector.hpp" are in (folders of)
    include/simple_sensor_simulator/sensor_simulation, the other files in (folders of)
    src/sensor_simulation.

    Simplifications: [double] is Q; names of entities are numbers; what needs quaternions or
    transcendental functions (normals, angles between orientations, [exp], [sqrt], [cos], [sin]) is
    arbitrary, as is what the rays of a lidar hit (Embree); random numbers come from arbitrary
    streams; messages are reduced to the statuses they are made of and their stamp. *)

From Coq Require Import ZArith QArith List Bool String.
Import ListNotations.
Open Scope Q_scope.

Definition vec : Set := (Q * Q * Q)%type.
Definition x_of (v : vec) : Q := fst (fst v).
Definition y_of (v : vec) : Q := snd (fst v).
Definition z_of (v : vec) : Q := snd v.

(** What is not modelled of the mathematics. *)
Record geometry : Type := Geometry {
  orientation : Type;
  normal : orientation -> vec;                       (* getNormalVector *)
  angle : orientation -> orientation -> Q;           (* getAngleDifference *)
  rotated : orientation -> Q -> bool -> orientation; (* by a yaw, and by half a turn if asked *)
  cosine : Q -> Q -> Q;                              (* cos (atan2 y x), arguments x y *)
  sine : Q -> Q -> Q;
  exponential : Q -> Q;
  root : Q -> Q }.

Record pose (G : geometry) : Type := Pose { position : vec; facing : orientation G }.
Arguments Pose {G} _ _.
Arguments position {G} _.
Arguments facing {G} _.

(** [traffic_simulator_msgs::EntityStatus]; [speed] is the [hypot] of the linear twist. *)
Record status (G : geometry) : Type := Status {
  s_name : nat; is_ego : bool; where_ : pose G; speed : Q }.
Arguments Status {G} _ _ _ _.
Arguments s_name {G} _.
Arguments is_ego {G} _.
Arguments where_ {G} _.
Arguments speed {G} _.

Definition mem (n : nat) (l : list nat) : bool := existsb (Nat.eqb n) l.

(** ** Sampling and delaying *)

(** [current_simulation_time - previous_simulation_time_ - duration >= -0.002],
    lidar_sensor.hpp 105-107, detection_sensor.cpp 289-291, occupancy_grid_sensor.hpp 111-113. *)
Definition due (now previous duration : Q) : bool :=
  Qle_bool (- (2 # 1000)) (now - previous - duration).

(** [if (now - queue.front().second >= delay) { publish; queue.pop(); }], once:
    lidar_sensor.hpp 115-123, detection_sensor.cpp 739-756. *)
Definition release {A : Type} (now delay : Q) (queue : list (A * Q)) : list (A * Q) * option (A * Q) :=
  match queue with
  | [] => ([], None)
  | (a, t) :: r => if Qle_bool delay (now - t) then (r, Some (a, t)) else (queue, None)
  end.

(** ** Lidar sensors *)

Section sensors.
Variable G : geometry.

(** One call of [updateSensorFrame]: simulation time, statuses. The time of ROS, with which messages
    are stamped, is taken to be the simulation time. *)
Record frame : Type := Frame { now : Q; statuses : list (status G) }.

Record lidar : Type := Lidar {
  l_entity : nat; scan_duration : Q; lidar_delay : Q;
  rays : pose G -> list (status G) -> list nat;      (* names of the entities hit *)
  l_previous : Q; l_detected : list nat; clouds : list (list nat * Q) }.

(** The loop of [raycast], lidar_sensor.cpp 34-42: the last status with the name is the ego's. *)
Fixpoint own_pose (me : nat) (l : list (status G)) (found : option (pose G)) : option (pose G) :=
  match l with
  | [] => found
  | s :: r => own_pose me r (if (me =? s_name s)%nat then Some (where_ s) else found)
  end.

(** Models [raycast], lidar_sensor.cpp 25-60, up to the names detected, which stand for the point
    cloud; [None]: it throws. *)
Definition raycast (l : lidar) (f : frame) : option (list nat) :=
  match own_pose (l_entity l) (statuses f) None with
  | Some p => Some (rays l p (filter (fun s => negb (l_entity l =? s_name s)%nat) (statuses f)))
  | None => None
  end.

(** Models [LidarSensor::update], lidar_sensor.hpp 100-124: the sensor and what it published. *)
Definition lidar_update (l : lidar) (f : frame) : option (lidar * option (list nat)) :=
  let set previous detected clouds :=
    Lidar (l_entity l) (scan_duration l) (lidar_delay l) (rays l) previous detected clouds in
  match
    (if due (now f) (l_previous l) (scan_duration l)
     then match raycast l f with
          | Some d => Some (set (now f) d (clouds l ++ [(d, now f)]))
          | None => None
          end
     else Some (set (l_previous l) [] (clouds l)))
  with
  | None => None
  | Some l' =>
      let (q, out) := release (now f) (lidar_delay l) (clouds l') in
      Some (Lidar (l_entity l) (scan_duration l) (lidar_delay l) (rays l) (l_previous l')
                  (l_detected l') q,
            option_map fst out)
  end.

(** ** Detection sensors *)

(** [ego_plane_opt_] and [ego_plane_pose_opt_]: normal, offset and the orientation it was made of. *)
Record plane : Type := Plane { p_normal : vec; p_offset : Q; p_facing : orientation G }.

Definition dot (a b : vec) : Q := x_of a * x_of b + y_of a * y_of b + z_of a * z_of b.

(** Models the constructor of [Plane], common/math/geometry/src/plane.cpp 24-32 (the error for a zero
    normal is not modelled: an orientation has none). *)
Definition plane_of (p : pose G) : plane :=
  Plane (normal G (facing p)) (- dot (normal G (facing p)) (position p)) (facing p).

(** Models [Plane::offset], common/math/geometry/src/plane.cpp 34-37. *)
Definition offset (p : plane) (v : vec) : Q := dot (p_normal p) v + p_offset p.

(** Models [isOnOrAboveEgoPlane], detection_sensor.cpp 76-118: the answer and the plane kept. *)
Definition above (kept : option plane) (entity ego : pose G) : bool * option plane :=
  if Qle_bool (z_of (position ego) - 1) (z_of (position entity)) then (true, kept)
  else
    let p :=
      match kept with
      | None => plane_of ego
      | Some p => if Qle_bool (angle G (facing ego) (p_facing p)) (4 # 100) then p else plane_of ego
      end in
    (Qle_bool 0 (offset p (position entity)), Some p).

Definition distance2 (a b : vec) : Q :=
  (x_of a - x_of b) * (x_of a - x_of b) + (y_of a - y_of b) * (y_of a - y_of b) +
  (z_of a - z_of b) * (z_of a - z_of b).

(** The range is not negative, so that distances can be compared squared. *)
Record detection_config : Type := DetectionConfig {
  d_entity : nat; update_duration : Q; range : Q; all_in_range : bool;
  detection_delay : Q; truth_delay : Q }.

Definition own (c : detection_config) (s : status G) : bool :=
  (s_name s =? d_entity c)%nat && is_ego s.

(** Models the lambda [is_in_range], detection_sensor.cpp 296-304, which updates the plane. *)
Definition in_range (c : detection_config) (lidars : list nat) (ego : pose G) (kept : option plane)
  (s : status G) : bool * option plane :=
  if own c s then (false, kept)
  else if negb (Qle_bool 0 (range c) &&
                Qle_bool (distance2 (position (where_ s)) (position ego)) (range c * range c))
  then (false, kept)
  else
    match above kept (where_ s) ego with
    | (false, kept) => (false, kept)
    | (true, kept) => (all_in_range c || mem (s_name s) lidars, kept)
    end.

(** [std::copy_if] with it, detection_sensor.cpp 734-735. *)
Fixpoint select (c : detection_config) (lidars : list nat) (ego : pose G) (kept : option plane)
  (l : list (status G)) : list (status G) * option plane :=
  match l with
  | [] => ([], kept)
  | s :: r =>
      let (b, kept) := in_range c lidars ego kept s in
      let (d, kept) := select c lidars ego kept r in
      (if b then s :: d else d, kept)
  end.

(** The sensor's state; [N] is the state of the noise. *)
Record detection {N : Type} : Type := Detection {
  d_previous : Q; d_plane : option plane;
  undetected : list (list (status G) * Q);     (* unpublished_detected_entities *)
  untrue : list (list (status G) * Q);         (* unpublished_ground_truth_entities *)
  d_noise : N }.
Arguments detection : clear implicits.

(** Models [DetectionSensor::update], detection_sensor.cpp 282-758: the sensor, the detected
    objects and the ground truth published. [None]: there is no ego, it throws. *)
Definition detection_update {N : Type}
  (noise : pose G -> N -> list (status G) -> Q -> N * list (status G)) (c : detection_config)
  (d : detection N) (f : frame) (lidars : list nat)
  : option (detection N * option (list (status G)) * option (list (status G))) :=
  if due (now f) (d_previous d) (update_duration c) then
    match find (own c) (statuses f) with
    | None => None
    | Some ego =>
        let (chosen, kept) := select c lidars (where_ ego) (d_plane d) (statuses f) in
        let (q1, out1) := release (now f) (detection_delay c) (undetected d ++ [(chosen, now f)]) in
        let (n, msg1) :=
          match out1 with
          | Some (entities, t) =>
              let (n, l) := noise (where_ ego) (d_noise d) entities t in (n, Some l)
          | None => (d_noise d, None)
          end in
        let (q2, out2) := release (now f) (truth_delay c) (untrue d ++ [(chosen, now f)]) in
        Some (Detection N (now f) kept q1 q2 n, msg1, option_map fst out2)
    end
  else Some (d, None, None).

(** ** All sensors *)

(** [if (std::count(...) == 0) push_back], sensor_simulation.cpp 34-38. *)
Definition merge (seen : list nat) (l : list nat) : list nat :=
  fold_left (fun acc n => if mem n acc then acc else acc ++ [n]) l seen.

(** The loop over the lidar sensors, sensor_simulation.cpp 31-39. *)
Fixpoint lidars_update (ls : list lidar) (f : frame) (seen : list nat)
  : option (list lidar * list nat) :=
  match ls with
  | [] => Some ([], seen)
  | l :: r =>
      match lidar_update l f with
      | None => None
      | Some (l', _) =>
          match lidars_update r f (merge seen (l_detected l')) with
          | None => None
          | Some (r', seen) => Some (l' :: r', seen)
          end
      end
  end.

(** [updateSensorFrame], sensor_simulation.cpp 22-52, with the lidar sensors and one detection
    sensor; the other sensors do not influence these. *)
Definition sensors_update {N : Type}
  (noise : pose G -> N -> list (status G) -> Q -> N * list (status G)) (c : detection_config)
  (st : list lidar * detection N) (f : frame)
  : option ((list lidar * detection N) * (option (list (status G)) * option (list (status G)))) :=
  match lidars_update (fst st) f [] with
  | None => None
  | Some (ls, seen) =>
      match detection_update noise c (snd st) f seen with
      | None => None
      | Some (d, m1, m2) => Some ((ls, d), (m1, m2))
      end
  end.

(** A detection sensor alone, given what the lidars detected in the frame. *)
Definition detection_step {N : Type}
  (noise : pose G -> N -> list (status G) -> Q -> N * list (status G)) (c : detection_config)
  (d : detection N) (x : frame * list nat)
  : option (detection N * (option (list (status G)) * option (list (status G)))) :=
  match detection_update noise c d (fst x) (snd x) with
  | Some (d, m1, m2) => Some (d, (m1, m2))
  | None => None
  end.

(** Frame after frame: the final state and what was published in each. *)
Fixpoint run {S I M : Type} (step : S -> I -> option (S * M)) (s : S) (fs : list I)
  : option (S * list M) :=
  match fs with
  | [] => Some (s, [])
  | f :: r =>
      match step s f with
      | None => None
      | Some (s, m) =>
          match run step s r with
          | None => None
          | Some (s, ms) => Some (s, m :: ms)
          end
      end
  end.

(** ** Noise *)

(** The random engine: how many numbers were drawn. *)
Record draws : Type := Draws { gauss : nat -> Q; uniform : nat -> Q }.
Variable D : draws.

(** Parameters of ROS that are numbers, and lists of numbers; [getParameter],
    common/get_parameter/include/get_parameter/get_parameter.hpp 43-58, declares a missing one with
    the default given, 0 or the empty list. *)
Record parameters : Type := Parameters { number : string -> option Q; numbers : string -> option (list Q) }.

Definition get_number (p : parameters) (n : string) : Q :=
  match number p n with Some q => q | None => 0 end.
Definition get_numbers (p : parameters) (n : string) : list Q :=
  match numbers p n with Some l => l | None => [] end.

Definition moved (s : status G) (dx dy : Q) (o : orientation G) : status G :=
  let v := position (where_ s) in
  Status (s_name s) (is_ego s) (Pose (x_of v + dx, y_of v + dy, z_of v) o) (speed s).

(** *** Version 1 *)

Fixpoint shift (sd : Q) (l : list (status G)) (k : nat) : list (status G) * nat :=
  match l with
  | [] => ([], k)
  | s :: r =>
      let s' := moved s (sd * gauss D k) (sd * gauss D (S k)) (facing (where_ s)) in
      let (r', k) := shift sd r (S (S k)) in
      (s' :: r', k)
  end.

Fixpoint lose (probability : Q) (l : list (status G)) (k : nat) : list (status G) * nat :=
  match l with
  | [] => ([], k)
  | s :: r =>
      let (r', k') := lose probability r (S k) in
      (if negb (Qle_bool probability (uniform D k)) then r' else s :: r', k')
  end.

(** Models [noise_v1], detection_sensor.cpp 312-347, without [override_legacy_configuration]. The
    standard deviation and the probability are [static]: those of the first call in the process, of
    whichever sensor, stay. *)
Definition noise_v1 (statics : option (Q * Q)) (sd probability : Q) (l : list (status G)) (k : nat)
  : option (Q * Q) * list (status G) * nat :=
  let st := match statics with Some st => st | None => (sd, probability) end in
  let (l, k) := shift (fst st) l k in
  let (l, k) := lose (snd st) l k in
  (Some st, l, k).

(** *** Version 2 *)

(** [NoiseOutput], detection_sensor.hpp 88-112. *)
Record output : Type := Output {
  o_time : Q; distance_noise : Q; yaw_noise : Q; true_positive : bool; flip : bool; config : string }.

Definition fresh (t : Q) : output := Output t 0 0 true false "".

(** [noise_outputs], as a list; [emplace] leaves an entry that exists as it is. *)
Definition outputs : Type := list (nat * output).

Fixpoint lookup (n : nat) (m : outputs) : option output :=
  match m with
  | [] => None
  | (k, o) :: r => if (k =? n)%nat then Some o else lookup n r
  end.

Definition update (n : nat) (o : output) (m : outputs) : outputs := (n, o) :: m.

(** Models [createEllipticalParameterSelector], noise_parameter_selector.hpp 31-67; [None]: it throws. *)
Fixpoint pick (d2 : option Q) (radii values : list Q) : Q :=
  match radii, values with
  | r :: rs, v :: vs =>
      match d2 with
      | Some d2 => if negb (Qle_bool r 0) && negb (Qle_bool (r * r) d2) then v else pick (Some d2) rs vs
      | None => pick None rs vs
      end
  | _, _ => 0
  end.

Definition selector (p : parameters) (base : string) (x y : Q) (what : string) : option Q :=
  let radii := get_numbers p (base ++ "ellipse_y_radii") in
  let rx := get_number p (base ++ what ++ ".ellipse_normalized_x_radius") in
  let values := get_numbers p (base ++ what ++ ".values") in
  if (List.length radii =? List.length values)%nat
  then Some (pick (if Qeq_bool rx 0 then None else Some ((x / rx) * (x / rx) + y * y)) radii values)
  else None.

Definition clamp (lo hi q : Q) : Q :=
  if negb (Qle_bool lo q) then lo else if negb (Qle_bool q hi) then hi else q.

(** Models [autocorrelation_coefficient], detection_sensor.cpp 387-396. *)
Definition autocorrelation (p : parameters) (base : string) (interval : Q) : Q :=
  let amplitude := get_number p (base ++ "autocorrelation_coefficient.amplitude") in
  let decay := get_number p (base ++ "autocorrelation_coefficient.decay") in
  let offset := get_number p (base ++ "autocorrelation_coefficient.offset") in
  clamp 0 1 (amplitude * exponential G (- decay * interval) + offset).

(** Models [autoregressive_noise], detection_sensor.cpp 357-364. *)
Definition autoregressive (previous mean sd phi : Q) (k : nat) : Q :=
  mean + phi * (previous - mean) + sd * root G (1 - phi * phi) * gauss D k.

(** Models [markov_process_noise], detection_sensor.cpp 374-379. *)
Definition markov (previous : bool) (rate phi : Q) (k : nat) : bool :=
  negb (Qle_bool ((if previous then 1 else 0) * phi + (1 - phi) * rate) (uniform D k)).

Definition bind {A B : Type} (o : option A) (f : A -> option B) : option B :=
  match o with Some a => f a | None => None end.

(** The body of the loop of [noise_v2], detection_sensor.cpp 455-525: the outputs, the entity if it
    is not lost, and the engine. *)
Definition noise_one (p : parameters) (base : string) (ego : pose G) (t : Q) (m : outputs)
  (s : status G) (k : nat) : option (outputs * option (status G) * nat) :=
  let o := match lookup (s_name s) m with Some o => o | None => fresh t end in
  let x := x_of (position (where_ s)) - x_of (position ego) in
  let y := y_of (position (where_ s)) - y_of (position ego) in
  let interval := t - o_time o in
  bind (selector p base x y "distance.mean") (fun dm =>
  bind (selector p base x y "distance.standard_deviation") (fun ds =>
  let dn := autoregressive (distance_noise o) dm ds (autocorrelation p (base ++ "distance") interval) k in
  bind (selector p base x y "yaw.mean") (fun ym =>
  bind (selector p base x y "yaw.standard_deviation") (fun ys =>
  let yn := autoregressive (yaw_noise o) ym ys (autocorrelation p (base ++ "yaw") interval) (S k) in
  let slow := negb (Qle_bool (get_number p (base ++ "yaw_flip.speed_threshold")) (speed s)) in
  let fl := slow && markov (flip o) (get_number p (base ++ "yaw_flip.rate"))
                           (autocorrelation p (base ++ "yaw_flip") interval) (S (S k)) in
  let k' := if slow then S (S (S k)) else S (S k) in
  bind (selector p base x y "true_positive.rate") (fun rate =>
  let tp := markov (true_positive o) rate (autocorrelation p (base ++ "true_positive") interval) k' in
  let o' := Output t dn yn tp fl (config o) in
  Some (update (s_name s) o' m,
        if tp then Some (moved s (dn * cosine G x y) (dn * sine G x y)
                                 (rotated G (facing (where_ s)) yn fl))
        else None,
        S k')))))).

(** Models [noise_v2], detection_sensor.cpp 449-529; [base] is [version_base_path]. *)
Fixpoint noise_v2 (p : parameters) (base : string) (ego : pose G) (t : Q) (m : outputs)
  (l : list (status G)) (k : nat) : option (outputs * list (status G) * nat) :=
  match l with
  | [] => Some (m, [], k)
  | s :: r =>
      bind (noise_one p base ego t m s k) (fun '(m, s', k) =>
      bind (noise_v2 p base ego t m r k) (fun '(m, r', k) =>
      Some (m, match s' with Some s' => s' :: r' | None => r' end, k)))
  end.

(** Models [noise_v3], detection_sensor.cpp 531-552; [matching] is
    [findMatchingNoiseConfigForEntity], [topic] is "<topic>.noise.v3.". *)
Fixpoint noise_v3 (p : parameters) (matching : status G -> string) (topic : string) (ego : pose G)
  (t : Q) (m : outputs) (l : list (status G)) (k : nat) : option (outputs * list (status G) * nat) :=
  match l with
  | [] => Some (m, [], k)
  | s :: r =>
      bind
        (match lookup (s_name s) m with
         | None =>
             Some (update (s_name s) (Output t 0 0 true false (matching s)) m, [], k)
         | Some o =>
             if negb (String.eqb (config o) "")
             then noise_v2 p (topic ++ config o ++ ".") ego t m [s] k
             else Some (m, [s], k)
         end) (fun '(m, l1, k) =>
      bind (noise_v3 p matching topic ego t m r k) (fun '(m, l2, k) => Some (m, (l1 ++ l2)%list, k)))
  end.
End sensors.

Arguments Frame {G} _ _.
Arguments now {G} _.
Arguments statuses {G} _.
Arguments Lidar {G} _ _ _ _ _ _ _.
Arguments l_entity {G} _.
Arguments scan_duration {G} _.
Arguments lidar_delay {G} _.
Arguments rays {G} _ _ _.
Arguments l_previous {G} _.
Arguments l_detected {G} _.
Arguments clouds {G} _.
Arguments raycast {G} _ _.
Arguments lidar_update {G} _ _.
Arguments lidars_update {G} _ _ _.
Arguments own {G} _ _.
Arguments own_pose {G} _ _ _.
Arguments select {G} _ _ _ _ _.
Arguments in_range {G} _ _ _ _ _.
Arguments above {G} _ _ _.
Arguments plane_of {G} _.
Arguments offset {G} _ _.
Arguments p_normal {G} _.
Arguments p_offset {G} _.
Arguments p_facing {G} _.
Arguments detection : clear implicits.
Arguments Detection {G N} _ _ _ _ _.
Arguments d_previous {G N} _.
Arguments d_plane {G N} _.
Arguments undetected {G N} _.
Arguments untrue {G N} _.
Arguments d_noise {G N} _.
Arguments detection_update {G N} _ _ _ _ _.
Arguments sensors_update {G N} _ _ _ _.
Arguments detection_step {G N} _ _ _ _.
Arguments moved {G} _ _ _ _.
Arguments shift {G} _ _ _ _.
Arguments lose {G} _ _ _ _.
Arguments noise_v1 {G} _ _ _ _ _ _.
Arguments noise_one {G} _ _ _ _ _ _ _ _.
Arguments noise_v2 {G} _ _ _ _ _ _ _ _.
Arguments noise_v3 {G} _ _ _ _ _ _ _ _ _.
