(** * Model of traffic signal controllers.

    Paths are relative to /repo/openscenario/openscenario_interpreter (include/... abbreviates
    include/openscenario_interpreter/...). Times and durations are [Z] numbers of ticks, of which
    there are [tps] in a second (every double is an integer multiple of 2^-1074 s, so this loses
    nothing but the rounding of sums and differences). *)
From Coq Require Import ZArith List Bool.
Import ListNotations.
Local Open Scope Z_scope.

(** include/syntax/phase.hpp: a duration is optional and infinite by default
    (src/syntax/phase.cpp:26). Negative durations are not excluded by the code. *)
Inductive dur := Dur (d : Z) | Forever.

(** src/syntax/traffic_signal_state.cpp:20-37, 93-127. *)
Inductive channel := Conventional | V2I.
Record signal := { s_id : Z; s_channel : channel; s_detected : bool; s_state : nat }.

(** include/syntax/phase.hpp; names are numbers. *)
Record phase := { ph_name : nat; ph_dur : dur; ph_signals : list signal }.

(** include/syntax/traffic_signal_controller.hpp:40-85. [k_ref] is the referenced controller (the
    name, resolved by TrafficSignals::resolve_reference); [k_current] is the position of the
    circular iterator, [length k_phases] standing for end(); [k_observers] are positions in the list
    of controllers. *)
Record controller := {
  k_delay : Z;
  k_ref : option nat;
  k_phases : list phase;
  k_current : nat;
  k_begin : option Z;          (* change_to_begin_time *)
  k_started : Z;               (* current_phase_started_at *)
  k_observers : list nat }.

(** What can be observed: evaluations of controllers, begins of phases, commands to the traffic
    lights. Newest first. *)
Inductive output :=
| OEval (c : nat) (now : Z)
| OBegin (c : nat) (i : nat) (now : Z)
| OClear (s : signal)
| OAdd (s : signal)
| OPredClear
| OPred (id : Z) (state : nat) (ahead : Z).

Record system := { ctrls : list controller; out : list output }.

Definition none : controller :=
  {| k_delay := 0; k_ref := None; k_phases := []; k_current := 0; k_begin := None; k_started := 0;
     k_observers := [] |}.
Definition ctrl (s : system) (c : nat) : controller := nth c (ctrls s) none.

Fixpoint upd {A} (l : list A) (i : nat) (f : A -> A) : list A :=
  match l, i with
  | [], _ => []
  | x :: l', O => f x :: l'
  | x :: l', S i' => x :: upd l' i' f
  end.
Definition modify (s : system) (c : nat) (f : controller -> controller) : system :=
  {| ctrls := upd (ctrls s) c f; out := out s |}.
Definition emit (o : output) (s : system) : system := {| ctrls := ctrls s; out := o :: out s |}.
Definition emits (l : list output) (s : system) : system := fold_left (fun s o => emit o s) l s.

Section Controller.
(** ticks per second *)
Variable tps : Z.
(** src/traffic_lights/traffic_lights.cpp:62-65 of traffic_simulator, isV2ITrafficLightEnabled. *)
Variable enabled : Z -> bool.

(** src/syntax/traffic_signal_controller.cpp:100-105, cycleTime: std::accumulate with the [int]
    initial value 0, so each partial sum is truncated to whole seconds. [None]: conversion of an
    infinite sum to int, undefined behaviour (so is an overflow, which is not modelled). The
    result is in ticks. *)
Fixpoint cycle_seconds (sum : Z) (l : list phase) : option Z :=
  match l with
  | [] => Some sum
  | p :: l' =>
      match ph_dur p with
      | Forever => None
      | Dur d => cycle_seconds (Z.quot (sum * tps + d) tps) l'
      end
  end.
Definition cycle_time (l : list phase) : option Z :=
  option_map (fun s => s * tps) (cycle_seconds 0 l).

(** src/syntax/traffic_signal_controller.cpp:118-121. *)
Definition notify_begin (now : Z) (s : system) (c : nat) : system :=
  modify s c (fun k => {| k_delay := k_delay k; k_ref := k_ref k; k_phases := k_phases k;
                          k_current := k_current k; k_begin := Some (now + k_delay k);
                          k_started := k_started k; k_observers := k_observers k |}).

(** include/iterator/circular_iterator.hpp:63-72, operator++, for a list of length [n]. *)
Definition circular_next (n i : nat) : nat :=
  if (i =? n)%nat then 0%nat else if (S i =? n)%nat then 0%nat else S i.

Definition phase_at (k : controller) (i : nat) : option phase := nth_error (k_phases k) i.

(** src/syntax/traffic_signal_controller.cpp:156-177, collect_states. An unordered_map is an
    association list here; the channel of a detected state counts like any other (as in the
    code). *)
Fixpoint put (m : list (Z * list nat)) (id : Z) (v : list nat) : list (Z * list nat) :=
  match m with
  | [] => [(id, v)]
  | (i, w) :: m' => if i =? id then (i, v) :: m' else (i, w) :: put m' id v
  end.
Fixpoint look (m : list (Z * list nat)) (id : Z) : list nat :=
  match m with
  | [] => []
  | (i, w) :: m' => if i =? id then w else look m' id
  end.
Definition push (m : list (Z * list nat)) (id : Z) (st : nat) : list (Z * list nat) :=
  put m id (look m id ++ [st]).
Definition is_v2i (s : signal) : bool := match s_channel s with V2I => true | Conventional => false end.
Definition collect_states (p : phase) : list (Z * list nat) :=
  let v2i := filter is_v2i (ph_signals p) in
  let ids := map s_id v2i in
  let m := fold_left (fun m s => push m (s_id s) (s_state s)) v2i [] in
  fold_left (fun m s =>
    if negb (existsb (Z.eqb (s_id s)) ids) && enabled (s_id s) then push m (s_id s) (s_state s) else m)
    (filter (fun s => negb (is_v2i s)) (ph_signals p)) m.
Definition merge_states (cur new : list (Z * list nat)) : list (Z * list nat) :=
  fold_left (fun m '(id, v) => put m id v) new cur.

(** src/syntax/traffic_signal_controller.cpp:179-204, the loop of updatePredictions: [left] rounds
    are left, [acc] is accumulated_time, [i] the position of phase_iterator. Result: the commands
    sent, oldest first. If cycleTime() is undefined the loop is left, as if the comparison were
    true. *)
Fixpoint predict (k : controller) (left : nat) (first : bool) (acc : dur) (i : nat)
  (cur : list (Z * list nat)) : list output :=
  match left with
  | O => []
  | S left' =>
      let i' := circular_next (length (k_phases k)) i in
      match phase_at k i' with
      | None => []
      | Some p =>
          match acc, ph_dur p with
          | Dur a, Dur d =>
              if first && (match cycle_time (k_phases k) with None => true | Some ct => ct <? a end)
              then []
              else
                let cur' := merge_states cur (collect_states p) in
                concat (map (fun '(id, sts) => map (fun st => OPred id st a) sts) cur') ++
                predict k left' false (Dur (a + d)) i' cur'
          | _, _ => []
          end
      end
  end.

(** src/syntax/traffic_signal_controller.cpp:136-206. *)
Definition update_predictions (now : Z) (s : system) (c : nat) : system :=
  let k := ctrl s c in
  match phase_at k (k_current k) with
  | None => s
  | Some p =>
      let acc := match ph_dur p with Forever => Forever | Dur d => Dur (d - (now - k_started k)) end in
      emits (OPredClear :: predict k 6 true acc (k_current k) []) s
  end.

(** src/syntax/phase.cpp:39-46, clearStates, and 30-37, evaluate. *)
Definition clear_states (p : phase) (s : system) : system := emits (map OClear (ph_signals p)) s.
Definition evaluate_phase (p : phase) (s : system) : system :=
  emits (map OAdd (ph_signals p)) (clear_states p s).

(** src/syntax/traffic_signal_controller.cpp:63-82, changePhaseTo(iterator). *)
Definition change_phase (now : Z) (s : system) (c : nat) (next : nat) : system :=
  let s := if (next =? 0)%nat then fold_left (notify_begin now) (k_observers (ctrl s c)) s else s in
  let s := match phase_at (ctrl s c) (k_current (ctrl s c)) with
           | Some p => clear_states p s
           | None => s
           end in
  let s := modify s c (fun k => {| k_delay := k_delay k; k_ref := k_ref k; k_phases := k_phases k;
                                   k_current := next; k_begin := k_begin k; k_started := now;
                                   k_observers := k_observers k |}) in
  match phase_at (ctrl s c) next with
  | Some p => evaluate_phase p (update_predictions now (emit (OBegin c next now) s) c)
  | None => s
  end.

(** src/syntax/traffic_signal_controller.cpp:49-61, changePhaseTo(name); [None]: syntax error. *)
Fixpoint find_phase (l : list phase) (name i : nat) : option nat :=
  match l with
  | [] => None
  | p :: l' => if (ph_name p =? name)%nat then Some i else find_phase l' name (S i)
  end.
Definition change_phase_to (now : Z) (s : system) (c name : nat) : option system :=
  option_map (change_phase now s c) (find_phase (k_phases (ctrl s c)) name 0).

(** src/syntax/traffic_signal_controller.cpp:84-88. *)
Definition exceeded (now : Z) (k : controller) : bool :=
  match phase_at k (k_current k) with
  | Some p => match ph_dur p with Dur d => d <=? now - k_started k | Forever => false end
  | None => false
  end.

(** src/syntax/traffic_signal_controller.cpp:123-134. *)
Definition should_begin (now : Z) (k : controller) : bool :=
  match k_ref k with
  | None => (k_current k =? length (k_phases k))%nat
  | Some _ => match k_begin k with Some t => t <? now | None => false end
  end.
Definition served (k : controller) : controller :=
  match k_ref k with
  | None => k
  | Some _ => {| k_delay := k_delay k; k_ref := k_ref k; k_phases := k_phases k;
                 k_current := k_current k; k_begin := None; k_started := k_started k;
                 k_observers := k_observers k |}
  end.

(** src/syntax/traffic_signal_controller.cpp:107-116. *)
Definition evaluate (now : Z) (s : system) (c : nat) : system :=
  let s := emit (OEval c now) s in
  let k := ctrl s c in
  if should_begin now k then change_phase now (modify s c served) c 0
  else if exceeded now k then
    change_phase now s c (circular_next (length (k_phases k)) (k_current k))
  else s.

(** src/syntax/traffic_signals.cpp:36-43: all controllers in document order. *)
Definition evaluate_all (now : Z) (s : system) : system :=
  fold_left (evaluate now) (seq 0 (length (ctrls s))) s.

(** A run: frames, and TrafficSignalControllerActions
    (src/syntax/traffic_signal_controller_action.cpp:39-42; an unknown phase is an error and changes
    nothing). *)
Inductive event := Frame (now : Z) | Action (now : Z) (c name : nat).
Definition step (s : system) (e : event) : system :=
  match e with
  | Frame now => evaluate_all now s
  | Action now c name => match change_phase_to now s c name with Some s' => s' | None => s end
  end.
Definition run (es : list event) (s : system) : system := fold_left step es s.

(** ** Construction *)

(** One <TrafficSignalController>: delay, reference, phases.
    src/syntax/traffic_signal_controller.cpp:24-47. *)
Definition spec := (Z * option nat * list phase)%type.
Definition make (x : spec) : controller :=
  let '(d, r, ps) := x in
  {| k_delay := d; k_ref := r; k_phases := ps; k_current := length ps; k_begin := None;
     k_started := 0; k_observers := [] |}.

(** src/syntax/traffic_signals.cpp:45-63, resolve_reference: every controller with a reference is
    registered as an observer of it, in document order. The comparison of cycle times and unknown
    references only reject scenarios: see [accepted]. *)
Definition add_observer (l : list controller) (x : nat * option nat) : list controller :=
  match snd x with
  | None => l
  | Some r => upd l r (fun k => {| k_delay := k_delay k; k_ref := k_ref k; k_phases := k_phases k;
                         k_current := k_current k; k_begin := k_begin k; k_started := k_started k;
                         k_observers := k_observers k ++ [fst x] |})
  end.
Definition init (l : list spec) : system :=
  {| ctrls := fold_left add_observer (combine (seq 0 (length l)) (map (fun x => snd (fst x)) l)) (map make l);
     out := [] |}.

(** The checks: delay not negative, reference declared, equal cycle times. *)
Definition accepted (l : list spec) : bool :=
  forallb (fun '(d, r, ps) =>
    match r with
    | None => true
    | Some r =>
        (0 <=? d) && (r <? length l)%nat &&
        match cycle_time ps, cycle_time (snd (nth r l (0, None, []))) with
        | Some a, Some b => a =? b
        | _, _ => false
        end
    end) l.

(** src/syntax/traffic_signal_controller.cpp:90-93, currentPhaseName: [None] is the undefined
    behaviour of dereferencing end(). *)
Definition current_phase_name (k : controller) : option nat := option_map ph_name (phase_at k (k_current k)).
End Controller.
