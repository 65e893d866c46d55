(** * Model of when actions start, what they request and when they are over.

    Paths are relative to /repo/openscenario/openscenario_interpreter; "S/" is src/syntax/.
    Simplifications: numbers are rationals; actors and objects are natural numbers; what the
    simulator reports in a frame is a function from objects to their speed and current state,
    absent for an object that is not spawned. *)
From Coq Require Import List Bool Arith ZArith QArith Qabs String.
Import ListNotations.
Local Open Scope Q_scope.

(** What the simulator reports of an object: the longitudinal speed (simulator_core.hpp, evaluateSpeed)
    and the name of the current behaviour (evaluateCurrentState, simulator_core.hpp:669-673). *)
Record seen := { speed : Q; state : string }.
(** The objects the simulator knows in a frame. *)
Definition sight : Type := nat -> option seen.

(** The three virtual functions of an action that StoryboardElement::evaluate calls. [W] is what
    the action sees, [St] its members, [R] a request to the simulator; [None] is an exception. *)
Record action (W St R : Type) :=
  { a_start : W -> option (St * list R);
    a_run : W -> St -> St * list R;
    a_done : W -> St -> option (St * bool) }.
Arguments a_start {W St R}. Arguments a_run {W St R}. Arguments a_done {W St R}.

(** The states of an action with one execution: standby, running, complete, or an exception that
    left the interpreter's frame. *)
Inductive phase (St : Type) := Waiting | Going (s : St) | Over | Failed.
Arguments Waiting {St}. Arguments Going {St}. Arguments Over {St}. Arguments Failed {St}.

(** include/openscenario_interpreter/syntax/storyboard_element.hpp:267-273, the case runningState:
    [if (run(), accomplished())]. *)
Definition run_once {W St R} (a : action W St R) (w : W) (s : St) : phase St * list R :=
  let '(s, r) := a_run a w s in
  match a_done a w s with
  | None => (Failed, r)
  | Some (_, true) => (Over, r)
  | Some (s, false) => (Going s, r)
  end.
(** storyboard_element.hpp:188-300, evaluate, for an action whose trigger has fired (an action has
    no start trigger of its own): after [start] the loop goes on to the case runningState in the
    same call. M_Storyboard models the whole state machine. *)
Definition evaluate {W St R} (a : action W St R) (w : W) (p : phase St) : phase St * list R :=
  match p with
  | Waiting =>
      match a_start a w with
      | None => (Failed, [])
      | Some (s, r) => let '(p, r') := run_once a w s in (p, (r ++ r')%list)
      end
  | Going s => run_once a w s
  | Over => (Over, [])
  | Failed => (Failed, [])
  end.
(** The frames of a simulation, from the one in which the action starts. *)
Fixpoint frames {W St R} (a : action W St R) (p : phase St) (ws : list W) : phase St * list R :=
  match ws with
  | [] => (p, [])
  | w :: ws =>
      let '(p, r) := evaluate a w p in
      let '(p, r') := frames a p ws in (p, (r ++ r')%list)
  end.

(** [std::unordered_map::emplace] for each actor, S/speed_action.cpp:115-119: an actor that is listed
    twice is entered once. The order of the table is not specified; the model keeps the order in
    which the actors are listed and the theorems range over all lists. *)
Definition enter (actors : list nat) : list nat := nodup Nat.eq_dec actors.

(** S/speed_action.cpp:94-98 and S/lane_change_action.cpp:48-55: [std::all_of] over the table; it
    stops at the first actor that is not accomplished and does not look at those after it. [None] is an
    exception of the check. *)
Fixpoint all_of (check : nat -> option bool) (table : list (nat * bool))
  : option (list (nat * bool) * bool) :=
  match table with
  | [] => Some ([], true)
  | (a, d) :: rest =>
      match (if d then Some true else check a) with
      | None => None
      | Some false => Some ((a, false) :: rest, false)
      | Some true =>
          match all_of check rest with
          | None => None
          | Some (rest, r) => Some ((a, true) :: rest, r)
          end
      end
  end.

Section Actors.
(** S/entity.cpp:61-70, Entity::objects: the object itself or the members of the selection. *)
Variable objects : nat -> list nat.

(** simulator_core.hpp, getEntity: an exception for an object that is not spawned. *)
Definition known (w : sight) (o : nat) : bool := match w o with Some _ => true | None => false end.
Definition all_known (w : sight) (actors : list nat) : bool :=
  forallb (fun a => forallb (known w) (objects a)) actors.
Definition table (actors : list nat) : list (nat * bool) := map (fun a => (a, false)) (enter actors).

(** include/openscenario_interpreter/functional/equal_to.hpp:33-48; NaN equals nothing. *)
Definition epsilon : Q := 1 # (2 ^ 52).
Definition equal (a b : option Q) : bool :=
  match a, b with
  | Some a, Some b => negb (Qle_bool epsilon (Qabs (a - b)))
  | _, _ => false
  end.
(** S/speed_condition.cpp:49-83 without a direction: NaN for an object that is not spawned. *)
Definition speed_of (w : sight) (o : nat) : option Q := option_map speed (w o).

(** S/absolute_target_speed.cpp, S/relative_target_speed.cpp. *)
Inductive target :=
| Absolute (v : Q)
| Delta (reference : nat) (v : Q) (continuous : bool)
| Factor (reference : nat) (v : Q) (continuous : bool).
(** S/speed_action.cpp:62-86: the speed the actors are compared with. *)
Definition goal (w : sight) (t : target) : option Q :=
  match t with
  | Absolute v => Some v
  | Delta e v _ => option_map (fun x => x + v) (speed_of w e)
  | Factor e v _ => option_map (fun x => x * v) (speed_of w e)
  end.
Definition no_ending (t : target) : bool :=
  match t with Absolute _ => false | Delta _ _ c => c | Factor _ _ c => c end.
(** S/speed_action.cpp:57-90, [check]. *)
Definition at_goal (w : sight) (t : target) (actor : nat) : bool :=
  forallb (fun o => equal (speed_of w o) (goal w t)) (objects actor).
(** S/speed_action.cpp:43-147. A request is the object it is made for; [step] is the shape of the
    dynamics (:106-109, endsImmediately). *)
Definition speed_action (actors : list nat) (step : bool) (t : target)
  : action sight (list (nat * bool)) nat :=
  {| a_start := fun w =>
       if all_known w actors then Some (table actors, flat_map objects (enter actors)) else None;
     a_run := fun _ s => (s, []);
     a_done := fun w s =>
       if step then Some (s, true)
       else if negb (no_ending t) then all_of (fun a => Some (at_goal w t a)) s
       else Some (s, false) |}.

(** S/lane_change_action.cpp:46-56, [accomplished]: [is_lane_changing] is the minimum over the
    objects; evaluateCurrentState throws for an object that is not spawned. *)
Definition lane_changing (w : sight) (o : nat) : option bool :=
  option_map (fun s => String.eqb (state s) "lane_change") (w o).
Fixpoint minimum (l : list (option bool)) : option bool :=
  match l with
  | [] => Some true
  | None :: _ => None
  | Some b :: l => match minimum l with None => None | Some m => Some (b && m) end
  end.
Definition is_lane_changing (w : sight) (actor : nat) : option bool :=
  minimum (map (lane_changing w) (objects actor)).
(** S/lane_change_action.cpp:62-90. A request is the object it is made for; whether the simulator
    takes it is modelled in M_LaneChange. *)
Definition lane_change_action (actors : list nat) : action sight (list (nat * bool)) nat :=
  {| a_start := fun w =>
       if all_known w actors then Some (table actors, flat_map objects (enter actors)) else None;
     a_run := fun _ s => (s, []);
     a_done := fun w s => all_of (fun a => option_map negb (is_lane_changing w a)) s |}.

(** S/speed_profile_entry.cpp: the speed and the time, which may be left out (NaN). *)
Record entry := { e_speed : Q; e_time : option Q }.
(** S/following_mode.cpp. *)
Inductive mode := Position | Follow.
Inductive transition := Linear | Auto.
Inductive constraint := Rate (a : Q) | Within (t : Q) | Free.
(** The calls to the simulator: applyProfileAction and applySpeedAction with the entry's target
    (relative to the given entity if there is one). [L] is the action's DynamicConstraints. *)
Inductive request (L : Type) :=
| Limits (object : nat) (l : L)
| Speed (object : nat) (relative : option nat) (v : Q) (tr : transition) (c : constraint)
    (continuous : bool).
Arguments Limits {L}. Arguments Speed {L}.

(** S/speed_profile_action.cpp:64-80, [constraint]: the acceleration is the default of the message
    (traffic_simulator_msgs/msg/DynamicConstraints.msg, 10). *)
Definition profile_constraint (m : mode) (e : entry) : constraint :=
  match e_time e with
  | None => match m with Position => Rate 10 | Follow => Free end
  | Some t => Within t
  end.
(** S/speed_profile_action.cpp:82-90. *)
Definition profile_transition (m : mode) : transition :=
  match m with Position => Linear | Follow => Auto end.
Definition untimed (e : entry) : bool := match e_time e with None => true | Some _ => false end.
(** S/speed_profile_action.cpp:52-107, apply. *)
Definition profile_apply {L} (l : L) (m : mode) (reference : option nat) (actor : nat) (e : entry)
  : list (request L) :=
  (map (fun o => Limits o l) (objects actor) ++
   map (fun o => Speed o reference (e_speed e) (profile_transition m) (profile_constraint m e)
                   (untimed e)) (objects actor))%list.
(** S/speed_profile_action.cpp:123-136: whether all objects of the actor have the entry's speed. *)
Definition profile_reached (w : sight) (reference : option nat) (e : entry) (actor : nat) : bool :=
  let v :=
    match reference with
    | None => Some (e_speed e)
    | Some r => option_map (fun x => e_speed e + x) (speed_of w r)
    end in
  forallb (fun o => equal (speed_of w o) v) (objects actor).
(** S/speed_profile_action.cpp:138-143: the actor's place in the list of entries moves at most one
    entry in a frame. *)
Definition profile_step {L} (l : L) (m : mode) (reference : option nat) (entries : list entry)
    (w : sight) (p : nat * nat) : (nat * nat) * list (request L) :=
  let '(a, i) := p in
  match nth_error entries i with
  | None => (p, [])
  | Some e =>
      if profile_reached w reference e a then
        ((a, S i),
         match nth_error entries (S i) with
         | None => []
         | Some e' => profile_apply l m reference a e'
         end)
      else (p, [])
  end.
Fixpoint profile_run {L} (l : L) (m : mode) (reference : option nat) (entries : list entry)
    (w : sight) (s : list (nat * nat)) : list (nat * nat) * list (request L) :=
  match s with
  | [] => ([], [])
  | p :: s =>
      let '(p, r) := profile_step l m reference entries w p in
      let '(s, r') := profile_run l m reference entries w s in (p :: s, (r ++ r')%list)
  end.
(** S/speed_profile_action.cpp:109-157. The reader of the action demands at least one entry. *)
Definition profile_action {L} (l : L) (m : mode) (reference : option nat) (entries : list entry)
    (actors : list nat) : action sight (list (nat * nat)) (request L) :=
  {| a_start := fun w =>
       if all_known w actors then
         Some (map (fun a => (a, 0%nat)) (enter actors),
               match entries with
               | [] => []
               | e :: _ => flat_map (fun a => profile_apply l m reference a e) actors
               end)
       else None;
     a_run := profile_run l m reference entries;
     a_done := fun _ s =>
       Some (s, forallb (fun p => Nat.eqb (snd p) (List.length entries)) s) |}.

End Actors.
Arguments Limits {L}. Arguments Speed {L}.

(** S/custom_command_action.cpp:250-283, DummyLongRunningAction: what it sees is the simulation
    time. *)
Definition waiting_action (duration : Q) : action Q Q nat :=
  {| a_start := fun now => Some (now + duration, []);
     a_run := fun _ s => (s, []);
     a_done := fun now s => Some (s, negb (Qle_bool now s)) |}.

(** ** The actions of Init *)

(** An action of Init: what identifies it and whether it ends immediately (endsImmediately). *)
Record item := { i_id : nat; i_immediate : bool }.
(** S/init_actions.cpp:27-45: the three lists; a Private holds the actions of one entity. *)
Record init :=
  { globals : list item; users : list item; privates : list (list item) }.
Inductive call := Start (i : nat) | Run (i : nat).

(** S/init_actions.cpp:88-110, startInstantaneousActions; S/private.cpp:70-77. Every global action is started
    here, whether or not it ends immediately. *)
Definition immediate_items (x : init) : list item :=
  (globals x ++ filter i_immediate (users x) ++
   flat_map (fun p => filter i_immediate p) (privates x))%list.
(** S/init_actions.cpp:112-124, startNonInstantaneousActions; S/private.cpp:79-86. *)
Definition lasting_items (x : init) : list item :=
  (filter (fun i => negb (i_immediate i)) (users x) ++
   flat_map (fun p => filter (fun i => negb (i_immediate i)) p) (privates x))%list.
(** S/init.cpp:30-39, evaluateInstantaneousActions, called before the simulation time starts
    (src/openscenario_interpreter.cpp:278). *)
Definition prepare (x : init) : list call :=
  (map (fun i => Start (i_id i)) (immediate_items x) ++
   map (fun i => Run (i_id i)) (immediate_items x))%list.
(** S/init_actions.cpp:49-61, accomplished; [done] are the answers of the actions in this frame. *)
Definition init_done (done : nat -> bool) (x : init) : bool :=
  let ok l := forallb (fun i => done (i_id i)) l in
  ok (globals x) && ok (users x) && forallb ok (privates x).
(** S/init_actions.cpp:47, 64, 86, 143-156: InitActions is an element of the storyboard. *)
Definition init_action (x : init) : action (nat -> bool) unit call :=
  {| a_start := fun _ => Some (tt, map (fun i => Start (i_id i)) (lasting_items x));
     a_run := fun _ _ => (tt, map (fun i => Run (i_id i)) (lasting_items x));
     a_done := fun done _ => Some (tt, init_done done x) |}.
