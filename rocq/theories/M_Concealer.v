(** * Model of the connection to Autoware: the task queue and its thread, the requests of the ego
    entity, the services, the state derived from Autoware's messages, and cooperation commands.

    Files: external/concealer/src/task_queue.cpp, include/concealer/task_queue.hpp,
    src/field_operator_application.cpp, include/concealer/field_operator_application.hpp,
    include/concealer/service.hpp, include/concealer/legacy_autoware_state.hpp;
    simulation/traffic_simulator/src/entity/ego_entity.cpp (requests).

    Simplifications: two threads, the caller's and the dispatcher's, interleave at the granularity
    of one access to the shared data; memory is sequentially consistent (the plain accesses to
    [thrown] and [time_limit] from both threads are data races in C++); what Autoware's topics say
    and when they change is decided by the environment ([See]), and so is the answer of each
    service; clocks are counted in nanoseconds; every exception is the outcome [Failed] or
    [Threw]. *)
From Coq Require Import ZArith NArith List Bool Arith.
Import ListNotations.

(** ** Autoware's state *)

(** include/concealer/legacy_autoware_state.hpp:38-47. *)
Inductive astate :=
  Undefined | Initializing | WaitingForRoute | Planning | WaitingForEngage | Driving | ArrivedGoal
| Finalizing.

(** The order of the enumerators, which comparisons use. *)
Definition rank (s : astate) : nat :=
  match s with
  | Undefined => 0 | Initializing => 1 | WaitingForRoute => 2 | Planning => 3
  | WaitingForEngage => 4 | Driving => 5 | ArrivedGoal => 6 | Finalizing => 7
  end.

(** The constants of autoware_adapi_v1_msgs; [Other] stands for a number that is none of them. *)
Inductive localization := LUnknown | LUninitialized | LInitializing | LInitialized | LOther.
Inductive routing := RUnknown | RUnset | RSet | RArrived | RChanging | ROther.
Inductive mode := MUnknown | MStop | MAutonomous | MLocal | MRemote | MOther.
Record messages := {
  m_localization : localization;
  m_route : routing;
  m_route_stamp : Z;
  m_mode : mode;
  m_control : bool;
  m_available : bool
}.

(** legacy_autoware_state.hpp:79-143. *)
Definition legacy (m : messages) (now : Z) : astate :=
  match m_localization m, m_route m, m_mode m with
  | LUnknown, _, _ | _, RUnknown, _ | _, _, MUnknown => Initializing
  | _, _, _ =>
      match m_localization m with
      | LUninitialized | LInitializing => Initializing
      | LInitialized =>
          match m_route m with
          | RArrived =>
              if (now - m_route_stamp m <? 2000000000)%Z then ArrivedGoal else WaitingForRoute
          | RUnset => WaitingForRoute
          | RSet | RChanging =>
              let stopped := if m_available m then WaitingForEngage else Planning in
              match m_mode m with
              | MAutonomous | MLocal | MRemote => if m_control m then Driving else stopped
              | MStop => stopped
              | _ => Undefined
              end
          | _ => Undefined
          end
      | _ => Undefined
      end
  end.

(** ** Tasks *)

(** The requests sent to Autoware's services; poses, routes and modules are numbers. *)
Inductive request :=
| ChangeToStop | ClearRoute | InitialPose (pose : nat) | SetRoute (route : nat) | Engage
| EnableControl | VelocityLimit (v : nat) | AutoMode (module : nat) (enable : bool)
| Cooperate (command : nat).

Inductive task :=
| TStop | TClear | TInit (pose : nat) | TPlan (route : nat) | TEngage | TEnable | TVelocity (v : nat)
| TAuto (module : option nat) (enable : bool) | TCooperate (command : nat).

(** What a task does: it sends a request and waits for its success, waits for Autoware's state,
    looks at Autoware's state, or lifts the time limit. *)
Inductive prog :=
| Done
| Fail
| Send (r : request) (k : prog)
| Wait (from to : astate) (k : prog)
| Look (k : astate -> prog)
| Lift (k : prog).

(** src/field_operator_application.cpp:289-316, the fall-through of the cases of engage. *)
Definition engage_now : prog := Send Engage (Wait WaitingForEngage Driving (Lift Done)).
Definition engage_planning : prog := Wait Planning WaitingForEngage engage_now.
Definition engage_route : prog := Wait WaitingForRoute Planning engage_planning.

(** 347-364: the part of initialize after a possible wait. *)
Definition init_now (pose : nat) : prog :=
  Send (InitialPose pose) (Wait Initializing WaitingForRoute Done).

(** 446-456 and 474-484: the part of plan after a possible wait. *)
Definition plan_now (route : nat) : prog :=
  Send (SetRoute route)
    (Wait WaitingForRoute Planning (Wait Planning WaitingForEngage Done)).

(** 175-182 (in the constructor), 260-270, 272-278, 280-319 (engage), 334-370 (initialize),
    434-459 and 461-487 (plan), 489-512 (the name of the module is looked up when the task runs),
    598, 604-615. *)
Definition body (t : task) : prog :=
  match t with
  | TStop => Send ChangeToStop Done
  | TClear => Send ClearRoute Done
  | TEnable => Send EnableControl Done
  | TVelocity v => Send (VelocityLimit v) Done
  | TAuto (Some m) b => Send (AutoMode m b) Done
  | TAuto None _ => Fail
  | TCooperate k => Send (Cooperate k) Done
  | TEngage =>
      Look (fun s =>
        match s with
        | Initializing => Wait Initializing WaitingForRoute engage_route
        | WaitingForRoute => engage_route
        | Planning => engage_planning
        | WaitingForEngage => engage_now
        | Driving => Done
        | _ => Fail
        end)
  | TInit pose =>
      Look (fun s =>
        match s with
        | Undefined => Wait Undefined Initializing (init_now pose)
        | Initializing | WaitingForRoute => init_now pose
        | _ => Fail
        end)
  | TPlan route =>
      Look (fun s =>
        match s with
        | Initializing | ArrivedGoal => Wait s WaitingForRoute (plan_now route)
        | WaitingForRoute => plan_now route
        | _ => Fail
        end)
  end.

(** ** The two threads *)

(** Where the dispatcher is in its loop (src/task_queue.cpp:23-37): at the loop's condition, at the
    test whether the queue is empty, at front(), in the task, in the service (service.hpp:51-63
    before it is ready, 99-105 with the attempts left), at pop(); ended; died of an exception. *)
Inductive pc :=
| Head | Test | Front | Run (p : prog) | Ready (r : request) (k : prog) (deadline : Z)
| Try (r : request) (n : nat) (k : prog) | Pop | Ended | Died.

(** What the caller's thread does. The entry points of the API: *)
Inductive call :=
| CDelay (t : task)      (* task_queue.delay *)
| CInit (pose : nat)     (* FieldOperatorApplication::initialize *)
| CEngaged | CEngageable (* engaged(), engageable() *)
| CSpin.                 (* spinSome(), of which only rethrow() is modelled *)

(** and between two accesses of a call: *)
Inductive caller :=
| Free
| Adding (t : task)      (* in delay, after rethrow *)
| Asking (want : astate) (* in engaged / engageable, after rethrow *)
| Reading (want : astate)(* after the queue was found empty *)
| Finalizing1 | Finalizing2 | Joining | Gone. (* the destructors *)

(** What happened, for specifications: an observer's record. *)
Inductive entry :=
| Accepted (t : task) | Began (t : task) | Finished (t : task) | Failed (t : task)
| Sent (r : request) (success : bool) | Saw (s : astate) | Lifted
| TimeUp | Unavailable (r : request) | Refused (r : request) | Unexpected
| Threw | Answered (want : astate) (b : bool).

Record state := {
  queue : list task;
  thread : pc;
  thrown : bool;               (* TaskQueue::thrown *)
  q_final : bool;              (* TaskQueue::finalized *)
  a_final : bool;              (* FieldOperatorApplication::finalized *)
  alive : bool;                (* rclcpp::ok() *)
  seen : astate;               (* getLegacyAutowareState() *)
  clock : Z;
  limit : option Z;            (* time_limit; None is time_point::max() *)
  main : caller;
  todo : list call;            (* the calls left of a request of the ego entity *)
  initialized : bool;
  log : list entry
}.

(** The requests of the ego entity (ego_entity.cpp). [Assign] is requestAssignRoute and
    requestAcquirePosition, with the ego's pose; [Replan] is requestReplanRoute. *)
Inductive demand :=
| DAssign (pose route : nat) | DReplan (route : nat) | DEngage | DClear | DEnable
| DVelocity (v : nat) | DAuto (module : option nat) (enable : bool) | DCooperate (command : nat)
| DEngaged | DEngageable | DSpin.

(** simulation/traffic_simulator/src/entity/ego_entity.cpp:86-101, 178, 293-304 and 331-352,
    397-423, 454-458. A request that fails before it reaches the task queue (an unknown lanelet, a
    cooperation command that finds no status) is not a request here. *)
Definition calls (initialized : bool) (d : demand) : list call :=
  match d with
  | DAssign pose route =>
      if initialized then [CDelay TClear; CDelay (TPlan route); CDelay TEngage]
      else [CDelay TClear; CInit pose; CDelay (TPlan route)]
  | DReplan route => [CDelay TClear; CDelay (TPlan route); CDelay TEnable; CDelay TEngage]
  | DEngage => [CDelay TEngage]
  | DClear => [CDelay TClear]
  | DEnable => [CDelay TEnable]
  | DVelocity v => [CDelay (TVelocity v)]
  | DAuto m b => [CDelay (TAuto m b)]
  | DCooperate k => [CDelay (TCooperate k)]
  | DEngaged => [CEngaged]
  | DEngageable => [CEngageable]
  | DSpin => [CSpin]
  end.

(** The answer of a service to one attempt, or that it is not ready. *)
Inductive answer := Yes | No | NotReady.

(** A step of the schedule: a request arrives, the caller's thread or the dispatcher's takes a step,
    the destructor is entered, Autoware's state changes, time passes, rclcpp is shut down. *)
Inductive event :=
| Demand (d : demand) | Main | Disp (o : answer) | Destroy | See (s : astate) | Tick (dt : N)
| Shutdown.

Definition set_thread (s : state) (p : pc) (es : list entry) : state :=
  {| queue := queue s; thread := p; thrown := thrown s; q_final := q_final s; a_final := a_final s;
     alive := alive s; seen := seen s; clock := clock s; limit := limit s; main := main s;
     todo := todo s; initialized := initialized s; log := log s ++ es |}.

(** The exception leaves the task: the dispatcher stores it and ends (src/task_queue.cpp:34-36); the
    task stays at the front of the queue. *)
Definition die (s : state) (es : list entry) : state :=
  {| queue := queue s; thread := Died; thrown := true; q_final := q_final s; a_final := a_final s;
     alive := alive s; seen := seen s; clock := clock s; limit := limit s; main := main s;
     todo := todo s; initialized := initialized s;
     log := log s ++ es ++ match queue s with t :: _ => [Failed t] | [] => [] end |}.

Definition set_main (s : state) (m : caller) (cs : list call) (es : list entry) : state :=
  {| queue := queue s; thread := thread s; thrown := thrown s; q_final := q_final s;
     a_final := a_final s; alive := alive s; seen := seen s; clock := clock s; limit := limit s;
     main := m; todo := cs; initialized := initialized s; log := log s ++ es |}.

Definition set_initialized (s : state) : state :=
  {| queue := queue s; thread := thread s; thrown := thrown s; q_final := q_final s;
     a_final := a_final s; alive := alive s; seen := seen s; clock := clock s; limit := limit s;
     main := main s; todo := todo s; initialized := true; log := log s |}.

Definition set_queue (s : state) (q : list task) : state :=
  {| queue := q; thread := thread s; thrown := thrown s; q_final := q_final s;
     a_final := a_final s; alive := alive s; seen := seen s; clock := clock s; limit := limit s;
     main := main s; todo := todo s; initialized := initialized s; log := log s |}.

Definition set_limit (s : state) (l : option Z) : state :=
  {| queue := queue s; thread := thread s; thrown := thrown s; q_final := q_final s;
     a_final := a_final s; alive := alive s; seen := seen s; clock := clock s; limit := l;
     main := main s; todo := todo s; initialized := initialized s; log := log s |}.

(** include/concealer/field_operator_application.hpp:138-140 (not_to_be). *)
Definition not_to_be (from to s : astate) : bool := (rank from <=? rank s) && (rank s <? rank to).

Definition time_is_up (s : state) : bool :=
  match limit s with Some l => (l <=? clock s)%Z | None => false end.

(** The default of availability_timeout (service.hpp:53), and the attempts of all requests. *)
Definition availability : Z := 180000000000.
Definition attempts : nat := 30.

(** One step of the dispatcher. field_operator_application.hpp:131-152 is the case of [Wait];
    service.hpp:51-116 are [Ready] and [Try]. *)
Definition dispatch (s : state) (o : answer) : state :=
  match thread s with
  | Head => if alive s && negb (q_final s) then set_thread s Test [] else set_thread s Ended []
  | Test => match queue s with [] => set_thread s Head [] | _ => set_thread s Front [] end
  | Front => match queue s with t :: _ => set_thread s (Run (body t)) [Began t] | [] => s end
  | Run Done => set_thread s Pop []
  | Run Fail => die s [Unexpected]
  | Run (Send r k) => set_thread s (Ready r k (clock s + availability)) []
  | Run (Look f) => set_thread s (Run (f (seen s))) [Saw (seen s)]
  | Run (Lift k) => set_limit (set_thread s (Run k) [Lifted]) None
  | Run (Wait a b k) =>
      if a_final s then set_thread s (Run k) []
      else if not_to_be a b (seen s) then
        if time_is_up s then die s [Saw (seen s); TimeUp] else set_thread s (Run (Wait a b k)) [Saw (seen s)]
      else set_thread s (Run k) [Saw (seen s)]
  | Ready r k d =>
      match o with
      | NotReady =>
          if alive s then if (d <? clock s)%Z then die s [Unavailable r] else s
          else set_thread s (Try r attempts k) []
      | _ => set_thread s (Try r attempts k) []
      end
  | Try r 0 k => die s [Refused r]
  | Try r (S n) k =>
      match o with
      | Yes => set_thread s (Run k) [Sent r true]
      | _ => set_thread s (Try r n k) [Sent r false]
      end
  | Pop => match queue s with
           | t :: q => set_queue (set_thread s Head [Finished t]) q
           | [] => s
           end
  | Ended | Died => s
  end.

(** The beginning of a call: rethrow() (src/task_queue.cpp:67-72; delay, engaged, engageable,
    spinSome all begin with it, initialize only the first time). *)
Definition enter (s : state) (c : call) (cs : list call) : state :=
  let refuse := set_main s Free [] [Threw] in
  match c with
  | CDelay t => if thrown s then refuse else set_main s (Adding t) cs []
  | CInit pose =>
      if initialized s then set_main s Free cs []
      else let s := set_initialized s in
           if thrown s then set_main s Free [] [Threw] else set_main s (Adding (TInit pose)) cs []
  | CEngaged => if thrown s then refuse else set_main s (Asking Driving) cs []
  | CEngageable => if thrown s then refuse else set_main s (Asking WaitingForEngage) cs []
  | CSpin => if thrown s then refuse else set_main s Free cs []
  end.

Definition astate_eqb (a b : astate) : bool := rank a =? rank b.

(** One step of the caller's thread: include/concealer/task_queue.hpp:50-56 (delay),
    src/field_operator_application.cpp:321-332 (engageable, engaged), 257 and the destructor of the
    member task_queue (src/task_queue.cpp:41-47). *)
Definition proceed (s : state) : state :=
  match main s with
  | Free => match todo s with c :: cs => enter s c cs | [] => s end
  | Adding t => set_queue (set_main s Free (todo s) [Accepted t]) (queue s ++ [t])
  | Asking w =>
      match queue s with
      | [] => set_main s (Reading w) (todo s) []
      | _ => set_main s Free (todo s) [Answered w false]
      end
  | Reading w => set_main s Free (todo s) [Answered w (astate_eqb (seen s) w)]
  | Finalizing1 =>
      {| queue := queue s; thread := thread s; thrown := thrown s; q_final := q_final s;
         a_final := true; alive := alive s; seen := seen s; clock := clock s; limit := limit s;
         main := Finalizing2; todo := []; initialized := initialized s; log := log s |}
  | Finalizing2 =>
      {| queue := queue s; thread := thread s; thrown := thrown s; q_final := true;
         a_final := a_final s; alive := alive s; seen := seen s; clock := clock s; limit := limit s;
         main := Joining; todo := []; initialized := initialized s; log := log s |}
  | Joining =>
      match thread s with Ended | Died => set_main s Gone [] [] | _ => s end
  | Gone => s
  end.

Definition idle (s : state) : bool :=
  match main s, todo s with Free, [] => true | _, _ => false end.

Definition step (s : state) (e : event) : state :=
  match e with
  | Demand d => if idle s then set_main s Free (calls (initialized s) d) [] else s
  | Main => proceed s
  | Disp o => dispatch s o
  | Destroy => if idle s then set_main s Finalizing1 [] [] else s
  | See x =>
      {| queue := queue s; thread := thread s; thrown := thrown s; q_final := q_final s;
         a_final := a_final s; alive := alive s; seen := x; clock := clock s; limit := limit s;
         main := main s; todo := todo s; initialized := initialized s; log := log s |}
  | Tick dt =>
      {| queue := queue s; thread := thread s; thrown := thrown s; q_final := q_final s;
         a_final := a_final s; alive := alive s; seen := seen s; clock := (clock s + Z.of_N dt)%Z;
         limit := limit s; main := main s; todo := todo s; initialized := initialized s;
         log := log s |}
  | Shutdown =>
      {| queue := queue s; thread := thread s; thrown := thrown s; q_final := q_final s;
         a_final := a_final s; alive := false; seen := seen s; clock := clock s; limit := limit s;
         main := main s; todo := todo s; initialized := initialized s; log := log s |}
  end.

Definition run (s : state) (es : list event) : state := fold_left step es s.

(** The constructor (src/field_operator_application.cpp:80-183): the first task is queued, and the
    time limit is the initialize_duration. *)
Definition start (duration : Z) : state :=
  {| queue := [TStop]; thread := Head; thrown := false; q_final := false; a_final := false;
     alive := true; seen := Initializing; clock := 0; limit := Some duration; main := Free;
     todo := []; initialized := false; log := [Accepted TStop] |}.

(** ** Cooperation commands *)

(** A CooperateStatus: module type and id of the module, uuid, the command it has, distance in
    millimetres. *)
Record status := {
  c_module : nat; c_instance : nat; c_uuid : nat; c_command : nat; c_distance : Z
}.

(** src/field_operator_application.cpp:537-546. Module equality compares type and id. *)
Definition same_status (a b : status) : bool :=
  (c_module a =? c_module b) && (c_instance a =? c_instance b) && (c_uuid a =? c_uuid b) &&
  (c_command a =? c_command b).

(** 548-572. *)
Definition valid_status (x : status) (command module : nat) : bool :=
  (c_module x =? module) && negb (command =? c_command x) && (-20000 <=? c_distance x)%Z.

(** 514-602: [used] is the static list. The command sent is the module, the uuid and the command. *)
Definition send_cooperate (used : list status) (array : list status) (command module : option nat)
  : option (status * nat * list status) :=
  match command, module with
  | Some command, Some module =>
      match find (fun x => valid_status x command module && negb (existsb (fun u => same_status u x) used))
              array with
      | Some x => Some (x, command, used ++ [x])
      | None => None
      end
  | _, _ => None
  end.

(** A history of calls, each with the statuses last received; the commands sent. *)
Fixpoint cooperation (used : list status) (h : list (list status * (option nat * option nat)))
  : list (option (status * nat)) :=
  match h with
  | [] => []
  | (array, (command, module)) :: h' =>
      match send_cooperate used array command module with
      | Some (x, c, used') => Some (x, c) :: cooperation used' h'
      | None => None :: cooperation used h'
      end
  end.

(** ** The end of the Autoware process *)

(** What sigtimedwait can report in the destructor. *)
Inductive awaited := ChildSignal | Interrupted | TimedOut | BadTimeout.

(** The moment, after SIGINT, of the earliest of two possible events. *)
Definition earlier (a b : option Z) : option Z :=
  match a, b with
  | Some x, Some y => Some (Z.min x y)
  | Some x, None | None, Some x => Some x
  | None, None => None
  end.

(** sigtimedwait for SIGCHLD with a timeout: [children] is the moment of the first SIGCHLD of any
    child, [interrupt] of another signal. *)
Definition sigtimedwait (timeout : Z) (children interrupt : option Z) : awaited * Z :=
  if (timeout <? 0)%Z then (BadTimeout, 0%Z)
  else
    let before x y := match x, y with
                      | Some a, Some b => (a <=? b)%Z | Some _, None => true | None, _ => false end in
    let at_ x := match x with Some a => a | None => timeout end in
    if before children interrupt && before children (Some timeout) then (ChildSignal, at_ children)
    else if before interrupt (Some timeout) then (Interrupted, at_ interrupt)
    else (TimedOut, timeout).

(** src/field_operator_application.cpp:185-258: whether the process group is killed, and when waitpid
    returns ([None] is never). [exits] is the moment at which the process, having received SIGINT,
    ends by itself; [other] the moment another child of the simulator ends. *)
Definition terminate (timeout : Z) (exits other interrupt : option Z) : bool * option Z :=
  match sigtimedwait timeout (earlier exits other) interrupt with
  | (TimedOut, t) => (true, Some t)
  | (_, t) => (false, match exits with Some e => Some (Z.max t e) | None => None end)
  end.
