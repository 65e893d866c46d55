(** * Model of the storyboard engine of openscenario_interpreter

    I = /repo/openscenario/openscenario_interpreter/include/openscenario_interpreter/syntax
    S = /repo/openscenario/openscenario_interpreter/src/syntax

    The tree of storyboard elements is a heap addressed by tree paths.  What the engine asks
    the outside world (trigger values, whether an action is accomplished, whether an action
    call throws) is answered by an arbitrary oracle [env], so a theorem for all [env] covers
    every environment.  Every transition notified to transition callbacks is logged. *)
From Coq Require Import List Arith Bool.
Import ListNotations.

(** StoryboardElementState::value_type.  I/storyboard_element_state.hpp:47-181 *)
Inductive state :=
| Standby | StartT | Running | EndT | Complete | SkipT | StopT.

Definition state_eqb (a b : state) : bool :=
  match a, b with
  | Standby, Standby | StartT, StartT | Running, Running | EndT, EndT
  | Complete, Complete | SkipT, SkipT | StopT, StopT => true
  | _, _ => false
  end.

(** Priority of an Event.  I/priority.hpp:51-82 *)
Inductive priority := Override | Skip | Parallel.

(** A path lists child indices from the element up to the root; [] is the Storyboard and
    [i :: p] is child number i of p (member [elements], I/storyboard_element.hpp:47). *)
Definition path := list nat.

Fixpoint path_eqb (a b : path) : bool :=
  match a, b with
  | [], [] => true
  | x :: a', y :: b' => Nat.eqb x y && path_eqb a' b'
  | _, _ => false
  end.

(** Which class an element belongs to.  Storyboard (S/storyboard.cpp:30-44) has the
    InitActions as element 0 and Stories after it; Story -> Act (S/story.cpp:33),
    Act -> ManeuverGroup (S/act.cpp:30), ManeuverGroup -> Maneuver (S/maneuver_group.cpp:30-36),
    Maneuver -> Event (S/maneuver.cpp:28), Event -> Action (S/event.cpp:33). *)
Inductive kind := KStoryboard | KInit | KStory | KAct | KGroup | KManeuver | KEvent | KAction.

Definition kind_of (p : path) : kind :=
  match p with
  | [] => KStoryboard
  | [0] => KInit
  | [_] => KStory
  | _ =>
    match length p with
    | 2 => KAct | 3 => KGroup | 4 => KManeuver | 5 => KEvent | _ => KAction
    end
  end.

Definition kind_eqb (a b : kind) : bool :=
  match a, b with
  | KStoryboard, KStoryboard | KInit, KInit | KStory, KStory | KAct, KAct | KGroup, KGroup
  | KManeuver, KManeuver | KEvent, KEvent | KAction, KAction => true
  | _, _ => false
  end.

(** Static content of a scenario: number of children, attribute maximumExecutionCount
    (used for ManeuverGroup, S/maneuver_group.cpp:26-27, default 0, and Event,
    S/event.cpp:27, default 1) and priority of events (S/event.cpp:30). *)
Record config := { nchild : path -> nat; maxattr : path -> nat; prio : path -> priority }.

(** I/storyboard_element.hpp:41 and constructors 58-79: all other classes keep the default 1. *)
Definition maxc (c : config) (p : path) : nat :=
  match kind_of p with KGroup | KEvent => maxattr c p | _ => 1 end.

(** Mutable members of an element: current_state, current_execution_count
    (I/storyboard_element.hpp:43-45) and Action::overridden (I/action.hpp, S/action.cpp:53-60). *)
Record elem := { st : state; cnt : nat; ovr : bool }.

Definition elem0 : elem := {| st := Standby; cnt := 0; ovr := false |}.

(** Questions put to the outside world. *)
Inductive question :=
| QStopTrigger (p : path)      (* stop_trigger.evaluate(), I/storyboard_element.hpp:190 *)
| QStartTrigger (p : path)     (* start_trigger.evaluate(), I/storyboard_element.hpp:211 *)
| QAccomplished (p : path)     (* Action/InitActions::accomplished, S/action.cpp:36, S/init_actions.cpp:47-61 *)
| QStartThrows (p : path)      (* does the wrapped action's start() throw? S/action.cpp:48-51 *)
| QRunThrows (p : path).       (* does the wrapped action's run() throw? S/action.cpp:43-46 *)

(** Log of observable effects, newest first. *)
Inductive entry :=
| Trans (p : path) (old new : state)   (* callbacks of transitionTo, I/storyboard_element.hpp:179-186 *)
| Ask (q : question) (b : bool)
| ActionStart (p : path)               (* Action::start reached, S/action.cpp:48 *)
| ActionRun (p : path).                (* Action::run reached, S/action.cpp:43 *)

Record world := { heap : path -> elem; log : list entry; tick : nat }.

Definition world0 : world := {| heap := fun _ => elem0; log := []; tick := 0 |}.

Definition upd (h : path -> elem) (p : path) (e : elem) : path -> elem :=
  fun q => if path_eqb q p then e else h q.

(** Ok: normal return.  Exit: a C++ exception leaves the function (SpecialAction, Error, ...);
    the interpreter then deactivates, I/../openscenario_interpreter.hpp:154-204.
    NoFuel: model artefact, excluded by [T_Storyboard.frame_terminates]. *)
Inductive outcome (A : Type) := Ok (a : A) (w : world) | Exit (w : world) | NoFuel.
Arguments Ok {A}. Arguments Exit {A}. Arguments NoFuel {A}.

Definition M (A : Type) := world -> outcome A.
Definition ret {A} (a : A) : M A := fun w => Ok a w.
Definition bind {A B} (m : M A) (f : A -> M B) : M B :=
  fun w => match m w with Ok a w' => f a w' | Exit w' => Exit w' | NoFuel => NoFuel end.
Definition seqm {A B} (m : M A) (f : M B) : M B := bind m (fun _ => f).
Notation "x <- m ;; f" := (bind m (fun x => f)) (at level 61, m at next level, right associativity).
Notation "m ;;; f" := (seqm m f) (at level 61, right associativity).

Definition get (p : path) : M elem := fun w => Ok (heap w p) w.
Definition emit (e : entry) : M unit :=
  fun w => Ok tt {| heap := heap w; log := e :: log w; tick := tick w |}.
Definition throw : M unit := fun w => Exit w.

Fixpoint mapM {A} (f : A -> M unit) (l : list A) : M unit :=
  match l with [] => ret tt | x :: l' => f x ;;; mapM f l' end.

Section Engine.
Variable c : config.
Variable env : nat -> bool.

Definition ask (q : question) : M bool :=
  fun w => let b := env (tick w) in
           Ok b {| heap := heap w; log := Ask q b :: log w; tick := S (tick w) |}.

Definition children (p : path) : list path := map (fun i => i :: p) (seq 0 (nchild c p)).

(** Raw assignment of current_state plus notification of the callbacks
    (I/storyboard_element.hpp:181-184). *)
Definition set_state (p : path) (s : state) : M unit :=
  fun w => let e := heap w p in
    Ok tt {| heap := upd (heap w) p {| st := s; cnt := cnt e; ovr := ovr e |};
             log := Trans p (st e) s :: log w; tick := tick w |}.

(** Maneuver::running_events_count, S/maneuver.cpp:55-65 ([m] is the Maneuver). *)
Definition running_events (h : path -> elem) (m : path) : nat :=
  length (filter (fun e => state_eqb (st (h e)) Running) (children m)).

(** StoryboardElement::transitionTo, I/storyboard_element.hpp:179-186, including the callback
    that Event::Event registers for priority skip, S/event.cpp:37-43.  Callbacks registered by
    StoryboardElementStateCondition only record the state (see M_Condition). *)
Definition transition_to (p : path) (s : state) : M bool :=
  set_state p s ;;;
  (match kind_of p, s, prio c p with
   | KEvent, StartT, Skip =>
       fun w => if Nat.ltb 0 (running_events (heap w) (tl p))
                then set_state p Standby w else Ok tt w
   | _, _, _ => ret tt
   end) ;;;
  e <- get p ;; ret (state_eqb (st e) s).

(** StoryboardElement::override, I/storyboard_element.hpp:89-97. *)
Definition override (p : path) : M unit :=
  e <- get p ;;
  match st e with
  | Standby | StopT => ret tt
  | _ => _ <- transition_to p StopT ;; ret tt
  end.

(** ++current_execution_count, I/storyboard_element.hpp:225 *)
Definition inc_count (p : path) : M unit :=
  fun w => let e := heap w p in
    Ok tt {| heap := upd (heap w) p {| st := st e; cnt := S (cnt e); ovr := ovr e |};
             log := log w; tick := tick w |}.

(** accomplished(): composites I/storyboard_element.hpp:100-107; Action S/action.cpp:36 and
    InitActions S/init_actions.cpp:47-61 ask the wrapped actions. *)
Definition accomplished (p : path) : M bool :=
  match kind_of p with
  | KAction | KInit => ask (QAccomplished p)
  | _ => fun w => Ok (forallb (fun q => state_eqb (st (heap w q)) Complete) (children p)) w
  end.

(** stop_trigger.evaluate(): only Storyboard (S/storyboard.cpp:32) and Act (S/act.cpp:28) have
    a StopTrigger; the default Trigger is empty, hence false (S/trigger.cpp:29-47). *)
Definition stop_trigger (p : path) : M bool :=
  match kind_of p with
  | KStoryboard | KAct => ask (QStopTrigger p)
  | _ => ret false
  end.

(** start_trigger.evaluate(): Act (S/act.cpp:27) and Event (S/event.cpp:29) read one; the
    others keep {{ConditionGroup()}}, which is true (I/storyboard_element.hpp:49). *)
Definition start_trigger (p : path) : M bool :=
  match kind_of p with
  | KAct | KEvent => ask (QStartTrigger p)
  | _ => ret true
  end.

(** Calls into the wrapped action(s); they may throw. *)
Definition action_start (p : path) : M unit :=
  emit (ActionStart p) ;;; b <- ask (QStartThrows p) ;; if b then throw else ret tt.
Definition action_run (p : path) : M unit :=
  emit (ActionRun p) ;;; b <- ask (QRunThrows p) ;; if b then throw else ret tt.

(** start(): default no-op I/storyboard_element.hpp:117; ManeuverGroup S/maneuver_group.cpp:53-60;
    Event S/event.cpp:46-57 (overrideEvents S/maneuver.cpp:47-53); Action S/action.cpp:48-51;
    InitActions S/init_actions.cpp:85. *)
Definition start_hook (p : path) : M unit :=
  match kind_of p with
  | KGroup => mapM (fun q => _ <- transition_to q StartT ;; ret tt) (children p)
  | KEvent =>
      (match prio c p with
       | Override => mapM override (children (tl p))
       | _ => ret tt
       end) ;;;
      mapM (fun q => _ <- transition_to q StartT ;; ret tt) (children p)
  | KAction | KInit => action_start p
  | _ => ret tt
  end.

(** run(): evaluate every child in order, I/storyboard_element.hpp:109-115 and the overrides that
    only add a path to exceptions (S/maneuver.cpp:33-45, S/maneuver_group.cpp:39-51,
    S/act.cpp:35-47, S/story.cpp:38-50, S/storyboard.cpp:46-59); Action S/action.cpp:43-46;
    InitActions S/init_actions.cpp:64. *)
Definition run_hook (evalc : path -> M unit) (p : path) : M unit :=
  match kind_of p with
  | KAction | KInit => action_run p
  | _ => mapM evalc (children p)
  end.

(** Action::stop, S/action.cpp:53-60.  The direct assignment of current_state in the second
    call is not notified to callbacks. *)
Definition action_stop (p : path) : M unit :=
  fun w => let e := heap w p in
    Ok tt {| heap := upd (heap w) p
               (if ovr e then {| st := Complete; cnt := cnt e; ovr := true |}
                else {| st := st e; cnt := cnt e; ovr := true |});
             log := log w; tick := tick w |}.

(** stop(): default I/storyboard_element.hpp:119-126 (InitActions has no [elements]). *)
Definition stop_hook (evalc : path -> M unit) (p : path) : M unit :=
  match kind_of p with
  | KAction => action_stop p
  | KInit => ret tt
  | _ => mapM (fun q => override q ;;; evalc q) (children p)
  end.

(** The dispatch loop of StoryboardElement::evaluate, I/storyboard_element.hpp:199-342; every
    [goto dispatch] consumes one unit of fuel. *)
Fixpoint dispatch (evalc : path -> M unit) (n : nat) (p : path) : M unit :=
  match n with
  | 0 => fun _ => NoFuel
  | S n' =>
    e <- get p ;;
    match st e with
    | Standby =>
        b <- start_trigger p ;;
        if b then (t <- transition_to p StartT ;; if t : bool then dispatch evalc n' p else ret tt)
        else ret tt
    | StartT =>
        start_hook p ;;;
        t <- transition_to p Running ;;
        (if t : bool then inc_count p else ret tt) ;;;
        dispatch evalc n' p
    | Running =>
        run_hook evalc p ;;;
        a <- accomplished p ;;
        if a : bool then (_ <- transition_to p EndT ;; dispatch evalc n' p) else ret tt
    | EndT =>
        e' <- get p ;;
        _ <- transition_to p (if Nat.ltb (cnt e') (maxc c p) then Standby else Complete) ;;
        dispatch evalc n' p
    | Complete => ret tt
    | SkipT => throw
    | StopT =>
        a <- accomplished p ;;
        (if a : bool then ret tt else stop_hook evalc p) ;;;
        _ <- transition_to p Complete ;;
        dispatch evalc n' p
    end
  end.

(** Fuel that is proved sufficient. *)
Definition fuel (p : path) : nat := 4 * maxc c p + 10.

(** StoryboardElement::evaluate, I/storyboard_element.hpp:188-343.  [h] bounds the nesting depth
    (7 levels).  Event::evaluate (S/event.cpp:59-68) only rewraps exceptions. *)
Fixpoint evaluate (h : nat) (p : path) : M unit :=
  match h with
  | 0 => fun _ => NoFuel
  | S h' =>
    b <- stop_trigger p ;;
    (if b : bool then override p else ret tt) ;;;
    dispatch (evaluate h') (fuel p) p
  end.

(** One frame: ScenarioDefinition::evaluate -> Storyboard::evaluate, S/scenario_definition.cpp:32-40. *)
Definition frame : M unit := evaluate 7 [].

(** n frames; an exception deactivates the interpreter, so no further frame is evaluated
    (src/openscenario_interpreter.cpp:155-160). *)
Fixpoint frames (n : nat) : M unit :=
  match n with 0 => ret tt | S n' => frame ;;; frames n' end.

End Engine.
