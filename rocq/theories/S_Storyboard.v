(** Specification vocabulary for the storyboard properties: everything is read off the list of
    observable events (newest first), not off the engine's internal state. *)
From Coq Require Import List Arith Bool.
From Verif Require Import M_Storyboard.
Import ListNotations.

(** The world reached after [n] frames of scenario [c] under environment [env]: either all frames
    returned, or an exception ended the scenario. *)
Definition reaches (c : config) (env : nat -> bool) (n : nat) (w : world) : Prop :=
  frames c env n world0 = Ok tt w \/ frames c env n world0 = Exit w.

(** State of [p] according to the notifications alone; elements begin in standby. *)
Fixpoint seen (l : list entry) (p : path) : state :=
  match l with
  | [] => Standby
  | Trans q _ n :: l' => if path_eqb q p then n else seen l' p
  | _ :: l' => seen l' p
  end.

(** Number of times [p] entered the running state. *)
Fixpoint executions (l : list entry) (p : path) : nat :=
  match l with
  | [] => 0
  | Trans q _ Running :: l' => (if path_eqb q p then 1 else 0) + executions l' p
  | _ :: l' => executions l' p
  end.

(** [at_time w e l]: entry [e] was observed when the history was [l]. *)
Definition at_time (w : world) (e : entry) (l : list entry) : Prop :=
  exists later, log w = later ++ e :: l.

Definition child_of (c : config) (q p : path) : Prop := exists i, i < nchild c p /\ q = i :: p.
Definition sibling (c : config) (q p : path) : Prop := q <> p /\ child_of c q (tl p).

(** Transitions of the life cycle, with the extra arrows the engine has. *)
Definition lawful (c : config) (p : path) (old new : state) : Prop :=
  match old, new with
  | Standby, StartT => True                                   (* start *)
  | StartT, Standby => kind_of p = KEvent /\ prio c p = Skip  (* skipped *)
  | Complete, StartT | StartT, StartT =>                      (* restarted by the parent *)
      kind_of p = KManeuver \/ kind_of p = KAction
  | StartT, Running => True
  | StopT, Running => kind_of p = KEvent /\ prio c p = Override
  | Running, EndT => True
  | EndT, Standby => kind_of p = KGroup \/ kind_of p = KEvent
  | EndT, Complete => True
  | StartT, StopT =>                                          (* an override Event overrides itself *)
      (kind_of p = KEvent /\ prio c p = Override) \/ kind_of p = KManeuver \/ kind_of p = KAction
  | Running, StopT | Complete, StopT => True
  | StopT, Complete => True
  | Complete, Complete => kind_of p = KAction                 (* second stop of an Action *)
  | _, _ => False
  end.

(** The life cycle of the OpenSCENARIO standard (user guide, "States and transitions of
    StoryboardElements"): stop only from standby or running, nothing out of complete except a
    restart by the parent. *)
Definition standard_lawful (old new : state) : Prop :=
  match old, new with
  | Standby, StartT | StartT, Running | Running, EndT | EndT, Standby | EndT, Complete
  | Standby, SkipT | SkipT, Standby | Standby, StopT | Running, StopT | StopT, Complete
  | Complete, Standby | Complete, StartT => True
  | _, _ => False
  end.

(** Classes whose elements the parent restarts. *)
Definition restartable (p : path) : Prop := kind_of p = KManeuver \/ kind_of p = KAction.

(** Elements that consist of other elements; Actions and the InitActions do not. *)
Definition composite (p : path) : Prop := kind_of p <> KAction /\ kind_of p <> KInit.

(** [inside c r y]: [r] is a child of [y], or a child of something inside [y]. *)
Inductive inside (c : config) : path -> path -> Prop :=
| inside_child q p : composite p -> child_of c q p -> inside c q p
| inside_deeper r q p : inside c r q -> composite p -> child_of c q p -> inside c r p.

Definition executing (s : state) : Prop := s = StartT \/ s = Running \/ s = EndT.

(** In history [l], [a] left standby while its parent was being stopped. *)
Definition started_while_stopping (l : list entry) (a : path) : Prop :=
  exists later l1, l = later ++ Trans a Standby StartT :: l1 /\ seen l1 (tl a) = StopT.

(** The element an observed event is about. *)
Definition subject (e : entry) : path :=
  match e with
  | Trans p _ _ | ActionStart p | ActionRun p
  | Ask (QStopTrigger p) _ | Ask (QStartTrigger p) _ | Ask (QAccomplished p) _
  | Ask (QStartThrows p) _ | Ask (QRunThrows p) _ => p
  end.

(** [above y p]: [y] is the parent of [p], or the parent's parent, and so on. *)
Definition above (y p : path) : Prop := exists i l, p = l ++ i :: y.

(** What must be the very next observed event [e'] after [e], where [l] is the history before [e]:
    answers take effect at once. *)
Definition next_ok (e' e : entry) (l : list entry) : Prop :=
  match e with
  | Ask (QStartTrigger p) true => e' = Trans p Standby StartT
  | Ask (QStopTrigger p) true =>     (* only the Storyboard and Acts have one *)
      (kind_of p = KStoryboard \/ kind_of p = KAct) /\
      (seen l p = Standby \/ seen l p = StopT \/ e' = Trans p (seen l p) StopT)
  | Ask (QAccomplished p) true =>
      (seen l p = Running /\ e' = Trans p Running EndT) \/ (seen l p = StopT /\ e' = Trans p StopT Complete)
  | Ask (QAccomplished p) false => seen l p = Running \/ (seen l p = StopT /\ exists o, e' = Trans p o Complete)
  | ActionStart p => exists b, e' = Ask (QStartThrows p) b
  | Ask (QStartThrows p) b => b = false /\ e' = Trans p StartT Running
  | ActionRun p => exists b, e' = Ask (QRunThrows p) b
  | Ask (QRunThrows p) b => b = false /\ exists b', e' = Ask (QAccomplished p) b'
  | Trans p _ EndT => e' = Trans p EndT Standby \/ e' = Trans p EndT Complete
  | _ => True
  end.

(** The condition of an element [r] that was due in a frame; [new] are the events of that frame. *)
Definition frame_status (c : config) (new : list entry) (l : list entry) (r : path) : Prop :=
  match seen l r with
  | Standby =>                       (* waits for its start trigger, which was evaluated *)
      (kind_of r = KAct \/ kind_of r = KEvent) /\
      (In (Ask (QStartTrigger r) false) new \/
       (prio c r = Skip /\ In (Ask (QStartTrigger r) true) new /\ In (Trans r StartT Standby) new))
  | Running =>                       (* executes: its action was run, or something in it is unfinished *)
      (composite r -> exists q, child_of c q r /\ seen l q <> Complete) /\
      (~ composite r -> In (ActionRun r) new /\ In (Ask (QAccomplished r) false) new)
  | Complete => True
  | StopT => kind_of r = KEvent      (* overridden by a sibling Event in this frame *)
  | StartT | EndT | SkipT => False
  end.
