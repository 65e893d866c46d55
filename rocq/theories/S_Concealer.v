(** * Vocabulary of the properties of the connection to Autoware: what an observer reads in the
    record of a run. *)
From Coq Require Import ZArith List Bool Arith.
From Verif Require Import M_Concealer.
Import ListNotations.

(** The tasks accepted, begun and finished, in order. *)
Definition accepted (l : list entry) : list task :=
  flat_map (fun e => match e with Accepted t => [t] | _ => [] end) l.
Definition begun (l : list entry) : list task :=
  flat_map (fun e => match e with Began t => [t] | _ => [] end) l.
Definition finished (l : list entry) : list task :=
  flat_map (fun e => match e with Finished t => [t] | _ => [] end) l.

(** No task has failed. *)
Definition unfailed (l : list entry) : Prop := forall t, ~ In (Failed t) l.

(** [t] is the task being carried out. *)
Definition running (l : list entry) (t : task) : Prop :=
  unfailed l /\ begun l = finished l ++ [t].

(** No task is being carried out. *)
Definition resting (l : list entry) : Prop := unfailed l /\ begun l = finished l.

(** The record [l] says [e], having said [before]. *)
Definition says (l before : list entry) (e : entry) : Prop := exists after, l = before ++ e :: after.

(** What was recorded since the task now carried out began (or everything, if there is none). *)
Fixpoint since_begun (l acc : list entry) : list entry :=
  match l with
  | [] => acc
  | Began _ :: l' => since_begun l' []
  | e :: l' => since_begun l' (acc ++ [e])
  end.
Definition recent (l : list entry) : list entry := since_begun l [].

(** The requests sent, with their success, and the states of Autoware that were looked at. *)
Definition sent (l : list entry) : list (request * bool) :=
  flat_map (fun e => match e with Sent r b => [(r, b)] | _ => [] end) l.
Definition states (l : list entry) : list astate :=
  flat_map (fun e => match e with Saw s => [s] | _ => [] end) l.

(** The request a task is about. *)
Definition purpose (t : task) (r : request) : Prop :=
  match t with
  | TStop => r = ChangeToStop
  | TClear => r = ClearRoute
  | TInit p => r = InitialPose p
  | TPlan p => r = SetRoute p
  | TEngage => r = Engage
  | TEnable => r = EnableControl
  | TVelocity v => r = VelocityLimit v
  | TAuto m b => exists k, m = Some k /\ r = AutoMode k b
  | TCooperate k => r = Cooperate k
  end.

(** Autoware's states only advance. *)
Fixpoint advancing (l : list astate) : Prop :=
  match l with
  | a :: ((b :: _) as l') => rank a <= rank b /\ advancing l'
  | _ => True
  end.

(** Time that has passed in a schedule. *)
Definition elapsed (es : list event) : Z :=
  fold_right (fun e n => match e with Tick dt => (Z.of_N dt + n)%Z | _ => n end) 0%Z es.

(** The steps the dispatcher takes in a schedule, those not counted in which it finds a service not
    ready. *)
Definition working (es : list event) : nat :=
  length (filter (fun e => match e with Disp Yes | Disp No => true | _ => false end) es).

Definition destroyed (es : list event) : Prop := In Destroy es.
