(** * What a user expects of the interpreter node, apart from how it is written *)

From Coq Require Import String Bool Arith ZArith List.
From Verif Require Import M_Interpreter.
Import ListNotations.
Open Scope list_scope.

(** ** Which verdict an ending deserves *)
Inductive deserves : exn -> verdict -> Prop :=
| d_success : deserves ExitSuccess Pass
| d_failure m : deserves (ExitFailure m) (Failure "SimulationFailure" m)
| d_autoware m : deserves (Autoware m) (Error "AutowareError" m)
| d_semantic m : deserves (Semantic m) (Error "SemanticError" m)
| d_simulation m : deserves (Simulation m) (Error "SimulationError" m)
| d_syntax m : deserves (Syntax m) (Error "SyntaxError" m)
| d_violation m : deserves (Violation m) (Error "InternalError" m)
| d_plain m : deserves (Plain m) (Error "InternalError" m)
| d_alien : deserves Alien (Error "UnknownError" "An unknown exception has occurred").

(** ** When a piece of work fails *)

(** One frame: evaluating comes first, advancing second. *)
Inductive frame_fails : frame_env -> exn -> Prop :=
| ff_evaluate v e :
    fe_unknown_time v = false -> fe_evaluate v = Some e -> frame_fails v e
| ff_controllers v e :
    fe_unknown_time v = true -> fe_engaged v = true -> fe_controllers v = Some e ->
    frame_fails v e
| ff_update v e :
    (fe_unknown_time v = false -> fe_evaluate v = None) ->
    (fe_unknown_time v = true -> fe_engaged v = true -> fe_controllers v = None) ->
    fe_update v = Some e -> frame_fails v e.

(** Starting a scenario: its stages in order, the first failing one counts. *)
Definition launch_failure (l : launch) : option exn :=
  match l with NoProgram e => Some e | ForkFails => Some (Plain "fork") | Launched _ => None end.

Definition stages (recording : bool) (v : start_env) : list (option exn) :=
  (if recording then [launch_failure (se_recorder v)] else []) ++
  [se_configuration v; se_construct v; se_update v; se_init v; se_engage v].

Definition fails_first (l : list (option exn)) (e : exn) : Prop :=
  exists before after, l = before ++ Some e :: after /\ Forall (fun o => o = None) before.

(** ** Reading a history *)

Definition is_report (e : event) : bool := match e with Reported _ => true | _ => false end.

Definition reports (l : list event) : nat := length (filter is_report l).

(** Starting to read a scenario, or to run one. *)
Definition is_attempt (e : event) : bool :=
  match e with Loading _ | Began => true | _ => false end.

(** Something of the scenario happens. *)
Definition is_play (e : event) : bool :=
  match e with InitActions | Controllers | Evaluated | Advanced => true | _ => false end.

(** The verdicts of a history, oldest first, each with the scenario most recently loaded. *)
Fixpoint filed (here : path) (l : list event) : list (path * verdict) :=
  match l with
  | [] => []
  | Loading p :: r => filed p r
  | Reported v :: r => (here, v) :: filed here r
  | _ :: r => filed here r
  end.

Definition failures_of (suite case : string) (l : list (path * verdict)) : list (string * string) :=
  flat_map (fun pv =>
    match snd pv with
    | Failure t m =>
        if String.eqb (p_suite (fst pv)) suite && String.eqb (p_case (fst pv)) case
        then [(t, m)] else []
    | _ => []
    end) l.

Definition errors_of (suite case : string) (l : list (path * verdict)) : list (string * string) :=
  flat_map (fun pv =>
    match snd pv with
    | Error t m =>
        if String.eqb (p_suite (fst pv)) suite && String.eqb (p_case (fst pv)) case
        then [(t, m)] else []
    | _ => []
    end) l.

Definition is_failure (v : verdict) : bool := match v with Failure _ _ => true | _ => false end.
Definition is_error (v : verdict) : bool := match v with Error _ _ => true | _ => false end.

(** What a reader finds in the document for a suite and a case; [None] when it is not listed. *)
Definition look_up (d : document) (suite case : string)
  : option (list (string * string) * list (string * string)) :=
  match find (fun s => String.eqb (sn_name s) suite) (d_suites d) with
  | None => None
  | Some s =>
      match find (fun c => String.eqb (cn_name c) case) (sn_cases s) with
      | None => None
      | Some c => Some (cn_failures c, cn_errors c)
      end
  end.

(** The check the test runner ships: no case holds a failure or an error
    (scenario_test_runner/result_checker.py 43-70, without the recorded bags). *)
Definition accepted (d : document) : bool :=
  forallb (fun s => forallb (fun c => match cn_failures c, cn_errors c with
                                      | [], [] => true | _, _ => false end) (sn_cases s))
          (d_suites d).

(** ** Kinds of history *)

(** Nothing that tears the simulator down raises. *)
Definition calm (r : request) : Prop :=
  match r with
  | Activate _ t | Frame _ t | Deactivate t | Shutdown t => te_first t = None
  | _ => True
  end.

(** Shutting down does not raise. *)
Definition shuts_calmly (r : request) : Prop :=
  match r with Shutdown t => te_first t = None | _ => True end.

(** The recorder, when started, starts as a process of its own. *)
Definition records_well (r : request) : Prop :=
  match r with
  | Activate v _ => exists pid, se_recorder v = Launched pid /\ (pid > 0)%Z
  | _ => True
  end.
