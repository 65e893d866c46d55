(** * Model of the interpreter node: its lifecycle, its verdicts and its report

    Models [openscenario_interpreter/src/openscenario_interpreter.cpp] and its header,
    [simulator_core.hpp] 42-70, [record.hpp] and [record.cpp], and
    [common/simple_junit/include/simple_junit/junit5.hpp].

    What the rest of the system does while a callback runs (reading the scenario file, building
    the traffic simulator, advancing it, evaluating the storyboard, tearing everything down,
    starting the recorder) is an input: the environment of each request says what raised what.
    The callbacks run on a single-threaded executor, so requests are handled one at a time. *)

From Coq Require Import String Bool Arith ZArith List.
Import ListNotations.
Open Scope list_scope.

(** ** What can be thrown
    Models the catch clauses of [withExceptionHandler], openscenario_interpreter.hpp 154-204, and
    the classes of scenario_simulator_exception/exception.hpp 26-53. [Violation] is
    [SpecificationViolation], [Plain] any other [std::exception] and [Alien] anything else. *)
Inductive exn : Set :=
| ExitSuccess
| ExitFailure (m : string)
| Autoware (m : string)
| Semantic (m : string)
| Simulation (m : string)
| Syntax (m : string)
| Violation (m : string)
| Plain (m : string)
| Alien.

(** Models [common::junit::Pass], [Failure] and [Error], junit5.hpp 33-112. *)
Inductive verdict : Set :=
| Pass
| Failure (type message : string)
| Error (type message : string).

(** Models which verdict each catch clause sets, openscenario_interpreter.hpp 161-203.  The
    clauses are tried in the order written; [SpecificationViolation] has none of its own. *)
Definition caught (e : exn) : verdict :=
  match e with
  | ExitSuccess => Pass
  | ExitFailure m => Failure "SimulationFailure" m
  | Autoware m => Error "AutowareError" m
  | Semantic m => Error "SemanticError" m
  | Simulation m => Error "SimulationError" m
  | Syntax m => Error "SyntaxError" m
  | Violation m => Error "InternalError" m
  | Plain m => Error "InternalError" m
  | Alien => Error "UnknownError" "An unknown exception has occurred"
  end.

(** ** The report *)

(** Models [SimpleTestCase], junit5.hpp 180-204, without the attributes that are never set. *)
Record test_case : Set := Case {
  case_name : string;
  case_pass : nat;
  case_error : list (string * string);
  case_failure : list (string * string) }.

(** Models [SimpleTestSuite], junit5.hpp 270-293.  The unordered map is a list in order of
    insertion; the order in which C++ would list the cases is unspecified. *)
Record test_suite : Set := Suite { suite_name : string; suite_cases : list test_case }.

(** Models [SimpleTestSuites], junit5.hpp 335-349. *)
Record test_suites : Set := Suites { suites_name : string; suites : list test_suite }.

(** Models [push_back] on one test case, openscenario_interpreter.hpp 138-146. *)
Definition push (v : verdict) (c : test_case) : test_case :=
  match v with
  | Pass => Case (case_name c) (S (case_pass c)) (case_error c) (case_failure c)
  | Failure t m => Case (case_name c) (case_pass c) (case_error c) (case_failure c ++ [(t, m)])
  | Error t m => Case (case_name c) (case_pass c) (case_error c ++ [(t, m)]) (case_failure c)
  end.

(** Models [testcase(name)] followed by [f], junit5.hpp 285-293: the case is made when absent. *)
Fixpoint at_case (n : string) (f : test_case -> test_case) (l : list test_case) :=
  match l with
  | [] => [f (Case n 0 [] [])]
  | c :: r => if String.eqb (case_name c) n then f c :: r else c :: at_case n f r
  end.

(** Models [testsuite(name)] followed by an update of its cases, junit5.hpp 341-349. *)
Fixpoint at_suite (n : string) (f : list test_case -> list test_case) (l : list test_suite) :=
  match l with
  | [] => [Suite n (f [])]
  | s :: r =>
      if String.eqb (suite_name s) n then Suite n (f (suite_cases s)) :: r
      else s :: at_suite n f r
  end.

(** The element written for one test case, junit5.hpp 206-243: a pass leaves no child. *)
Record case_node : Set := CaseNode {
  cn_name : string;
  cn_errors : list (string * string);
  cn_failures : list (string * string) }.

Record suite_node : Set := SuiteNode {
  sn_name : string;
  sn_cases : list case_node;
  sn_failures : nat;
  sn_errors : nat;
  sn_tests : nat }.

Record document : Set := Document {
  d_name : string;
  d_suites : list suite_node;
  d_failures : nat;
  d_errors : nat;
  d_tests : nat }.

Definition write_case (c : test_case) : case_node :=
  CaseNode (case_name c) (case_error c) (case_failure c).

Fixpoint sum (l : list nat) : nat := match l with [] => 0 | x :: r => x + sum r end.

(** Models [operator<<] for a suite, junit5.hpp 295-316. *)
Definition write_suite (s : test_suite) : suite_node :=
  let failures := sum (map (fun c => length (case_failure c)) (suite_cases s)) in
  let errors := sum (map (fun c => length (case_error c)) (suite_cases s)) in
  let pass := sum (map case_pass (suite_cases s)) in
  SuiteNode (suite_name s) (map write_case (suite_cases s)) failures errors
            (pass + failures + errors).

(** Models [operator<<] for all suites, junit5.hpp 351-378. *)
Definition write_suites (r : test_suites) : document :=
  let over f := sum (map (fun s => sum (map f (suite_cases s))) (suites r)) in
  let failures := over (fun c => length (case_failure c)) in
  let errors := over (fun c => length (case_error c)) in
  let pass := over case_pass in
  Document (suites_name r) (map write_suite (suites r)) failures errors (failures + errors + pass).

(** ** The node *)

(** The parts of [osc_path] the report uses, openscenario_interpreter.hpp 130-134: the directory
    two levels up, the name of the directory, the stem of the file.  Simplified: the path is given
    by these parts. *)
Record path : Set := Path { p_root : string; p_suite : string; p_case : string }.

(** The primary states of a managed node. *)
Inductive phase : Set := Unconfigured | Inactive | Active | Finalized.

(** What can be observed from outside, in order. *)
Inductive event : Set :=
| Loading (p : path)           (* the scenario file named by the parameters is about to be read *)
| Began                        (* an activation was accepted *)
| CoreUp | CoreDown            (* the traffic simulator exists / is gone *)
| InitActions                  (* the instantaneous init actions are evaluated *)
| Controllers                  (* the remaining controllers are activated *)
| Evaluated                    (* the storyboard is evaluated *)
| Advanced                     (* the traffic simulator advances one frame *)
| Published                    (* the context is published *)
| Reported (v : verdict)       (* a verdict is recorded and the report is written *)
| RecorderUp (pid : Z) | RecorderDown (pid : Z).

(** Members of [Interpreter], openscenario_interpreter.hpp 56-93, the static members of
    [SimulatorCore] (simulator_core.hpp 44) and [record] (record.cpp 26), the parameters of the
    node, and the files written.  [recorders] are the recorder processes still running. *)
Record node : Set := Node {
  ph : phase;
  par_path : path;              (* the node's parameters *)
  par_out : string;
  par_record : bool;
  osc_path : path;              (* the members read from them *)
  out_dir : string;
  rec_flag : bool;
  script : bool;                (* [script] is not null *)
  scenarios : nat;              (* length of [scenarios] *)
  timer : bool;
  context_pub : bool;           (* [publisher_of_context->is_activated()] *)
  core : bool;                  (* [SimulatorCore::active()] *)
  process_id : Z;
  recorders : list Z;
  result : verdict;
  results : test_suites;
  files : list (string * document);   (* newest first *)
  trace : list event                   (* newest first *) }.

Definition set_ph (x : phase) (s : node) : node :=
  Node x (par_path s) (par_out s) (par_record s) (osc_path s) (out_dir s) (rec_flag s) (script s)
       (scenarios s) (timer s) (context_pub s) (core s) (process_id s) (recorders s) (result s)
       (results s) (files s) (trace s).
Definition set_members (p : path) (o : string) (r : bool) (s : node) : node :=
  Node (ph s) (par_path s) (par_out s) (par_record s) p o r (script s)
       (scenarios s) (timer s) (context_pub s) (core s) (process_id s) (recorders s) (result s)
       (results s) (files s) (trace s).
Definition set_script (x : bool) (s : node) : node :=
  Node (ph s) (par_path s) (par_out s) (par_record s) (osc_path s) (out_dir s) (rec_flag s) x
       (scenarios s) (timer s) (context_pub s) (core s) (process_id s) (recorders s) (result s)
       (results s) (files s) (trace s).
Definition set_scenarios (x : nat) (s : node) : node :=
  Node (ph s) (par_path s) (par_out s) (par_record s) (osc_path s) (out_dir s) (rec_flag s)
       (script s) x (timer s) (context_pub s) (core s) (process_id s) (recorders s) (result s)
       (results s) (files s) (trace s).
Definition set_timer (x : bool) (s : node) : node :=
  Node (ph s) (par_path s) (par_out s) (par_record s) (osc_path s) (out_dir s) (rec_flag s)
       (script s) (scenarios s) x (context_pub s) (core s) (process_id s) (recorders s) (result s)
       (results s) (files s) (trace s).
Definition set_pub (x : bool) (s : node) : node :=
  Node (ph s) (par_path s) (par_out s) (par_record s) (osc_path s) (out_dir s) (rec_flag s)
       (script s) (scenarios s) (timer s) x (core s) (process_id s) (recorders s) (result s)
       (results s) (files s) (trace s).
Definition set_core (x : bool) (s : node) : node :=
  Node (ph s) (par_path s) (par_out s) (par_record s) (osc_path s) (out_dir s) (rec_flag s)
       (script s) (scenarios s) (timer s) (context_pub s) x (process_id s) (recorders s) (result s)
       (results s) (files s) (trace s).
Definition set_process (x : Z) (l : list Z) (s : node) : node :=
  Node (ph s) (par_path s) (par_out s) (par_record s) (osc_path s) (out_dir s) (rec_flag s)
       (script s) (scenarios s) (timer s) (context_pub s) (core s) x l (result s)
       (results s) (files s) (trace s).
Definition set_result (x : verdict) (s : node) : node :=
  Node (ph s) (par_path s) (par_out s) (par_record s) (osc_path s) (out_dir s) (rec_flag s)
       (script s) (scenarios s) (timer s) (context_pub s) (core s) (process_id s) (recorders s) x
       (results s) (files s) (trace s).
Definition set_report (r : test_suites) (f : list (string * document)) (s : node) : node :=
  Node (ph s) (par_path s) (par_out s) (par_record s) (osc_path s) (out_dir s) (rec_flag s)
       (script s) (scenarios s) (timer s) (context_pub s) (core s) (process_id s) (recorders s)
       (result s) r f (trace s).
Definition set_params (p : path) (o : string) (r : bool) (s : node) : node :=
  Node (ph s) p o r (osc_path s) (out_dir s) (rec_flag s)
       (script s) (scenarios s) (timer s) (context_pub s) (core s) (process_id s) (recorders s)
       (result s) (results s) (files s) (trace s).
Definition emit (e : event) (s : node) : node :=
  Node (ph s) (par_path s) (par_out s) (par_record s) (osc_path s) (out_dir s) (rec_flag s)
       (script s) (scenarios s) (timer s) (context_pub s) (core s) (process_id s) (recorders s)
       (result s) (results s) (files s) (e :: trace s).

(** How a piece of C++ can end.  [Stops] ends the process: deliberately, by signalling every
    process, or in undefined behaviour. *)
Inductive stop : Set :=
| ExitsProcess        (* [std::exit(EXIT_FAILURE)], record.cpp 41 *)
| SignalsEverybody    (* [kill(-1, SIGINT)], record.cpp 40 *)
| PopsEmptyList       (* [scenarios.pop_front()] on an empty list *)
| DerefsNull.         (* [*script], [core->] or [scenarios.front()] of nothing *)

Inductive ending (A : Type) : Type :=
| Fine (s : node) (x : A)
| Raises (s : node) (e : exn)
| Stops (s : node) (w : stop).
Arguments Fine {A}. Arguments Raises {A}. Arguments Stops {A}.

Definition andthen {A B} (m : ending A) (f : node -> A -> ending B) : ending B :=
  match m with
  | Fine s x => f s x
  | Raises s e => Raises s e
  | Stops s w => Stops s w
  end.

(** A piece of code outside the model that either returns or raises. *)
Definition outside (o : option exn) (s : node) : ending unit :=
  match o with None => Fine s tt | Some e => Raises s e end.

(** Models [set<T>(...)], openscenario_interpreter.hpp 125-152.  Not modelled: the execution time
    file, and a report that cannot be written ([save_file] ignores that). *)
Definition report (v : verdict) (s : node) : node :=
  let s := set_result v s in
  let r := Suites (p_root (osc_path s))
             (at_suite (p_suite (osc_path s)) (at_case (p_case (osc_path s)) (push v))
                       (suites (results s))) in
  emit (Reported v) (set_report r ((out_dir s, write_suites r) :: files s) s).

(** Models [withExceptionHandler], openscenario_interpreter.hpp 154-204: what a catch clause
    returns is what [handle] returns, and what [handle] raises escapes. *)
Definition with_handler {A} (handle : node -> ending A) (m : ending A) : ending A :=
  match m with
  | Raises s e => handle (report (caught e) s)
  | _ => m
  end.

(** Models [publishCurrentContext], openscenario_interpreter.cpp 330-346.  A lifecycle publisher
    that is not activated drops the message.  Simplified: [publish_empty_context] is false, so
    [*script] is read. *)
Definition publish (s : node) : ending unit :=
  if script s then Fine (if context_pub s then emit Published s else s) tt
  else Stops s DerefsNull.

(** Models [SimulatorCore::deactivate], simulator_core.hpp 61-68; what despawning the entities
    raises leaves the simulator in place. *)
Definition core_deactivate (o : option exn) (s : node) : ending unit :=
  if core s then
    match o with
    | Some e => Raises s e
    | None => Fine (emit CoreDown (set_core false s)) tt
    end
  else Fine s tt.

(** Models [record::stop], record.cpp 28-45.  Signalling a process that is gone fails; the process
    id is not cleared. *)
Definition record_stop (s : node) : ending unit :=
  if (process_id s =? 0)%Z then Fine s tt
  else if (process_id s =? -1)%Z then Stops s SignalsEverybody
  else if existsb (Z.eqb (process_id s)) (recorders s) then
    Fine (emit (RecorderDown (process_id s))
            (set_process (process_id s)
               (filter (fun p => negb (p =? process_id s)%Z) (recorders s)) s)) tt
  else Stops s ExitsProcess.

(** Models [reset], openscenario_interpreter.cpp 348-396. *)
Definition reset (o : option exn) (s : node) : ending unit :=
  let s := set_timer false s in
  let s := set_pub false s in
  andthen (core_deactivate o s) (fun s _ =>
    match scenarios s with
    | 0 => Stops s PopsEmptyList
    | S n =>
        let s := set_scenarios n s in
        if rec_flag s then record_stop s else Fine s tt
    end).

(** How starting the recorder ends, record.hpp 40-67: finding the program raises, [fork] fails,
    or a process is started. *)
Inductive launch : Set := NoProgram (e : exn) | ForkFails | Launched (pid : Z).

(** Models [record::start], record.hpp 40-67. *)
Definition record_start (l : launch) (s : node) : ending unit :=
  match l with
  | NoProgram e => Raises s e
  | ForkFails => Raises (set_process (-1)%Z (recorders s) s) (Plain "fork")
  | Launched pid => Fine (emit (RecorderUp pid) (set_process pid (pid :: recorders s) s)) tt
  end.

(** What happens outside during one request. *)
Inductive category : Set := IsScenario | IsDistribution | IsOther.

Record load_env : Set := LoadEnv {
  le_read : exn + category;            (* reading the file, and what it contains *)
  le_threshold : option exn }.         (* reading the other parameters *)

Record start_env : Set := StartEnv {
  se_recorder : launch;
  se_configuration : option exn;       (* [makeCurrentConfiguration] *)
  se_construct : option exn;           (* constructing the traffic simulator *)
  se_update : option exn;              (* its first frame *)
  se_init : option exn;                (* the init actions *)
  se_engage : option exn }.            (* engaging Autoware *)

Record frame_env : Set := FrameEnv {
  fe_unknown_time : bool;              (* [isnan(evaluateSimulationTime())] *)
  fe_engaged : bool;                   (* every Autoware is engaged *)
  fe_controllers : option exn;
  fe_evaluate : option exn;
  fe_update : option exn }.

(** What tearing the simulator down raises, the first time it is tried and the second. *)
Record tear_env : Set := TearEnv { te_first : option exn; te_second : option exn }.

Inductive answer : Set := SUCCESS | FAILURE.

(** Models [on_configure], openscenario_interpreter.cpp 99-151. *)
Definition on_configure (v : load_env) (s : node) : ending answer :=
  with_handler (fun s => Fine s FAILURE)
    (let s := set_result
                (Failure "Timeout"
                   "The simulation time has exceeded the time specified by the scenario_test_runner.")
                s in
     let s := set_members (par_path s) (par_out s) (par_record s) s in
     let s := emit (Loading (osc_path s)) s in
     match le_read v with
     | inl e => Raises s e
     | inr c =>
         let s := set_script true s in
         andthen (outside (le_threshold v) s) (fun s _ =>
           match c with
           | IsScenario => Fine (set_scenarios 1 s) SUCCESS
           | IsDistribution =>
               Raises s (Plain "ParameterValueDistribution cannot be processed by openscenario_interpreter alone. Give a preprocessed scenario using openscenario_preprocessor together")
           | IsOther =>
               Raises s (Syntax "Unsupported member of OpenScenarioCategory group is defined in the scenario file")
           end)
     end).

(** Models [SimulatorCore::activate], simulator_core.hpp 47-57. *)
Definition core_activate (o : option exn) (s : node) : ending unit :=
  if core s then Raises s (Plain "The simulator core has already been instantiated.")
  else andthen (outside o s) (fun s _ => Fine (emit CoreUp (set_core true s)) tt).

(** Models [SimulatorCore::update], simulator_core.hpp 70. *)
Definition core_update (o : option exn) (s : node) : ending unit :=
  if core s then andthen (outside o s) (fun s _ => Fine (emit Advanced s) tt)
  else Stops s DerefsNull.

(** Models [on_activate], openscenario_interpreter.cpp 224-296.  Not modelled: that engaging
    concerns only entities driven by Autoware. *)
Definition on_activate (v : start_env) (t : option exn) (s : node) : ending answer :=
  match scenarios s with
  | 0 => Fine s FAILURE
  | S _ =>
      with_handler
        (fun s =>
           andthen (publish s) (fun s _ =>
           andthen (reset t s) (fun s _ => Fine s FAILURE)))
        (let s := emit Began s in
         andthen (if rec_flag s then record_start (se_recorder v) s else Fine s tt) (fun s _ =>
         andthen (outside (se_configuration v) s) (fun s _ =>
         andthen (core_activate (se_construct v) s) (fun s _ =>
         andthen (core_update (se_update v) s) (fun s _ =>
         let s := set_pub true s in
         let s := emit InitActions s in
         andthen (outside (se_init v) s) (fun s _ =>
         andthen (outside (se_engage v) s) (fun s _ =>
         Fine (set_timer true s) SUCCESS)))))))
  end.

(** Models [on_deactivate] and [on_error], openscenario_interpreter.cpp 299-304 and 313-318. *)
Definition on_deactivate (t : option exn) (s : node) : ending answer :=
  andthen (reset t s) (fun s _ => Fine s SUCCESS).

Definition on_error (t : option exn) (s : node) : ending answer :=
  andthen (reset t s) (fun s _ => Fine s SUCCESS).

(** Models [on_cleanup], openscenario_interpreter.cpp 306-311. *)
Definition on_cleanup (s : node) : ending answer :=
  Fine (set_script false (set_scenarios 0 s)) SUCCESS.

(** Models [on_shutdown], openscenario_interpreter.cpp 320-328. *)
Definition on_shutdown (t : option exn) (s : node) : ending answer :=
  let s := set_timer false s in
  let s := set_scenarios 0 s in
  let s := set_script false s in
  andthen (core_deactivate t s) (fun s _ => Fine s SUCCESS).

(** What the lifecycle framework does with a callback's answer (ROS 2 managed nodes; not in the
    repository): success and failure lead to the two given states, an exception to error
    processing, whose success leads to [Unconfigured] and whose failure or exception to
    [Finalized]. *)
Definition transition (good bad : phase) (t : option exn) (m : ending answer) : ending unit :=
  match m with
  | Fine s SUCCESS => Fine (set_ph good s) tt
  | Fine s FAILURE => Fine (set_ph bad s) tt
  | Raises s _ =>
      match on_error t s with
      | Fine s SUCCESS => Fine (set_ph Unconfigured s) tt
      | Fine s FAILURE | Raises s _ => Fine (set_ph Finalized s) tt
      | Stops s w => Stops s w
      end
  | Stops s w => Stops s w
  end.

Definition deactivate (t : tear_env) (s : node) : ending unit :=
  match ph s with
  | Active => transition Inactive Active (te_second t) (on_deactivate (te_first t) s)
  | _ => Fine s tt
  end.

(** Models the body of the timer's callback, openscenario_interpreter.cpp 155-222.
    Not modelled: publishing the execution times and the warning about slow frames. *)
Definition evaluate_storyboard (v : frame_env) (t : tear_env) (s : node) : ending unit :=
  with_handler
    (fun s => andthen (publish s) (fun s _ => deactivate t s))
    (andthen
       (match scenarios s with
        | 0 => Stops s DerefsNull
        | S _ =>
            if fe_unknown_time v then
              if fe_engaged v then
                andthen (outside (fe_controllers v) s) (fun s _ => Fine (emit Controllers s) tt)
              else Fine s tt
            else outside (fe_evaluate v) (emit Evaluated s)
        end)
       (fun s _ => andthen (core_update (fe_update v) s) (fun s _ => publish s))).

(** The requests a node receives. *)
Inductive request : Set :=
| SetParameters (p : path) (o : string) (r : bool)
| Configure (v : load_env)
| Activate (v : start_env) (t : tear_env)
| Frame (v : frame_env) (t : tear_env)      (* the timer fires *)
| Deactivate (t : tear_env)
| Cleanup
| Shutdown (t : tear_env).

(** A transition that does not exist from the current state is refused. *)
Definition handle (r : request) (s : node) : ending unit :=
  match r, ph s with
  | SetParameters p o b, _ => Fine (set_params p o b s) tt
  | Configure v, Unconfigured => transition Inactive Unconfigured None (on_configure v s)
  | Activate v t, Inactive =>
      transition Active Inactive (te_second t) (on_activate v (te_first t) s)
  | Frame v t, _ => if timer s then evaluate_storyboard v t s else Fine s tt
  | Deactivate t, _ => deactivate t s
  | Cleanup, Inactive => transition Unconfigured Inactive None (on_cleanup s)
  | Shutdown t, Finalized => Fine s tt
  | Shutdown t, _ => transition Finalized (ph s) (te_second t) (on_shutdown (te_first t) s)
  | _, _ => Fine s tt
  end.

(** The node as constructed, openscenario_interpreter.cpp 38-68. *)
Definition fresh : node :=
  Node Unconfigured (Path "" "" "") "/tmp" false (Path "" "" "") "/tmp" false false 0 false false
       false 0%Z [] Pass (Suites "" []) [] [].

(** A whole history, ending early when the process does. *)
Fixpoint serve (rs : list request) (s : node) : ending unit :=
  match rs with
  | [] => Fine s tt
  | r :: rest => andthen (handle r s) (fun s _ => serve rest s)
  end.

Definition node_of {A} (m : ending A) : node :=
  match m with Fine s _ => s | Raises s _ => s | Stops s _ => s end.
