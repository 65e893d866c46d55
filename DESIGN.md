# Formal model of scenario_simulator_v2 in Rocq (Coq 8.16.1)

## 1. Approach

* `M_*.v`: the executable Gallina model of one area.  Every definition cites the file and
  lines of `/repo` it models and says what it simplifies.
* `S_*.v`: a small specification written without the model's helpers, where the statement
  of a property needs notions of its own.
* `P_*.v`: lemmas and proofs.
* `T_*.v`: the property theorems, `Example`s showing that their hypotheses are met by a
  concrete, non-trivial case, and `Print Assumptions`.
* Names: `Cnn_...` is a theorem for property Cnn.  `..._refuted` means that an obvious
  reading of the property is false of the code; the theorem gives the witness, and the
  property's statement in `properties.jsonl` says so.  `..._partial` means that only part is
  proved (there is none at present).
* C++ undefined behaviour, exceptions, non-termination and process exits are explicit
  outcomes of the models, never silently totalised.
* What the code asks of the outside world (condition values, action progress, the lanelet
  map, route search, teardown failures) is an arbitrary function, oracle or list of events
  quantified over in the theorems.
* Recursion the code does not bound is modelled with fuel and an explicit out-of-fuel outcome;
  the theorems either hold for every fuel, prove that a computable fuel suffices, or prove
  that none does.
* Numbers: `double` is modelled by exact rationals `Q`, integers `Z` where only order and
  addition matter, an abstract record of operations where the operations themselves do not
  matter (parameters, expressions), or reals `R` (C31 only).  Rounding, NaN and infinities
  are outside the model unless a definition says otherwise.

Every theorem was tested against wrong programs: a definition of a model is edited as a
realistic bug would, everything is rebuilt in a scratch copy, and the theorems that no
longer prove are recorded in `seeded/LOG.jsonl`.  Where the English claim had become false
and nothing failed, a theorem was added or tightened (`tightened`).

## 2. Trusted base

* Coq's kernel, and `coqc`'s elaboration of the statements.
* The reading of the C++ sources as Gallina: no code is run or extracted; the citations in
  the model's comments are what a reviewer must compare.
* The axioms listed in section 6 for each theorem: none for most; the theorems over the real
  numbers (C31 and those about trajectories and geometry) use the standard library's axioms of
  the classical reals, and some of them `Classical_Prop.classic`.  No axioms are added, no kernel
  check is switched off, and there are no functors or module types.

## 3. Models and properties

| model | properties | what is modelled | how proved |
|---|---|---|---|
| `M_Storyboard` | C01-C09, C67, C68 | the storyboard tree (story, act, maneuver group, maneuver, event, action), its states, `evaluate`, `stop`, `override`, execution counts, priorities, transitions and their callbacks; trigger answers and action progress come from an oracle | invariants over every tree, oracle and number of frames; a fuel bound for termination; refutations on concrete trees |
| `M_Condition` | C10-C15 | condition groups, triggers, edges, delays and their history, rules, triggering entities, stand still, state conditions | refinement of the pruned history to the whole history; induction over evaluation lists and interleavings |
| `M_Scope` | C16-C18 | names, prefixes, environments and their lookup, building of scopes | induction over strings and the frame tree |
| `M_Signal` | C19-C23, C47, C48 | traffic signal controllers, phases, delays and references, cycle time, circular iterator, observers | invariants over evaluation schedules |
| `M_Parameter` | C24, C49-C52 | declaration, types, constraints, set and modify actions, parameter conditions | induction over declarations and actions; abstract double arithmetic |
| `M_Preprocessor` | C25, C53 | the preprocessor's queue, its services and deploying of derived scenarios | refinement to a FIFO queue over all histories |
| `M_Job` | C26, C27 | job lists | induction over append/update histories |
| `M_SpeedRequest` | C28, C54, C55, C69 | speed change requests of entities: absolute, relative, step, continuous, constraints; their jobs and clean-ups | simulation of the job list; case analysis over requests and frames |
| `M_SpeedPlan` | C29, C30, C64 | the longitudinal planner with jerk, acceleration and speed limits; one frame of motion | algebra over Q, monotone measures; refutations |
| `M_TimePlan` | C31 | the planner's search for constraints reaching a speed in a given time | algebra over R |
| `M_TrafficLight` | C32-C36, C61-C63 | bulbs and their names, states as text, lights, conventional, detected and V2I channels, expected states and times | induction over texts and operation lists |
| `M_Lane` | C37-C42, C65, C66 | lanelet poses, canonicalisation, along-lane moves, alternatives, following and previous lanelets, route planner, longitudinal and lateral distances over lane changes; road graph, widths and route search are arbitrary functions | induction over walks; bookkeeping of lengths; soundness and completeness of the search for alternatives |
| `M_World` | C43, C46, C57, C58 | spawning, despawning, the simulator's copy, attaching sensors, sinks, failing requests | invariants over operation lists |
| `M_Clock` | C44, C56 | simulation clock and the steps of `updateFrame` | induction over frames |
| `M_Source` | C45 | traffic sources | induction over frames; non-termination for negative rates |
| `M_Update` | C59 | the order of updates of entities within a frame and what each can see | induction over entity lists |
| `M_Front` | C60 | choice of the front entity | induction over candidate lists |
| `M_Expression` | C70, C71 | the arithmetic expressions of attribute values: tokens, precedence climbing, typed values | parser completeness for every spelling of an expression tree; agreement with a mathematical meaning |
| `M_Attribute` | C72, C73 | `${}`, `$name` and `$(command)` substitution, attribute reading with defaults | induction over texts |
| `M_Interpreter` | C74-C77 | the interpreter node: lifecycle callbacks, failures, verdicts, junit report, recorder, shipped result checker | Hoare-style weakest preconditions per function, invariants over every history of requests |
| `M_StatusMonitor` | C78-C80 | threads' statuses, threshold overrides, the watchdog and the destructor | induction over accesses and schedules |
| `M_Grid` | C81-C84 | the occupancy grid sensor: grid traversal, marking of convex outlines, running sums, the message's origin, the entities drawn; the clipped outlines of the occupied and the invisible area are inputs (their computation with boost and atan2 is not modelled), coordinates are rational | a moving point passes the cells (induction over the traversal), the sums along a row count the outlines over a cell, separating lines of convex polygons |
| `M_Sensors` | C85-C88 | lidar and detection sensors: periods, queues of delayed messages, the choice of entities with the kept plane, the loop over all sensors, noise versions 1 to 3 (not 4); normals, angles, exponentials, random numbers and what rays hit are arbitrary | a queue handed on one per step refines a declarative specification (induction from the end of the history); induction over frames |
| `M_Entities`, `M_EntityCondition` | C89-C96 | entity declarations, selections, triggering entities, adding and deleting; the conditions on speed, acceleration, standstill, distance, time to collision, headway, collision and clearance; lengths, bounding boxes, lane coordinates and overlaps are answers of an arbitrary simulator, numbers are rational or infinite or NaN | an invariant of the entity table by induction over declarations, induction over nested selections, histories of actions; linear and nonlinear arithmetic over Q |
| `M_Concealer` | C97-C106 | the connection with Autoware: task queue and its thread, the ego's requests, services with retries, waits for states and the time limit, destruction, Autoware's state from its topics, cooperation commands, the end of the process; Autoware's answers and states and the interleaving are arbitrary, memory is sequentially consistent | an inductive invariant of the two-thread transition system with a trace log; a relation between the log of the present task and its program; a decreasing measure for termination |
| `M_Behavior` | C107-C117 | behaviour trees of vehicles and pedestrians: the engine's ticks (BehaviorTree.CPP v3: Fallback and Sequence nodes with memory, status change callbacks, as documented), both trees, the reset and current-action events, and all actions' preconditions and decisions; distances to entities, lines, lights and crossing traffic, the speed planner, curves and trajectories are arbitrary functions of the entity | a refinement: every tick of the trees does what an ordered list with one position says, by a compositional lemma per node; then decision tables, uniqueness, and induction over frames |
| `M_FollowControl` | C118-C122 | the controller of polyline trajectories: limits of the acceleration, prediction of stops and arrivals, the choice among candidates, the last frames; numbers are rational, roots are taken only inside `round(sqrt x)`, which is computed exactly; loops have fuel with a distinct outcome | inversion of the computation, linear and nonlinear arithmetic over Q, induction over frames and candidate lists |
| `M_FollowTrajectory` | C123-C130 | following a polyline trajectory frame by frame: passing waypoints with the recursion, arrival times, the last waypoint, the new status; the FollowTrajectoryAction: times, the shared trajectory of selections, completion; distances along lanes, directions and displacements are an arbitrary `world`, NaN checks are left out | every frame refines an inductive list of passed waypoints followed by one ending; induction over frames; a bound on the recursion depth |
| `M_Segment` | C131-C134 | segments of the plane: crossing, intersection points, positions along a segment, cutting of polylines; numbers are real, the code's rounding constant is kept, rounding itself is left out | algebra over R; separation by signed areas |
| `M_Solver` | C135, C136 | the polynomial solver up to degree three with its tolerance and range filter; numbers are real, NaN is a separate value | Vieta's formulas for the trigonometric case, factorisation for the radical one |
| `M_Spline` | C137-C145 | Hermite curves and Catmull-Rom splines: construction, points, tangents, lengths (the code's sum of hundred terms), collisions with polygons, parts, sampled trajectories, altitudes; numbers are real | gluing of continuous pieces; the solver's theorems; induction over the curves, the edges and the steps |
| `M_Vehicle` | C146-C152 | the eight vehicle models of the ego entity: state, derivatives, Runge-Kutta and Euler steps, delays, gears, limits, reported values; the acceleration map; numbers are real | refinement of the delayed model to the undelayed one; invariants over steps; Runge-Kutta steps bounded stage by stage |
| `M_Ego` | C153-C154 | the simulation around the vehicle model: initial pose, overwriting, updating, reported status; the height of the matched lane and the relative yaw are arbitrary inputs | rotation matrices of unit quaternions are orthogonal; induction over frames |
| `M_Box` | C155-C157 | bounding boxes seen from above: corners, polygons, projection to a segment, the search for the nearest points, relative positions; numbers are real; boost's disjoint is an input asked to be right | leaving a square on a straight way; two segments that do not meet are nearest at an end; the fold keeps the first minimum |
| `M_Reader` | C158-C160 | reading of XML elements: repeated and single elements, groups, choices, parameter distributions; constructors are functions from nodes to results; the scope and attributes are left out | induction on the children; the specification of children by position and name |
| `M_Obstacle` | C161-C166 | distances to stop lines, stop lines of traffic lights, places to give way, entities along and across lanes, boxes and splines, conflicts; numbers are real; crossings, routes and distances along lanes are inputs | the least element kept by a fold; bisection of a parabola; induction on routes |
| `M_Publish` | C167-C171 | the publication of traffic lights: the message to the sensor simulator with its 32-bit ids, the message formats, the detector and its overrides, the choice of a format by name | induction on lists of lights and relations; refutations by witness |
| `M_Conversion` | C172-C174 | the conversions between ROS and Protobuf messages for entity statuses, parameters, trajectories, gears and control commands; numbers are integers standing for values that Protobuf transports unchanged | record by record, against a relation that pairs the fields; induction on vertices |
| `M_Status` | C175-C178 | the status of an entity with its lane, how it is set, teleporting and adding; the map is a parameter, orientations are rotations about the vertical | induction on calls; refutations on a straight road |
| `M_Npc` | C179-C182 | the jobs of every frame of an entity (M_Job): travelled distance, standing still, range checks, synchronizing; what the behaviour does is a parameter | an invariant of the job list for all histories; refutations by computation |
| `M_Reset` | C183 | resetting the behaviour of an entity, with the memory its status is in | the freed cell is read; a variant with a copy for what is meant |
| `M_Route` | C184-C190 | requests for routes to every kind of entity and by the actions of a scenario, the tasks handed to Autoware, frames of an ego that follows a trajectory, respawning; the road graph and the matching of poses to lanelets are parameters; statuses are those of M_Status | induction over routes, actors, requests and frames; refutations by witness |
| `M_Action` | C191-C195 | start, run and accomplished of SpeedAction, SpeedProfileAction, LaneChangeAction, DummyLongRunningAction and InitActions, with the calls to the simulator they make; what the simulator reports in each frame is arbitrary | a generic lemma on tables of accomplishments by induction over frames; subsequences for profiles; permutations for Init |
| `M_LaneChange` | C196-C198 | lane change requests by direction, lane and relative lane, the counting of lane changes along a route and the choice of the curve; the road graph and the geometry of the curves are arbitrary | reachability by induction on the number of lanes; an inductive count along routes; the first minimum of a filtered list |
| `M_Cache` | C199-C200 | the active map and its caches: sequences of activations and questions, and the steps (look up, compute, lock, store, read) of threads that ask at the same time; the computed answers are an arbitrary partial function | an invariant of the caches by induction on histories; an invariant of threads and table by induction on schedules |
| `M_Match` | C201-C206 | the matching of poses to lanes by route, box and position, the lanelets around a position, the choice of a lane to which there is a route, the lanes of pedestrians, the crossing into the next lanelet and the direction of a lane at a point; numbers are reals, projections, distances and lanelet2's matching of boxes are arbitrary | first elements and minima of lists and ordered sets by induction; the geometry of the crossing by trigonometry |
| `M_Orca` | C207-C210 | the choice of a velocity under half-planes, the half-planes of other entities and the ellipses around boxes of the context gamma planner; numbers are reals, z is zero | the incremental linear programs by induction over the lines with a convexity argument; the cone geometry by the Cauchy-Schwarz inequality |
| `M_Goal` | C211-C213 | the goals of pedestrians along lanes and trajectories, their speeds, and the two actions of the tree of the context gamma planner; points are elements of a type seen through distances and whether they are ahead, numbers are rationals or NaN | decompositions of the lists of points by induction; explicit steps of the loop, so that its not ending is a theorem |
| `M_Quaternion` | C214-C216 | the functions on quaternions of the geometry package and what they call in tf2, over exact reals | polynomial identities; trigonometry of half angles and of atan2 |
| `M_Nothing` | C217-C218 | the do-nothing behaviour and the trajectory a FollowTrajectoryAction gives it; numbers are reals or not numbers | decompositions of the list of points; at most one place at a time, so that points are met at their times |
| `M_Displace` | C219 | the fourth noise model's change of a pose, with arbitrary numbers drawn | composition of rotations; the nearest point of the outline is that of C157 |
| `M_LidarNoise` | C220-C224 | the choice of configurations of noise by wildcards and the noise model of point clouds, with arbitrary numbers drawn; patterns with characters of regular expressions other than dots are not modelled | induction over patterns, lists of parameters and histories; an invariant of the two loops over the cloud |
| `M_Imu` | C225-C226 | the message of the inertial measurement unit, over the reals and with arbitrary numbers drawn; the noise that the publisher adds by itself is not modelled | roll, pitch and yaw make the orientation they come from, as a rotation is determined by one column and one row; computation |
| `M_Rays` | C227-C228 | the directions of rays with their cache and the points of a cloud, over the reals; what a ray meets is an arbitrary function in place of Embree | induction over the rounds of the scan and over the rays; an invariant of the cache |
| `M_Random` | C229-C233 | the random test runner: its metrics, the update of a test, the search for parts of lanelets and the making of tests, over the reals and with arbitrary numbers drawn; the map and distances on it are arbitrary functions | invariants of the histories by induction from the end; an invariant of the queue, and a count of its rounds for termination; induction over attempts |
| `M_UserValue` | C234-C236 | user-defined value conditions: the subscriptions with the node they share, and the three patterns of names; what may stand between the brackets of a call is an arbitrary function | an invariant of all histories; induction over names |
| `M_Catalog` | C237-C238 | references to catalogs: the search for the catalog and its entry, and the scopes that parameters of references and entries go to, on the environments of M_Scope; attributes that an entry reads before its declarations are not modelled, nor is the conversion of YAML files | induction over files; the lookup computed in the scope of the entry and the one around it |
| `M_Rate` | C239-C239 | the timer of the publication of traffic lights, its rate and all timers that fire; the clock and the executor are not modelled | induction over histories |

Per property:

| id | property | model | theorems |
|---|---|---|---|
| C01 | Storyboard elements only make lifecycle transitions (proved) | `M_Storyboard` | 8: `transitions_lawful`, `transitions_contiguous`, `run_after_start`, `complete_after_end_or_stop`, `start_needs_trigger`, `stop_needs_reason`, `progress_needs_parent`, `standard_lifecycle_refuted` |
| C02 | Evaluating the storyboard always returns (proved) | `M_Storyboard` | 1: `frame_terminates` |
| C03 | maximumExecutionCount bounds the number of executions (proved) | `M_Storyboard` | 5: `executions_bounded`, `event_executions_bounded`, `end_complete_iff_exhausted`, `child_executions_bounded`, `execution_limit_zero_refuted` |
| C04 | A finished element stays finished (proved) | `M_Storyboard` | 5: `finished_never_executes_again`, `restart_only_by_parent`, `finished_stays_finished_refuted`, `activity_needs_active_ancestors`, `nothing_below_complete` |
| C05 | Stopping a parent stops what is executing below it (proved) | `M_Storyboard` | 7: `stop_reaches_descendants_refuted`, `stop_trigger_completes`, `complete_has_nothing_executing`, `completion_leaves_nothing_executing`, `complete_is_quiet`, `stop_finishes_in_frame`, `nothing_below_complete` |
| C06 | Override priority leaves a single running Event (proved) | `M_Storyboard` | 2: `override_leaves_single_running`, `stop_needs_reason` |
| C07 | Skip priority never starts beside a running sibling (proved) | `M_Storyboard` | 3: `skip_never_beside_running`, `skipped_event_untouched`, `all_skip_at_most_one_running` |
| C08 | A parent's new execution re-executes its children (proved) | `M_Storyboard` | 3: `reexecution_restarts_children`, `children_execute_once_per_execution`, `reexecution_refuted` |
| C09 | Completion flows upward exactly (proved) | `M_Storyboard` | 3: `end_only_when_children_complete`, `running_has_unfinished_child`, `settled_between_frames` |
| C10 | Triggers are ORs of ANDs and never short-circuit (proved) | `M_Condition` | 6: `trigger_evaluates_all_once`, `trigger_updates_each_condition`, `trigger_is_or_of_ands`, `trigger_corner_cases`, `active_group_is_first_true`, `active_group_description_undefined_refuted` |
| C11 | Delayed and edged conditions follow the OpenSCENARIO definition (proved) | `M_Condition` | 3: `condition_follows_definition`, `condition_without_delay`, `sticky_stays` |
| C12 | Each edge is reported exactly once under uniform sampling (proved) | `M_Condition` | 3: `edge_reported_exactly_once`, `edge_reported_once_nonuniform_refuted`, `edge_missed_nonuniform_refuted` |
| C13 | The stored condition history stays bounded (proved) | `M_Condition` | 2: `history_bounded`, `history_bounded_uniform` |
| C14 | StoryboardElementStateCondition sees every visit of the monitored state (proved) | `M_Condition` | 3: `state_condition_sees_every_visit`, `state_condition_is_ever_visited`, `state_condition_only_if_refuted` |
| C15 | Comparison rules are the mathematical relations (proved) | `M_Condition` | 7: `rules_are_the_relations`, `order_rules_complementary`, `equality_rules_complementary`, `equality_rules_cover`, `equality_rules_complementary_refuted`, `triggering_entities_rules`, `entity_condition_meaning` |
| C16 | Qualified names split and print back (proved) | `M_Scope` | 6: `separate_join`, `join_separate`, `relative_reference_roundtrip`, `absolute_iff_leading_separator`, `absolute_reference_parsed`, `parse_undefined_iff_empty` |
| C17 | An unqualified reference resolves to the innermost enclosing definition (proved) | `M_Scope` | 5: `unqualified_reference_resolution`, `scopes_record_the_program`, `own_definition_shadows`, `found_is_visible_definition`, `reference_terminates` |
| C18 | A qualified reference resolves through its qualifier (proved) | `M_Scope` | 5: `qualified_reference_goes_through_qualifier`, `qualified_reference_resolves`, `absolute_reference`, `unknown_qualifier_refuted`, `qualifier_escaped_refuted` |
| C19 | A traffic signal controller cycles through its phases in order (proved) | `M_Signal` | 1: `C19_phases_in_order` |
| C20 | A phase lasts its duration, and at most one frame longer (proved) | `M_Signal` | 3: `C20_phase_lasts`, `C20_drift`, `C20_no_phase_overdue` |
| C21 | A referencing controller starts its cycle 'delay' after the referenced one (proved) | `M_Signal` | 4: `C21_referencing_controller_follows`, `C21_referencing_controller_begins_only_then`, `C21_referencing_controller_follows_refuted`, `C21_never_begins` |
| C22 | cycleTime is the sum of the phase durations (proved) | `M_Signal` | 7: `C22_cycle_time_is_the_sum`, `C22_cycle_time_bounds`, `C22_cycle_time_is_the_sum_refuted`, `C22_unequal_cycles_accepted`, `C22_cycle_time_undefined`, `C22_accepted`, `C22_equal_cycles` |
| C23 | V2I predictions list the next phases in order (proved) | `M_Signal` | 2: `C23_predictions`, `C23_predictions_refuted` |
| C24 | A declared parameter satisfies its constraints (proved) | `M_Parameter` | 3: `C24_declared_values_admissible`, `C24_rejected`, `C24_admissible_accepted` |
| C25 | The preprocessor hands out scenarios first-in first-out (proved) | `M_Preprocessor` | 7: `C25_first_in_first_out`, `C25_after_a_failure`, `C25_first_in_first_out_refuted`, `C25_failing_load_keeps_scenarios_refuted`, `C25_distribution_refuted`, `C25_answers_of_a_queue`, `C25_load_succeeds_iff` |
| C26 | At most one active job per kind (proved) | `M_Job` | 3: `C26_active_iff`, `C26_at_most_one`, `C26_active_is_updated` |
| C27 | A job's cleanup runs exactly once and it never runs again afterwards (proved) | `M_Job` | 2: `C27_cleanup_once`, `C27_elapsed` |
| C28 | The latest speed request determines the target speed (proved) | `M_SpeedRequest` | 6: `C28_latest_request_determines_target`, `C28_immediately_if_idle`, `C28_released_when_reached`, `C28_immediately_refuted`, `C28_current_speed_refuted`, `C28_continuous_time_refuted` |
| C29 | Speed planning never overshoots and respects the limits (proved) | `M_SpeedPlan` | 4: `C29_step`, `C29_full_effort`, `C29_rate_refuted`, `C29_overspeed_refuted` |
| C30 | Repeated speed planning reaches the target (proved) | `M_SpeedPlan` | 6: `C30_reaches_and_stays`, `C30_prediction_terminates`, `C30_stop_distance_terminates`, `C30_target_above_maximum_never_ends`, `C30_no_brakes_never_ends`, `C30_always_terminates_refuted` |
| C31 | Constraints planned for an acceleration in a given time (proved) | `M_TimePlan` | 5: `C31_acceleration_meets_time`, `C31_acceleration_nonneg`, `C31_deceleration_negative`, `C31_nonneg_refuted`, `C31_negative_limit_undefined` |
| C32 | Traffic light states print and parse back (proved) | `M_TrafficLight` | 4: `C32_bulb_round_trip`, `C32_light_round_trip`, `C32_parser_exact`, `C32_states_exact` |
| C33 | Distinct bulbs are never identified (proved) | `M_TrafficLight` | 2: `C33_bulb_identity`, `C33_light_membership` |
| C34 | Setting a light state replaces the previous one (proved) | `M_TrafficLight` | 5: `C34_set_replaces`, `C34_invalid_refused`, `C34_unknown_id`, `C34_reachable`, `C34_invalid_unchanged_refuted` |
| C35 | V2I lights mirror the conventional lights (proved) | `M_TrafficLight` | 5: `C35_enable`, `C35_mirror`, `C35_set_visible`, `C35_history`, `C35_relation_refuted` |
| C36 | Detected-state overrides replace the ground truth (proved) | `M_TrafficLight` | 4: `C36_override`, `C36_overrides_reachable`, `C36_requests_reachable`, `C36_any_id_refuted` |
| C37 | Canonicalised lane poses stay on the road at the same place (proved) | `M_Lane` | 9: `canonicalize_forward`, `canonicalize_backward`, `canonicalize_backward_is_upstream`, `canonicalize_fails`, `canonicalize_finds`, `canonicalize_fails_when`, `canonicalize_terminates`, `canonicalize_keeps`, `canonicalize_idempotent` |
| C38 | Canonicalising along a route keeps the place and the route (proved) | `M_Lane` | 7: `route_canonicalize_forward`, `route_canonicalize_fails`, `route_canonicalize_finds`, `route_canonicalize_terminates`, `route_canonicalize_backward`, `along_route_lands`, `C38_refuted` |
| C39 | Moving along the lane composes (proved) | `M_Lane` | 10: `along_forward_lands`, `along_backward_lands`, `along_fails`, `along_ends`, `along_composes`, `along_composes_both_ways`, `along_can_be_undone`, `along_and_canonicalize_agree`, `C39_refuted`, `along_is_canonicalize_refuted` |
| C40 | Following lanelets form a connected path covering the horizon (proved) | `M_Lane` | 9: `following_covers`, `following_terminates`, `previous_covers`, `previous_terminates`, `following_route_covers`, `following_route_refuses`, `following_route_succeeds`, `broken_route_refuted`, `last_of_route_refuted` |
| C41 | A waypoint queue yields a connected route starting at the entity (proved) | `M_Lane` | 8: `planned_lanelets_are_drivable`, `planner_always_answers`, `waypoints_removed_in_order`, `reached_waypoint_removed`, `new_route_leads_to_waypoint`, `planner_leads_refuted`, `second_waypoint_refuted`, `only_reached_refuted` |
| C42 | Signed longitudinal distance is the shorter way and antisymmetric (proved) | `M_Lane` | 14: `forward_distance_is_travelled`, `distance_over_lane_changes`, `no_route_no_distance`, `driving_the_distance_arrives`, `distance_is_the_shorter_way`, `distance_antisymmetric`, `distance_defined_both_ways`, `distance_on_one_lanelet`, `distances_add_up`, `adjacent_distance_is_closest`, `box_distance_antisymmetric`, `box_distance_gap`, `C42_refuted`, `distance_to_alternatives_refuted` |
| C43 | Entity names are unique and despawned entities disappear (proved) | `M_World` | 3: `C43_entities`, `C43_rejected_spawn`, `C43_rejected_despawn` |
| C44 | Simulation time advances by exactly one step per update (proved) | `M_Clock` | 6: `C44_scenario_time`, `C44_constant_step`, `C44_second_start`, `C44_first_start`, `C44_ros_time`, `C44_ros_time_monotone` |
| C45 | A traffic source spawns at the configured rate (proved) | `M_Source` | 6: `C45_rate`, `C45_names_distinct`, `C45_exception`, `C45_terminates`, `C45_zero_rate`, `C45_negative_rate_never_ends` |
| C46 | A traffic sink removes exactly what reached it (proved) | `M_World` | 1: `C46_sink` |
| C47 | Predictions stay published until the next phase change (proved) | `M_Signal` | 2: `C47_predictions_stay`, `C47_predictions_stay_refuted` |
| C48 | The current phase of a controller (proved) | `M_Signal` | 3: `C48_current_phase_defined`, `C48_current_phase_defined_refuted`, `C48_current_phase` |
| C49 | A condition sees the value an action has set (proved) | `M_Parameter` | 3: `C49_set_then_condition`, `C49_set_changes_nothing_else`, `C49_set_then_condition_refuted` |
| C50 | Modifying a parameter is arithmetic (proved) | `M_Parameter` | 5: `C50_modification`, `C50_unsigned_modification`, `C50_not_numeric_rejected`, `C50_modification_refuted`, `C50_subtraction_undefined` |
| C51 | Parameter actions preserve type and range (proved) | `M_Parameter` | 2: `C51_types_preserved`, `C51_constraints_preserved_refuted` |
| C52 | Numeric literals mean the number they write (proved) | `M_Parameter` | 3: `C52_integer_literals`, `C52_unsigned_literals`, `C52_negative_unsigned_refuted` |
| C53 | Preprocessor parameters override declarations and nothing else (proved) | `M_Preprocessor` | 2: `C53_overrides_applied`, `C53_variants_kept_apart_refuted` |
| C54 | A requested acceleration limits the acceleration until the speed is reached (proved) | `M_SpeedRequest` | 2: `C54_limit_in_force`, `C54_limit_in_force_refuted` |
| C55 | The acceleration limits are the defaults again after a limited speed change (proved) | `M_SpeedRequest` | 2: `C55_limits_reset`, `C55_limits_restored_refuted` |
| C56 | A frame is seen at one time, and the clock moves exactly when the frame succeeds (proved) | `M_Clock` | 3: `C56_frame`, `C56_order`, `C56_succeeds_iff` |
| C57 | The traffic simulator and the environment simulator hold the same entities (proved) | `M_World` | 3: `C57_requests_accepted`, `C57_same_entities`, `C57_same_entities_refuted` |
| C58 | At most one ego exists (proved) | `M_World` | 4: `C58_one_ego`, `C58_one_ego_sensed`, `C58_second_ego_rejected`, `C58_ego_again` |
| C59 | All entities move simultaneously (proved) | `M_Update` | 4: `C59_simultaneous`, `C59_order_irrelevant`, `C59_not_started`, `C59_names_kept` |
| C60 | An NPC's front entity is the closest one ahead (proved) | `M_Front` | 4: `C60_front_entity`, `C60_answer_is_in_front`, `C60_front_entity_refuted`, `C60_order_dependent` |
| C61 | Signal predictions are grouped by time (proved) | `M_TrafficLight` | 1: `C61_predictions` |
| C62 | A state just set is found by the comparison (proved) | `M_TrafficLight` | 3: `C62_compare_after_set`, `C62_compare_after_clear`, `C62_none_refuted` |
| C63 | The stop line to respect is the nearest demanding one (proved) | `M_TrafficLight` | 1: `C63_stop_distance` |
| C64 | The predicted running distance (proved) | `M_SpeedPlan` | 2: `C64_prediction_error`, `C64_stop_distance_too_short` |
| C65 | The alternatives of a lane pose are all the places the same distance along the road (proved) | `M_Lane` | 9: `alternatives_forward`, `alternatives_forward_complete`, `alternatives_backward`, `alternatives_backward_complete`, `alternatives_always_end`, `no_alternative`, `canonical_is_alternative`, `on_lane_alternative`, `alternatives_on_lane_refuted` |
| C66 | The nearest alternative is chosen (proved) | `M_Lane` | 3: `nearest_alternative`, `nearest_alternative_exists`, `unreachable_alternative_refuted` |
| C67 | The answers of triggers and actions take effect at once (proved) | `M_Storyboard` | 3: `answers_take_effect`, `nothing_pending_after_frame`, `exit_only_by_action` |
| C68 | Every frame serves every element that is due (proved) | `M_Storyboard` | 2: `every_frame_serves_everything_due`, `settled_between_frames` |
| C69 | Relative speed requests follow the reference entity (proved) | `M_SpeedRequest` | 10: `C69_relative_target`, `C69_released`, `C69_step`, `C69_unknown_reference`, `C69_continuous_time_refused`, `C69_step_relative_to_itself`, `C69_relative_to_itself_lost`, `C69_linear_time`, `C69_relative_time`, `C69_reference_gone_refuted` |
| C70 | An expression means what its operators say (proved) | `M_Expression` | 4: `C70_terminates`, `C70_expression_means`, `C70_unambiguous`, `C70_mixing_is_an_error` |
| C71 | Integer expressions are exact (proved) | `M_Expression` | 5: `C71_integers_exact`, `C71_overflow_undefined`, `C71_division_is_not_an_integer`, `C71_empty_is_zero`, `C71_parameter_value_refuted` |
| C72 | Substitutions are replaced by their values (proved) | `M_Attribute` | 6: `C72_substituted`, `C72_plain_text_kept`, `C72_unknown_is_an_error`, `C72_one_answer`, `C72_nothing_left`, `C72_refuted` |
| C73 | An attribute is read as what it says (proved) | `M_Attribute` | 9: `C73_missing`, `C73_default_not_used`, `C73_literal`, `C73_reference`, `C73_unknown_reference`, `C73_expression`, `C73_var`, `C73_empty`, `C73_expression_of_reference_refuted` |
| C74 | One verdict per run, and the right one (proved) | `M_Interpreter` | 6: `C74_at_most_one_verdict`, `C74_frame_verdict`, `C74_start_verdict`, `C74_load_verdict`, `C74_timeout_leaves_no_verdict`, `C74_timeout_refuted` |
| C75 | Scenarios play only during their run (proved) | `M_Interpreter` | 5: `C75_plays_only_in_a_run`, `C75_only_while_active`, `C75_simulator_exists_iff_active`, `C75_no_undefined_behaviour`, `C75_refuted` |
| C76 | The report says what was recorded (proved) | `M_Interpreter` | 4: `C76_report`, `C76_suite_totals`, `C76_accepted_iff_all_passed`, `C76_shared_entry_refuted` |
| C77 | One recorder per recorded run (proved) | `M_Interpreter` | 2: `C77_recorder_per_run`, `C77_refuted` |
| C78 | The status file is good exactly when every thread is alive (proved) | `M_StatusMonitor` | 5: `C78_good_iff`, `C78_intervals`, `C78_smallest_is_least`, `C78_largest_is_greatest`, `C78_exited_for_ever_refuted` |
| C79 | An overridden threshold comes back (proved) | `M_StatusMonitor` | 4: `C79_nested_overrides_restore`, `C79_inside_in_force`, `C79_overlap_refuted`, `C79_update_lost` |
| C80 | The status monitor ends (proved) | `M_StatusMonitor` | 3: `C80_hangs_or_ends`, `C80_refuted`, `C80_can_still_end` |
| C81 | A grid traversal lists the cells a segment passes (proved) | `M_Grid` | 4: `C81_ends`, `C81_traversal`, `C81_none_missed`, `C81_refuted` |
| C82 | Objects are drawn in the occupancy grid (proved) | `M_Grid` | 4: `C82_objects_are_drawn`, `C82_only_objects_are_drawn`, `C82_small_objects_are_not_drawn`, `C82_refuted` |
| C83 | Many objects in one occupancy grid (proved) | `M_Grid` | 3: `C83_as_if_alone`, `C83_number_of_objects`, `C83_nothing_left_over` |
| C84 | The occupancy grid message (proved) | `M_Grid` | 4: `C84_placed`, `C84_refuted`, `C84_entities`, `C84_fails` |
| C85 | Sensors sample and publish on schedule (proved) | `M_Sensors` | 7: `C85_schedule`, `C85_regular`, `C85_delay`, `C85_regular_delay`, `C85_lidar_schedule`, `C85_lidar_delay`, `C85_backlog_refuted` |
| C86 | Which entities are detected (proved) | `M_Sensors` | 4: `C86_detected`, `C86_level`, `C86_plane`, `C86_refuted` |
| C87 | Lidars and detection sensors fit together (proved) | `M_Sensors` | 2: `C87_in_step`, `C87_refuted` |
| C88 | Noise of detection sensors (proved) | `M_Sensors` | 7: `C88_autocorrelation_refuted`, `C88_memoryless`, `C88_rate`, `C88_beyond`, `C88_v1`, `C88_v1_statics_refuted`, `C88_v3` |
| C89 | Triggering entities (proved) | `M_Entities M_EntityCondition` | 8: `C89_all`, `C89_all_false`, `C89_any`, `C89_none`, `C89_without_errors`, `C89_error`, `C89_any_member_refuted`, `C89_empty` |
| C90 | Entity declarations and selections (proved) | `M_Entities M_EntityCondition` | 7: `C90_accepted`, `C90_reference`, `C90_triggering`, `C90_objects`, `C90_members_are_objects`, `C90_object_wins`, `C90_forward_reference_refuted` |
| C91 | Absent and deleted entities (proved) | `M_Entities M_EntityCondition` | 6: `C91_add`, `C91_delete`, `C91_present_added`, `C91_add_once_refuted`, `C91_not_added`, `C91_deleted` |
| C92 | Time to collision (proved) | `M_Entities M_EntityCondition` | 7: `C92_behind`, `C92_ahead_refuted`, `C92_receding_refuted`, `C92_position`, `C92_quotient`, `C92_position_quotient`, `C92_unsupported` |
| C93 | Time headway (proved) | `M_Entities M_EntityCondition` | 3: `C93_headway`, `C93_backwards_refuted`, `C93_selection` |
| C94 | Collision conditions (proved) | `M_Entities M_EntityCondition` | 4: `C94_entity`, `C94_type`, `C94_symmetric`, `C94_selection` |
| C95 | Relative clearance (proved) | `M_Entities M_EntityCondition` | 4: `C95_all`, `C95_any_refuted`, `C95_listed`, `C95_selection_refuted` |
| C96 | Speeds and distances that conditions compare (proved) | `M_Entities M_EntityCondition` | 10: `C96_own_values`, `C96_relative_speed`, `C96_relative_speed_aligned`, `C96_relative_speed_length`, `C96_relative_distance`, `C96_relative_distance_symmetric`, `C96_freespace`, `C96_distance_sign_refuted`, `C96_lane_distance`, `C96_unsupported` |
| C97 | Requests to Autoware are carried out in order (proved) | `M_Concealer` | 7: `C97_in_order`, `C97_begins`, `C97_ends`, `C97_acts`, `C97_answer`, `C97_answer_state`, `C97_question` |
| C98 | Failures of requests to Autoware (proved) | `M_Concealer` | 5: `C98_nothing_after`, `C98_every_request_throws`, `C98_nothing_more`, `C98_cause`, `C98_accepted_after_failure_refuted` |
| C99 | Services of Autoware are called until they succeed (proved) | `M_Concealer` | 2: `C99_sent`, `C99_finished` |
| C100 | Waiting for Autoware's states (proved) | `M_Concealer` | 8: `C100_engage`, `C100_engaged`, `C100_route`, `C100_planned`, `C100_pose`, `C100_localized`, `C100_engage_refuted`, `C100_arrived_refuted` |
| C101 | The time limit for initialisation (proved) | `M_Concealer` | 6: `C101_not_before`, `C101_lifted`, `C101_lifted_by_engagement`, `C101_expires`, `C101_unlimited_refuted`, `C101_driving_refuted` |
| C102 | Destruction of the connection with Autoware (proved) | `M_Concealer` | 2: `C102_joins`, `C102_no_new_task` |
| C103 | The initial pose is given once and first (proved) | `M_Concealer` | 4: `C103_once`, `C103_pose_first`, `C103_pose_before_route`, `C103_replan_refuted` |
| C104 | Autoware's state as derived from its topics (proved) | `M_Concealer` | 7: `C104_driving`, `C104_waiting_for_engage`, `C104_planning`, `C104_arrived`, `C104_waiting_for_route`, `C104_initializing`, `C104_never_finalizing` |
| C105 | Cooperation commands (proved) | `M_Concealer` | 4: `C105_sent`, `C105_thrown`, `C105_once`, `C105_again_refuted` |
| C106 | The end of the Autoware process (proved) | `M_Concealer` | 4: `C106_gone`, `C106_not_killed`, `C106_other_child_refuted`, `C106_interrupted_refuted` |
| C107 | Which action an NPC takes each frame (proved) | `M_Behavior` | 4: `C107_vehicle`, `C107_pedestrian`, `C107_current`, `C107_keeps` |
| C108 | A frame of an NPC ends (proved) | `M_Behavior` | 5: `C108_vehicle`, `C108_walk_refuted`, `C108_instant_refuted`, `C108_pedestrian`, `C108_lane_change_refuted` |
| C109 | The decision of a vehicle that follows its lane (proved) | `M_Behavior` | 2: `C109_decision`, `C109_unique` |
| C110 | Stopping at red lights (proved) | `M_Behavior` | 7: `C110_stops`, `C110_keeps`, `C110_speed`, `C110_light_hides_front_refuted`, `C110_front_hides_light_refuted`, `C110_front_beyond_light_refuted`, `C110_yield_hides_light_refuted` |
| C111 | Following the entity ahead (proved) | `M_Behavior` | 3: `C111_follows`, `C111_slower`, `C111_faster_refuted` |
| C112 | Stop lines and crossing entities (proved) | `M_Behavior` | 5: `C112_stop_line`, `C112_crossing`, `C112_tie_refuted`, `C112_detectors_refuted`, `C112_stuck_refuted` |
| C113 | One move per frame (proved) | `M_Behavior` | 3: `C113_once`, `C113_twice_refuted`, `C113_backwards` |
| C114 | The life of a request to follow a trajectory or change lanes (proved) | `M_Behavior` | 4: `C114_trajectory_taken`, `C114_trajectory_ends`, `C114_frozen_refuted`, `C114_unmeetable` |
| C115 | How long a lane change takes (proved) | `M_Behavior` | 5: `C115_time`, `C115_constraint`, `C115_standing_refuted`, `C115_best_effort_refuted`, `C115_second_refuted` |
| C116 | Vehicles off the lanes (proved) | `M_Behavior` | 2: `C116_stands`, `C116_throws_refuted` |
| C117 | Pedestrians (proved) | `M_Behavior` | 5: `C117_lane`, `C117_off_lane`, `C117_straight`, `C117_trajectory`, `C117_straight_for_ever_refuted` |
| C118 | Limits of the acceleration on a trajectory (proved) | `M_FollowControl` | 3: `C118_limits`, `C118_range`, `C118_deceleration_refuted` |
| C119 | Slowing down on a trajectory (proved) | `M_FollowControl` | 3: `C119_hard_braking`, `C119_fails`, `C119_reverses_refuted` |
| C120 | The choice of an acceleration without an arrival time (proved) | `M_FollowControl` | 4: `C120_stop_choice`, `C120_prediction`, `C120_given_up`, `C120_overshoot` |
| C121 | The choice of an acceleration for an arrival time (proved) | `M_FollowControl` | 4: `C121_arrival_choice`, `C121_prediction`, `C121_rounding`, `C121_last_frames` |
| C122 | The jerk-limited ramp (proved) | `M_FollowControl` | 2: `C122_ramp`, `C122_clamp_refuted` |
| C123 | Waypoints are passed in order (proved) | `M_FollowTrajectory` | 3: `C123_frame`, `C123_open`, `C123_closed` |
| C124 | When a trajectory is finished (proved) | `M_FollowTrajectory` | 4: `C124_finished`, `C124_finishes`, `C124_closed`, `C124_closed_two_refuted` |
| C125 | Arrival times (proved) | `M_FollowTrajectory` | 4: `C125_moved`, `C125_window`, `C125_absolute`, `C125_failures` |
| C126 | Every frame ends; laps (proved) | `M_FollowTrajectory` | 3: `C126_open_ends`, `C126_endless_refuted`, `C126_one_lap` |
| C127 | Time, speed, acceleration and distance agree (proved) | `M_FollowTrajectory` | 2: `C127_motion`, `C127_backwards_refuted` |
| C128 | The last metres of a trajectory (proved) | `M_FollowTrajectory` | 3: `C128_braking`, `C128_stops`, `C128_finishes` |
| C129 | The start of a trajectory (proved) | `M_FollowTrajectory` | 3: `C129_times`, `C129_shared`, `C129_selection_refuted` |
| C130 | When a FollowTrajectoryAction is complete (proved) | `M_FollowTrajectory` | 7: `C130_closed`, `C130_complete`, `C130_all_ended`, `C130_stays`, `C130_forgotten_refuted`, `C130_no_actor_refuted`, `C130_selection_refuted` |
| C131 | Segments cross when they have a point in common (proved) | `M_Segment` | 4: `C131_crossing`, `C131_side`, `C131_tolerance_misses_refuted`, `C131_tolerance_invents_refuted` |
| C132 | The intersection point lies on both segments (proved) | `M_Segment` | 4: `C132_point`, `C132_absent`, `C132_error`, `C132_straight_continuation_refuted` |
| C133 | Position along a segment (proved) | `M_Segment` | 3: `C133_position`, `C133_found`, `C133_range` |
| C134 | The segments of a polyline (proved) | `M_Segment` | 3: `C134_segments`, `C134_covers`, `C134_order` |
| C135 | Linear and quadratic equations (proved) | `M_Solver` | 4: `C135_linear`, `C135_linear_degenerate`, `C135_quadratic`, `C135_quadratic_double` |
| C136 | Cubic equations (proved) | `M_Solver` | 5: `C136_complete`, `C136_sound`, `C136_three_exact`, `C136_lost_refuted`, `C136_residual` |
| C137 | A spline goes through its control points in order (proved) | `M_Spline` | 2: `C137_built`, `C137_through` |
| C138 | A spline has neither jumps nor kinks (proved) | `M_Spline` | 3: `C138_continuous`, `C138_direction`, `C138_hermite` |
| C139 | Lengths along a spline (proved) | `M_Spline` | 2: `C139_length`, `C139_even` |
| C140 | A spline never goes backwards along its points (proved) | `M_Spline` | 2: `C140_backwards_refuted`, `C140_distance_refuted` |
| C141 | Collisions of a curve with an edge (proved) | `M_Spline` | 5: `C141_found`, `C141_sound`, `C141_exact`, `C141_along`, `C141_along_refuted` |
| C142 | Collisions of a spline with a polygon (proved) | `M_Spline` | 5: `C142_answers`, `C142_first`, `C142_hit`, `C142_line`, `C142_two_points_refuted` |
| C143 | Collisions in ranges and parts of splines (proved) | `M_Spline` | 3: `C143_range`, `C143_range_refuted`, `C143_part` |
| C144 | Sampled trajectories start, end and step as asked (proved) | `M_Spline` | 3: `C144_samples`, `C144_zero_step`, `C144_curve_refuted` |
| C145 | Altitudes of a part of a spline (proved) | `M_Spline` | 2: `C145_altitudes`, `C145_below_zero_refuted` |
| C146 | Commands to the ego vehicle take effect after the delay (proved) | `M_Vehicle` | 3: `C146_delay`, `C146_late`, `C146_size` |
| C147 | Limits of the ego vehicle's speed and acceleration (proved) | `M_Vehicle` | 4: `C147_speed`, `C147_speed_commanded`, `C147_acceleration`, `C147_stop_refuted` |
| C148 | Gears decide the direction of the ego vehicle (proved) | `M_Vehicle` | 4: `C148_direction`, `C148_still`, `C148_stop`, `C148_park_refuted` |
| C149 | Steering of the ego vehicle (proved) | `M_Vehicle` | 3: `C149_step`, `C149_limit`, `C149_factor_refuted` |
| C150 | Standing on a slope (proved) | `M_Vehicle` | 3: `C150_holds`, `C150_rolls`, `C150_brakes` |
| C151 | The reported acceleration of the ego vehicle (proved) | `M_Vehicle` | 3: `C151_change`, `C151_commanded`, `C151_limit_refuted` |
| C152 | The acceleration map (proved) | `M_Vehicle` | 6: `C152_line`, `C152_refused`, `C152_entry`, `C152_acceleration`, `C152_entries`, `C152_bounds` |
| C153 | Setting the state of the ego vehicle (proved) | `M_Ego` | 7: `C153_position`, `C153_motion`, `C153_waiting`, `C153_standing_refuted`, `C153_ideal_refuted`, `C153_memory_refuted`, `C153_forgotten_refuted` |
| C154 | Where the ego vehicle drives (proved) | `M_Ego` | 4: `C154_plane`, `C154_reported`, `C154_standing`, `C154_jerk_refuted` |
| C155 | The nearest points of two bounding boxes (proved) | `M_Box` | 3: `C155_nearest`, `C155_order`, `C155_order_refuted` |
| C156 | The relative position of two bounding boxes (proved) | `M_Box` | 3: `C156_length`, `C156_direction`, `C156_direction_refuted` |
| C157 | Outlines of bounding boxes (proved) | `M_Box` | 3: `C157_outline`, `C157_polygon`, `C157_extended` |
| C158 | Reading the elements of a scenario (proved) | `M_Reader` | 5: `C158_elements`, `C158_elements_error`, `C158_element`, `C158_unknown`, `C158_repeated_refuted` |
| C159 | Choices and groups of elements (proved) | `M_Reader` | 5: `C159_choice`, `C159_order`, `C159_groups`, `C159_repeated_refuted`, `C159_silent_refuted` |
| C160 | Parameter distributions are read as written (proved) | `M_Reader` | 5: `C160_rejected`, `C160_deterministic`, `C160_deterministic_refuted`, `C160_stochastic`, `C160_stochastic_refuted` |
| C161 | Distances to stop lines (proved) | `M_Obstacle` | 4: `C161_stop_line`, `C161_light`, `C161_lights`, `C161_lights_refuted` |
| C162 | Where an entity gives way (proved) | `M_Obstacle` | 2: `C162_yield`, `C162_free` |
| C163 | Distances across lanes (proved) | `M_Obstacle` | 5: `C163_room`, `C163_wrong_sides`, `C163_room_refuted`, `C163_lateral`, `C163_defined` |
| C164 | Distance of a bounding box from a spline (proved) | `M_Obstacle` | 4: `C164_attained`, `C164_ends`, `C164_straight`, `C164_curved_refuted` |
| C165 | Distance to an entity along a spline (proved) | `M_Obstacle` | 4: `C165_ahead`, `C165_overlap`, `C165_overlap_refuted`, `C165_behind_refuted` |
| C166 | The nearest conflict ahead (proved) | `M_Obstacle` | 2: `C166_nearest`, `C166_off_lane` |
| C167 | What is published of a bulb (proved) | `M_Publish` | 5: `C167_bulb`, `C167_upper_arrows`, `C167_shape_refuted`, `C167_direct`, `C167_readable` |
| C168 | Groups of published traffic lights (proved) | `M_Publish` | 8: `C168_array`, `C168_groups`, `C168_no_others`, `C168_count`, `C168_formats`, `C168_one_group_refuted`, `C168_dark_refuted`, `C168_wide_refuted` |
| C169 | Predictions of traffic lights (proved) | `M_Publish` | 3: `C169_predictions`, `C169_not_detected`, `C169_dark_refuted` |
| C170 | Overrides of detected traffic lights (proved) | `M_Publish` | 7: `C170_shown`, `C170_nothing_else`, `C170_truth`, `C170_no_detector`, `C170_wide_refuted`, `C170_v2i`, `C170_v2i_nothing_else` |
| C171 | Which message format a version of the architecture gets (proved) | `M_Publish` | 4: `C171_dated`, `C171_same`, `C171_both_refuted`, `C171_unknown_refuted` |
| C172 | An entity's status between the processes (proved) | `M_Conversion` | 5: `C172_status_sent`, `C172_status_read`, `C172_status_refused`, `C172_read_refused`, `C172_round_trip` |
| C173 | The exchange of a frame (proved) | `M_Conversion` | 6: `C173_sent`, `C173_read`, `C173_refused`, `C173_echo`, `C173_answered`, `C173_whole_refuted` |
| C174 | Parameters, trajectories and commands between the processes (proved) | `M_Conversion` | 9: `C174_vehicle`, `C174_object`, `C174_subtype_refuted`, `C174_trajectory`, `C174_trajectory_read`, `C174_gear`, `C174_gear_refuted`, `C174_control`, `C174_control_refuted` |
| C175 | The parts of an entity's status agree (proved) | `M_Status` | 2: `C175_consistent`, `C175_spawned` |
| C176 | Teleporting an entity (proved) | `M_Status` | 9: `C176_lane`, `C176_world`, `C176_on_lane`, `C176_object`, `C176_ego_guard`, `C176_match_refuted`, `C176_direction_refuted`, `C176_relative_refuted`, `C176_ego_refuted` |
| C177 | Adding an entity (proved) | `M_Status` | 5: `C177_lane`, `C177_world`, `C177_world_off`, `C177_object`, `C177_relative_refuted` |
| C178 | Setting the status that was read (proved) | `M_Status` | 4: `C178_same`, `C178_off`, `C178_ego`, `C178_not_ego` |
| C179 | The distance an entity has travelled (proved) | `M_Npc` | 2: `C179_distance`, `C179_driven_refuted` |
| C180 | How long an entity stands still (proved) | `M_Npc` | 6: `C180_ego`, `C180_driven`, `C180_misc`, `C180_road_end_refuted`, `C180_object_refuted`, `C180_stopped_refuted` |
| C181 | Performance of an entity is enforced (proved) | `M_Npc` | 3: `C181_checked`, `C181_unchecked`, `C181_performance` |
| C182 | Synchronizing with another entity (proved) | `M_Npc` | 6: `C182_answer`, `C182_follow`, `C182_passed`, `C182_standing_refuted`, `C182_forward_refuted`, `C182_arrived_refuted` |
| C183 | Changing the behaviour of an entity (proved) | `M_Reset` | 4: `C183_undefined`, `C183_refused`, `C183_meant`, `C183_refuted` |
| C184 | A route for the ego vehicle, by poses (proved) | `M_Route` | 4: `C184_points`, `C184_lanes`, `C184_position`, `C184_once` |
| C185 | A route for the ego vehicle, by lanelets (proved) | `M_Route` | 7: `C185_lanes`, `C185_off_lane`, `C185_matched`, `C185_skipped`, `C185_unreachable_refuted`, `C185_dropped_refuted`, `C185_goal_refuted` |
| C186 | A route for a vehicle or a pedestrian (proved) | `M_Route` | 4: `C186_on_lane`, `C186_refused`, `C186_taken_refuted`, `C186_agree_refuted` |
| C187 | Respawning the ego vehicle (proved) | `M_Route` | 6: `C187_frame`, `C187_asks`, `C187_done`, `C187_failed`, `C187_direction_refuted`, `C187_control_refuted` |
| C188 | A new route for a driving ego vehicle (proved) | `M_Route` | 2: `C188_replan`, `C188_refuted` |
| C189 | Routes requested of several actors (proved) | `M_Route` | 3: `C189_each`, `C189_refused`, `C189_objects` |
| C190 | Control of the ego vehicle (proved) | `M_Route` | 7: `C190_follow`, `C190_ends`, `C190_free`, `C190_refused`, `C190_limit`, `C190_taken`, `C190_time` |
| C191 | When a speed action is over (proved) | `M_Action` | 7: `C191_sound`, `C191_complete`, `C191_one`, `C191_requests`, `C191_step`, `C191_continuous`, `C191_forgotten_refuted` |
| C192 | Speed profiles (proved) | `M_Action` | 3: `C192_ends`, `C192_order`, `C192_rate_refuted` |
| C193 | When a lane change action is over (proved) | `M_Action` | 7: `C193_at_once`, `C193_duration_refuted`, `C193_lasts`, `C193_gone`, `C193_group_refuted`, `C193_empty`, `C193_requests` |
| C194 | The actions of Init (proved) | `M_Action` | 5: `C194_before`, `C194_once`, `C194_order_refuted`, `C194_ends`, `C194_environment` |
| C195 | Actions that only wait (proved) | `M_Action` | 1: `C195_ends` |
| C196 | Lane change requests (proved) | `M_LaneChange` | 8: `C196_relative`, `C196_reference`, `C196_same`, `C196_far_refuted`, `C196_direction`, `C196_ignored_refuted`, `C196_absolute`, `C196_kinds` |
| C197 | Counting lane changes (proved) | `M_LaneChange` | 4: `C197_count`, `C197_none`, `C197_offset`, `C197_two_refuted` |
| C198 | The curve of a lane change (proved) | `M_LaneChange` | 5: `C198_best`, `C198_none`, `C198_allowed`, `C198_distance`, `C198_offset_refuted` |
| C199 | Answers of the map (proved) | `M_Cache` | 4: `C199_answers`, `C199_unloaded`, `C199_repeated`, `C199_failed_refuted` |
| C200 | Asking the map from several threads (proved) | `M_Cache` | 6: `C200_answers`, `C200_safe`, `C200_ends`, `C200_no_race`, `C200_race_refuted`, `C200_replace_refuted` |
| C201 | Which lane a pose is on (proved) | `M_Match` | 8: `C201_lane`, `C201_first`, `C201_box`, `C201_position`, `C201_neighbours_refuted`, `C201_across`, `C201_route`, `C201_off_route` |
| C202 | Lanelets around a position (proved) | `M_Match` | 4: `C202_nearby`, `C202_position`, `C202_hidden_refuted`, `C202_subtype_refuted` |
| C203 | Lanes to which there is a route (proved) | `M_Match` | 4: `C203_own`, `C203_shortest`, `C203_none`, `C203_nearest_refuted` |
| C204 | Lanes of pedestrians (proved) | `M_Match` | 6: `C204_on_lane`, `C204_near`, `C204_missing`, `C204_failed`, `C204_end`, `C204_within` |
| C205 | Crossing into the next lanelet (proved) | `M_Match` | 3: `C205_stay`, `C205_next`, `C205_short` |
| C206 | Direction of a lane at a point (proved) | `M_Match` | 2: `C206_direction`, `C206_last_refuted` |
| C207 | The nearest allowed velocity of a pedestrian (proved) | `M_Orca` | 3: `C207_nearest`, `C207_order`, `C207_free` |
| C208 | The velocity of a pedestrian if none is allowed (proved) | `M_Orca` | 2: `C208_least`, `C208_speed` |
| C209 | Lines that keep pedestrians apart (proved) | `M_Orca` | 6: `C209_unit`, `C209_apart`, `C209_separate`, `C209_front`, `C209_front_refuted`, `C209_standing` |
| C210 | Sizes of entities to avoid (proved) | `M_Orca` | 3: `C210_corner`, `C210_covers`, `C210_symmetric` |
| C211 | Goals of pedestrians along their lanes (proved) | `M_Goal` | 3: `C211_goal`, `C211_lost`, `C211_total` |
| C212 | Goals of pedestrians along trajectories (proved) | `M_Goal` | 11: `C212_next`, `C212_behind`, `C212_ended`, `C212_loop_refuted`, `C212_success_refuted`, `C212_end`, `C212_followed`, `C212_left_refuted`, `C212_kept`, `C212_cleared`, `C212_request` |
| C213 | Speeds of pedestrians along trajectories (proved) | `M_Goal` | 8: `C213_vertex`, `C213_wait`, `C213_in_time`, `C213_last_refuted`, `C213_absolute_refuted`, `C213_untimed_refuted`, `C213_zero_refuted`, `C213_sampled_refuted` |
| C214 | Composing and comparing orientations (proved) | `M_Quaternion` | 8: `C214_compose`, `C214_unit`, `C214_rigid`, `C214_between`, `C214_between_unit`, `C214_normalize`, `C214_normalize_refused`, `C214_normal` |
| C215 | Interpolating orientations (proved) | `M_Quaternion` | 6: `C215_start`, `C215_finish`, `C215_unit`, `C215_rate`, `C215_same`, `C215_shortest_refuted` |
| C216 | Orientations from angles and directions (proved) | `M_Quaternion` | 6: `C216_order`, `C216_axes`, `C216_unit`, `C216_direction`, `C216_yaw`, `C216_yaw_given` |
| C217 | Entities that do nothing stand still (proved) | `M_Nothing` | 3: `C217_still`, `C217_refused`, `C217_jerk_refuted` |
| C218 | Entities that do nothing but follow a trajectory (proved) | `M_Nothing` | 11: `C218_one`, `C218_before`, `C218_position`, `C218_points`, `C218_end`, `C218_speed`, `C218_action`, `C218_first_refuted`, `C218_absolute_refuted`, `C218_single_refuted`, `C218_acceleration_refuted` |
| C219 | What the fourth noise model does to poses (proved) | `M_Displace` | 5: `C219_flip`, `C219_displaced`, `C219_none`, `C219_height`, `C219_slope_refuted` |
| C220 | Which configuration of noise is meant for an entity (proved) | `M_LidarNoise` | 4: `C220_wildcards`, `C220_found`, `C220_listed`, `C220_dot_refuted` |
| C221 | The configuration of an entity is found once (proved) | `M_LidarNoise` | 4: `C221_first`, `C221_kept`, `C221_total`, `C221_renamed_refuted` |
| C222 | What noise leaves of a point cloud (proved) | `M_LidarNoise` | 4: `C222_cloud`, `C222_unattributed`, `C222_no_noise`, `C222_detected_refuted` |
| C223 | The rings of the noise of point clouds (proved) | `M_LidarNoise` | 4: `C223_ring`, `C223_lengths`, `C223_squared_refuted`, `C223_ratio_refuted` |
| C224 | How noise moves a point of a cloud (proved) | `M_LidarNoise` | 4: `C224_radial`, `C224_tangential`, `C224_across`, `C224_amount_refuted` |
| C225 | What the inertial measurement unit reports of the motion (proved) | `M_Imu` | 5: `C225_orientation`, `C225_motion`, `C225_noise`, `C225_covariance`, `C225_overridden_refuted` |
| C226 | Gravity in the messages of the inertial measurement unit (proved) | `M_Imu` | 6: `C226_strength`, `C226_upright`, `C226_turned`, `C226_slope_refuted`, `C226_aside_refuted`, `C226_rest_refuted` |
| C227 | The rays of a lidar (proved) | `M_Rays` | 6: `C227_columns`, `C227_ends`, `C227_covered`, `C227_ray`, `C227_cached`, `C227_twice_refuted` |
| C228 | The points of a lidar (proved) | `M_Rays` | 3: `C228_point`, `C228_all`, `C228_distance` |
| C229 | When random tests count a collision as new (proved) | `M_Random` | 1: `C229_new` |
| C230 | When random tests find a standstill (proved) | `M_Random` | 3: `C230_found`, `C230_gap_refuted`, `C230_backwards_refuted` |
| C231 | What a random test reports and when it is over (proved) | `M_Random` | 6: `C231_completed`, `C231_reports`, `C231_collision`, `C231_remembered`, `C231_silent_refuted`, `C231_last_refuted` |
| C232 | Where random tests look for places (proved) | `M_Random` | 4: `C232_distance`, `C232_inside`, `C232_ends`, `C232_beside_refuted` |
| C233 | The entities and the route of a random test (proved) | `M_Random` | 4: `C233_npcs`, `C233_ego`, `C233_found`, `C233_behind_refuted` |
| C234 | Conditions on topics use the last value received (proved) | `M_UserValue` | 3: `C234_value`, `C234_nothing`, `C234_either` |
| C235 | What a failure to receive does to conditions on topics (proved) | `M_UserValue` | 5: `C235_broken`, `C235_stays`, `C235_again`, `C235_defined`, `C235_others_refuted` |
| C236 | What the name of a user-defined value stands for (proved) | `M_UserValue` | 9: `C236_state`, `C236_only_state`, `C236_dot`, `C236_topic`, `C236_heading`, `C236_unknown`, `C236_decimal_refuted`, `C236_compare`, `C236_emergency` |
| C237 | Which entry a reference to a catalog means (proved) | `M_Catalog` | 3: `C237_refer`, `C237_order`, `C237_order_refuted` |
| C238 | What parameters mean in an entry of a catalog (proved) | `M_Catalog` | 6: `C238_assigned`, `C238_declared`, `C238_twice`, `C238_seen`, `C238_default_refuted`, `C238_two_refuted` |
| C239 | The rate at which traffic lights are published (proved) | `M_Rate` | 4: `C239_rate`, `C239_asked`, `C239_nothing`, `C239_start_refuted` |

## 4. What is not modelled

* Real-time behaviour of ROS 2 executors and timers; DDS and ZMQ transport; of the
  conversions between messages (`simulation_interface`), those not named in section 3.
* XML parsing and schema validation (pugixml, `xmlschema`); reading of the elements not named
  in section 3.
* Floating-point rounding, NaN and infinities, except where a definition says otherwise.
* The lanelet2 map itself: how centerlines are computed from boundaries, matching of boxes to
  lanelets, the routing graph's search (it is an arbitrary function); of the splines, normal
  vectors, poses and the projection of a pose onto a spline.
* Embree ray casting and image-like sensors; Autoware itself; of `concealer`, topics and their
  quality of service, emergency and minimum-risk callbacks.
* Of the behaviour trees, the BehaviorTree.CPP engine is taken as documented (version 3), and the
  waypoints and obstacles published for display are left out.
* Visualisation, RViz plug-ins, the traffic editor, launch files, code generators.

## 5. Findings

Behaviour of the code that the proofs forced into the open.  Each is either a `_refuted`
theorem or part of the statement of the theorem named.

| where | what |
|-------|------|
| C01 `standard_lifecycle_refuted` | an event with priority override stops itself while it starts and then goes from stop to running |
| C03 `execution_limit_zero_refuted` | a maximum execution count of 0 still executes once |
| C04 `finished_stays_finished_refuted` | finished actions are started again by an override event |
| C05 `stop_reaches_descendants_refuted` | stopping an act can start an event in standby and leave it running |
| C08 `reexecution_refuted` | execution counts of maneuver groups do not lead to complete second executions |
| C10 `active_group_description_undefined_refuted` | the description of the active group reads past the end when no group holds |
| C12 `edge_..._nonuniform_refuted` | with frames of different lengths an edge is reported twice or missed |
| C14 `state_condition_only_if_refuted` | a state condition holds although its element left the state before the previous evaluation |
| C15 `equality_rules_complementary_refuted` | `equalTo` has a tolerance that `notEqualTo` does not mirror |
| C18 `unknown_qualifier_refuted`, `qualifier_escaped_refuted` | an unknown qualifier resolves at the root; a name its qualifier does not define resolves outside |
| C21 `..._refuted` | a reference that begins again before the delay is over postpones the referencing controller |
| C22, C23 `..._refuted` | the cycle time is truncated to whole seconds (undefined for infinite phases), so short phases have no predictions |
| C25 `..._refuted` | loading a missing file forgets what was loaded before; loading a valid parameter distribution fails and forgets too |
| C28 `..._refuted` | the clean-up of a replaced request clears the target just set; a request for the current speed is ignored; a continuous request with a time is not held |
| C29-C31 `..._refuted` | the acceleration drops at once near the target, a speed above the maximum is cut at once; planning need not end; planned limits can be negative |
| C34 `C34_invalid_unchanged_refuted` | an invalid state text changes part of the light |
| C35 `C35_relation_refuted` | V2I mirroring happens only for way ids |
| C36 `C36_any_id_refuted` | detected lights given by relation id are duplicated |
| C38 `C38_refuted` | canonicalisation along a route can subtract a length twice and leave a negative position |
| C39 `C39_refuted`, `along_is_canonicalize_refuted` | moving forth and back over a merge changes the lane; moving and canonicalising choose differently |
| C40 `broken_route_refuted`, `last_of_route_refuted` | the error path for broken routes is undefined behaviour; the last lanelet of a route throws when the current one is excluded |
| C41 `..._refuted` | a new waypoint does not replace the route; the second waypoint is not planned for; an unreached waypoint on the current lanelet is dropped |
| C42, C66 `..._refuted` | distances are not antisymmetric on ties and with alternatives; an unreachable alternative can count as the nearest |
| C47, C48 `..._refuted` | clearing predictions clears those of other controllers; the phase of a controller without phases is undefined behaviour |
| C49-C52 `..._refuted` | texts of numbers compare as numbers with tolerance; halving an integer gives zero; constraints are not checked after actions; negative unsigned literals wrap |
| C53 `C53_variants_kept_apart_refuted` | loading a scenario again with other parameters overwrites the derived file of the first |
| C54, C55, C69 `..._refuted` | replaced and finished requests wipe the limits of their successors and of the user; a relative request fails when its reference is despawned |
| C57 `C57_same_entities_refuted` | a failed reset leaves an entity in the simulator that the API no longer has |
| C60 `C60_front_entity_refuted` | of two candidates at the same distance one is dropped before the choice is made |
| C62 `C62_none_refuted` | a light set to "none" does not compare equal to "none" |
| C65 `alternatives_on_lane_refuted` | alternatives keep positions out of range at dead ends |
| C45 | a negative rate never ends; the shadowed validity flag of a pose |
| C70, C71 | `sqrt` truncates to an integer, the empty expression is 0, unsigned subtraction wraps, 64-bit parameters are cut to 32 bits, signed overflow is undefined behaviour, `true / 2` is accepted |
| C72 | a parameter that refers to itself is substituted for ever; a command without output reads the last character of an empty text |
| C73 | an empty attribute silently reads as its default |
| C74 | a scenario stopped from outside leaves no verdict, and the shipped check accepts the report |
| C75 | a teardown that raises during shutdown removes an element from an empty list |
| C76 | scenarios with the same file and directory name share an entry of the report |
| C77 | shutting down an active node leaves its recorder running; after a failed fork the node interrupts every process it may signal |
| C78-C80 | an exited thread counts as good for ever; overlapping threshold overrides leave a wrong threshold; the destructor can wait for ever |
| C81, C82 `..._refuted` | a traversal from a grid line misses a cell, so a cell inside an object can stay free; an object within one cell is never drawn |
| C84 `C84_refuted` | the message's origin has height and width exchanged, so grids that are not square are misplaced |
| C85 `C85_backlog_refuted` | a detection sensor releases at most one delayed message per sample, so after an irregular frame all later ones are late |
| C86 `C86_refuted` | the ego's plane is kept while the orientation stays, whatever the position: an ego that was lifted detects entities far below it |
| C87 `C87_refuted` | a lidar forgets its hits in frames it does not scan in, so a detection sensor with a shorter period reports nothing then |
| C88 `C88_autocorrelation_refuted` | the documented autocorrelation parameters of noise v2 are never read (`distanceautocorrelation_coefficient` instead of `distance.autocorrelation_coefficient`) |
| C88 `C88_v1_statics_refuted` | noise v1 is configured by the first call in the process, for all sensors |
| C88 `C88_v3` | noise v3 drops every entity from the first message it should be in |
| C89 `C89_any_member_refuted`, `C89_empty` | a selection counts as one triggering entity: with `any` all its members must satisfy the condition, and an empty one always does |
| C91 `C91_add_once_refuted`, `C91_deleted` | `is_added` is never reset, so a deleted entity cannot be added again and a speed condition on it throws |
| C92 `C92_ahead_refuted` | time to collision takes the absolute distance but the signed speed: of the entity ahead it is finite when driving away and infinite when being caught |
| C92 `C92_position`, `C92_receding_refuted` | a position behind gives a negative time; receding entities satisfy greaterThan |
| C93 `C93_backwards_refuted` | an entity driving backwards has a negative headway; `freespace` and `alongRoute` are ignored |
| C95 `C95_any_refuted`, `C95_selection_refuted` | relative clearance with `any` excludes the first triggering entity only; selections throw; `oppositeLanes` is ignored |
| C96 `C96_distance_sign_refuted` | distances to positions are signed in the entity frame, distances to entities are not |
| C98 `C98_accepted_after_failure_refuted` | a request made while a task fails is accepted and never carried out |
| C100 `C100_engage_refuted` | waits only check that one state was left: Autoware falling back to waiting for a route gets an engagement request |
| C100 `C100_arrived_refuted` | replanning after arrival: the plan counts as done while the state is still ArrivedGoal, and the engagement then throws |
| C101 `C101_unlimited_refuted`, `C101_driving_refuted` | after the first engagement there is no time limit; a vehicle found driving keeps the initialisation's one |
| C103 `C103_replan_refuted` | a replanning request before any route assignment is sent without initial pose |
| C105 `C105_again_refuted` | the list of answered requests is never cleared: activate, deactivate, activate is refused |
| C106 `C106_other_child_refuted`, `C106_interrupted_refuted` | any SIGCHLD or signal ends the wait without killing Autoware, and waitpid then blocks |
| C108 `C108_instant_refuted`, `C108_walk_refuted` | `update` repeats ticks while the action is "root": lane changes that end at once, or a request no action takes, loop for ever |
| C110 `C110_light_hides_front_refuted`, `C110_front_hides_light_refuted`, `C110_front_beyond_light_refuted`, `C110_yield_hides_light_refuted` | the action in progress is not interrupted: who stops for a light ignores the entity ahead, who follows or yields ignores the light |
| C111 `C111_faster_refuted` | the gap is ignored when the entity ahead is not slower than the target speed |
| C112 `C112_tie_refuted`, `C112_detectors_refuted` | a stop line and a crossing entity at the same distance exclude each other; disagreeing detectors do too: the vehicle drives through |
| C112 `C112_stuck_refuted` | a vehicle standing for another reason before a stop line further away than its length and 5 m never starts again |
| C113 `C113_twice_refuted` | YieldAction moves the vehicle before it declines: two moves in the first frame backwards |
| C114 `C114_frozen_refuted` | a trajectory finished in its first frame: the event that drops the request misses it, and the vehicle is frozen |
| C115 `C115_standing_refuted`, `C115_best_effort_refuted`, `C115_second_refuted` | lane changes at speed zero never end; an empty target speed compares less than any speed; a second request is swallowed |
| C116 `C116_throws_refuted` | leaving the lanes while stopping or following throws |
| C118 `C118_deceleration_refuted` | the limit of deceleration is exceeded when the target speed is far below the speed |
| C119 `C119_fails`, `C119_reverses_refuted` | slowing down to less than about half the speed ends in a ControllerError (20 to 2 m/s: after 59 frames, at -11.8 m/s^2); target speed 0 makes the entity reverse |
| C122 `C122_clamp_refuted` | the limits may be swapped by less than the tolerance, and std::clamp is then called with lo > hi |
| C124 `C124_closed_two_refuted` | a closed trajectory of one written waypoint is finished like an open one |
| C126 `C126_endless_refuted`, `C126_one_lap` | a closed trajectory at one place recurses for ever; absolute times fail in the second lap |
| C127 `C127_backwards_refuted` | moved backwards while reporting a positive speed |
| C129 `C129_selection_refuted` | the members of a selection hold one trajectory: the second is sent to the first's place, and what one passes the others skip |
| C130 `C130_forgotten_refuted`, `C130_no_actor_refuted`, `C130_selection_refuted` | `std::all_of` stops at the first running actor, so an ended actor may be forgotten; no actors: never complete; a selection ends with its first member |
| C131 `C131_side` | the documentation has 1 for a point to the left, the code answers -1 |
| C131 `C131_tolerance_misses_refuted`, `C131_tolerance_invents_refuted` | the tolerance applies to areas: segments of some nanometres that cross are reported as apart, and the other way round |
| C132 `C132_straight_continuation_refuted` | the intersection of two segments that continue each other raises an exception |
| C136 `C136_lost_refuted` | a negative number under the root inside the tolerance, or 0/0 at a triple solution, becomes NaN and all solutions are dropped |
| C140 `C140_backwards_refuted`, `C140_distance_refuted` | uneven control points make the spline leave its start in the opposite direction; the curve parameter is taken as a share of the length, so positions are not distances |
| C141 `C141_along_refuted` | a curve that runs along an edge which lies inside of it: no collision |
| C142 `C142_two_points_refuted` | with two control points the polygon's closing edge is not looked at |
| C143 `C143_range_refuted` | a search with a range may hand back a collision before the range |
| C144 `C144_curve_refuted` | the trajectory of a single curve lacks its start and ends beyond its end |
| C145 `C145_below_zero_refuted` | `numeric_limits<double>::min()` is taken for the least number; altitudes at or below zero are outside of the default range |
| C147 `C147_stop_refuted` | gears other than forward and reverse stop a vehicle of any speed within one step, whatever the acceleration limit |
| C148 `C148_park_refuted` | without fall guard a vehicle in gear park rolls on for ever with its speed |
| C149 `C149_factor_refuted` | a steering factor above one takes the wheels past the limit |
| C151 `C151_limit_refuted` | at the speed limit an acceleration is reported although the speed is constant |
| C153 `C153_standing_refuted`, `C153_ideal_refuted`, `C153_memory_refuted`, `C153_forgotten_refuted` | setting the state: yaw rate lost when standing, last command reported by ideal models, pedal acceleration uninitialised without fall guard, position forgotten before the start of the other entities |
| C154 `C154_standing`, `C154_jerk_refuted` | a standing vehicle with a tilted initial pose is pushed sideways by the height of its lane; `linear_jerk` is an acceleration (marked FIXME in the code) |
| C155 `C155_order_refuted`, C156 `C156_direction_refuted` | the two nearest points of bounding boxes come in either order (the nearest corner first), so the relative position of a box ahead can point backwards |
| C158 `C158_repeated_refuted`, C159 `..._refuted` | an element that may occur once is silently read once if it occurs twice; a group that cannot be made is dropped |
| C160 | the reader looks for `parameterValueDistribution` within `ParameterValueDistribution`, so no file of parameter distributions loads; deterministic distributions are looked for within themselves, so all are dropped; only the first stochastic distribution is read |
| C161 `C161_lights_refuted` | of several stop lines of a light the first in the map counts, not the nearest |
| C163 `C163_room_refuted` | the lateral distance of bounding boxes subtracts the sides that face away from each other |
| C164 `C164_curved_refuted` | the bisection for the distance of a box from a spline can miss a corner that is on the spline |
| C165 `..._refuted` | an overlapping entity in front is not seen along a spline, an overlapping one behind is reported in front |
| C167 `C167_shape_refuted` | arrows to the upper left and upper right are published as an unknown shape |
| C168 `..._refuted` | two ways of one relation are published as two groups with one id; dark lights are not published; ids are cut to 32 bits |
| C169 `C169_dark_refuted` | predictions of a dark light are not published |
| C170 `C170_wide_refuted` | an override of a light with an id beyond 32 bits has no effect |
| C171 `..._refuted` | the V2I publisher accepts versions the detector refuses; names after "awf/" in the alphabet are taken for versions |
| C173 `C173_whole_refuted` | bounding box and lanelet pose are not part of the status sent in a frame |
| C174 `..._refuted` | the subtype of parameters is lost; an unknown gear is ignored silently; marks of control commands are lost |
| C176 `C176_match_refuted`, `C176_direction_refuted` | an entity on a lane that is teleported to a pose keeps its former lane position, height and direction |
| C176 `C176_relative_refuted` | the offsets of a RelativeWorldPosition are rotated by the heading of the entity referred to |
| C176 `C176_ego_refuted` | a running ego can be teleported, although its own setStatus refuses that: the action calls the one of the base class |
| C177 `C177_relative_refuted` | no entity can be added at a RelativeWorldPosition |
| C179 `C179_driven_refuted` | the frame in which an entity reaches the end of its road is not counted |
| C180 `..._refuted` | StandStillCondition is never met at the end of a road or by a misc object; standing still uses <= where being stopped uses < |
| C182 `..._refuted` | to meet a standing entity one is told to hurry; a negative speed may be set; an older request outlives the answer yes |
| C183 `C183_refuted` | `resetBehaviorPlugin` uses the status of the entity it has destroyed |
| C185 `..._refuted` | with routing by lanelets an unreachable goal is accepted, a pose off the lanelets is silently dropped, and a single such pose is undefined behaviour |
| C186 `..._refuted` | an entity off the lanes ignores AssignRoute and keeps old waypoints on AcquirePosition |
| C187 `..._refuted` | respawning an ego that is on a lane sends the direction of its old place; a failed respawn leaves an ego that followed a trajectory without control |
| C188 `C188_refuted` | `requestReplanRoute` writes through `begin()` of an empty vector for routes of more than one pose |
| C191 `C191_forgotten_refuted` | with several actors, a SpeedAction does not notice that one reached the speed while an earlier one in the table had not |
| C192 `C192_rate_refuted` | SpeedProfileAction in the mode position asks for 10 m/s2 whatever DynamicConstraints says |
| C193 `..._refuted` | LaneChangeAction is accomplished in the frame in which it starts; for a selection the first member that finishes ends it |
| C194 `C194_order_refuted` | Init actions that last are started after all that end immediately, whatever the order in the document |
| C196 `C196_far_refuted` | the number of lanes is narrowed to 8 bits: a change by 256 lanes leads to the own lane |
| C196 `C196_ignored_refuted` | an impossible lane change by direction is silently ignored |
| C197 `C197_two_refuted` | a hop over two lanes counts as one change |
| C198 `C198_offset_refuted` | without a constraint the target's offset is not used |
| C199 `C199_failed_refuted` | centre points are stored before the spline is built: when that fails, the first question is an error and later ones are answered |
| C200 `C200_race_refuted` | centre points are returned by reference: a data race when two threads ask for the same lanelet first |
| C200 `C200_replace_refuted` | activating a map during a call in another thread leaves that call with a destroyed instance |
| C201 `C201_neighbours_refuted` | the search of the lanes before and after the matched lane is never reached |
| C202 `C202_hidden_refuted` | crosswalks are left out after the five nearest lanelets have been chosen: five of them hide a lane |
| C202 `C202_subtype_refuted` | lanelets without a subtype are left out as if they were crosswalks |
| C203 `C203_nearest_refuted` | of equally short routes, that to the lane furthest left is taken, not that to the nearest |
| C206 `C206_last_refuted` | the direction of a lane is an error at points nearest to its last centre point |
| C209 `C209_front_refuted` | at the front of the forbidden cone the correction of the velocity is applied along the line, not across it: entities that keep to their lines collide |
| C209 `C209_standing` | for the same reason a pedestrian that stands may not move towards an entity that stands in front of it, however far away |
| C212 `C212_loop_refuted` | a closed trajectory whose points are all ahead and near is searched for ever |
| C212 `C212_success_refuted` | at the end of its trajectory a pedestrian's action fails instead of succeeding |
| C212 `C212_left_refuted` | what is left of an earlier trajectory is followed instead of the one requested |
| C213 `C213_last_refuted` | the time of the last vertex is taken modulo itself: towards it a pedestrian always goes as fast as it may |
| C213 `C213_absolute_refuted`, `C213_untimed_refuted`, `C213_zero_refuted` | with absolute times, without times, or with a last time of zero the speed is NaN |
| C213 `C213_sampled_refuted` | along a spline the way to the next sampled point is divided by the time to the next vertex: far too slow |
| C215 `C215_shortest_refuted` | orientations are interpolated the long way round if their quaternions are in opposite halves |
| C217 `C217_jerk_refuted` | an entity that does nothing reports the jerk of its last movement for ever |
| C218 `C218_absolute_refuted` | with absolute times a do-nothing entity never follows its trajectory and the action never ends |
| C218 `C218_first_refuted` | before the time of the first point it waits, then it is there at once |
| C218 `C218_single_refuted` | a trajectory with one point makes the reported speed NaN |
| C218 `C218_acceleration_refuted` | the reported acceleration has the wrong sign |
| C219 `C219_slope_refuted` | on slopes noise v4 turns position and orientation about different axes |
| C220 `C220_dot_refuted` | dots in patterns of noise configurations match every character |
| C221 `C221_renamed_refuted` | an entity spawned under an old name keeps the lidar noise of its predecessor |
| C222 `C222_detected_refuted` | entities all of whose points are lost by noise still count as detected |
| C223 `C223_squared_refuted` | the radii of the lidar noise are squared twice |
| C223 `C223_ratio_refuted` | the ellipse ratios of the distance noise of point clouds are ignored |
| C224 `C224_amount_refuted` | tangential noise is shortened by the cosine of the elevation |
| C225 `C225_overridden_refuted` | the IMU reports the variance of a legacy noise that is overridden |
| C226 `C226_slope_refuted` | the IMU turns gravity the wrong way: on a slope it points to the wrong end |
| C226 `C226_aside_refuted` | on slopes of roads at an angle to the x axis the IMU reports gravity sideways |
| C226 `C226_rest_refuted` | the IMU at rest reports the attraction, not the reaction to it |
| C227 `C227_twice_refuted` | in a full turn of the lidar one column is scanned twice |
| C230 `C230_gap_refuted` | the standstill of random tests is counted on after gaps, whatever the speed |
| C230 `C230_backwards_refuted` | driving backwards is a standstill for random tests |
| C231 `C231_silent_refuted` | a random test that is ended by a runtime error reports nothing |
| C231 `C231_last_refuted` | a collision in the frame of the timeout is not reported |
| C232 `C232_beside_refuted` | random tests place entities beyond the end of shorter lanelets beside the ego |
| C233 `C233_behind_refuted` | a goal behind the start on the same lanelet counts as feasible |
| C235 `C235_others_refuted` | a failure to receive on one topic makes the conditions on all topics throw |
| C236 `C236_decimal_refuted` | RelativeHeadingCondition with a decimal point in its third argument is taken for a state of an entity and refused |
| C237 `C237_order_refuted` | of catalogs of the same name, which one is meant depends on the order of an unordered map and of a directory listing |
| C238 `C238_default_refuted` | a ParameterAssignment of a CatalogReference does not replace the default of the parameter that the entry declares |
| C238 `C238_two_refuted` | two CatalogReferences in one maneuver group that assign the same parameter make it ambiguous |
| C239 `C239_start_refuted` | starting the publication of traffic lights again with another rate is ignored without a word |

Seen while reading, outside the models: `InitActions::endsImmediately` joins with `or`; the
action's `overridden` flag is never reset;
`RoutePlanner` shares its routing configuration between entities; a lane change constrained
by time uses the time as a distance; the sensor simulator's `initialize` keeps the previous ego;
`Boolean` ignores trailing text.

## 6. Assumptions per theorem

Output of `Print Assumptions` (most `T_*.v` files also print it while they build).

These use `ClassicalDedekindReals.sig_forall_dec`, `FunctionalExtensionality.functional_extensionality_dep` of the standard library's reals:
`C131_crossing`, `C131_side`, `C131_tolerance_invents_refuted`, `C131_tolerance_misses_refuted`, `C132_absent`, `C132_error`, `C132_point`, `C132_straight_continuation_refuted`, `C134_covers`, `C134_order`, `C134_segments`, `C135_linear`, `C135_linear_degenerate`, `C137_built`, `C138_hermite`, `C144_curve_refuted`, `C144_samples`, `C144_zero_step`, `C145_altitudes`, `C145_below_zero_refuted`, `C146_size`, `C152_acceleration`, `C152_bounds`, `C152_entries`, `C152_entry`, `C152_line`, `C152_refused`, `C157_extended`, `C157_polygon`, `C161_light`, `C161_lights`, `C161_lights_refuted`, `C161_stop_line`, `C162_free`, `C162_yield`, `C163_lateral`, `C163_room`, `C163_room_refuted`, `C163_wrong_sides`, `C165_ahead`, `C165_behind_refuted`, `C165_overlap`, `C165_overlap_refuted`, `C166_nearest`, `C175_consistent`, `C175_spawned`, `C176_direction_refuted`, `C176_ego_guard`, `C176_ego_refuted`, `C176_lane`, `C176_match_refuted`, `C176_on_lane`, `C176_world`, `C177_lane`, `C177_relative_refuted`, `C177_world`, `C177_world_off`, `C178_ego`, `C178_not_ego`, `C178_off`, `C178_same`, `C183_meant`, `C183_refused`, `C183_refuted`, `C183_undefined`, `C185_dropped_refuted`, `C185_goal_refuted`, `C186_agree_refuted`, `C187_asks`, `C187_control_refuted`, `C187_direction_refuted`, `C187_done`, `C187_failed`, `C187_frame`, `C190_ends`, `C190_follow`, `C190_free`, `C190_limit`, `C190_refused`, `C190_taken`, `C190_time`, `C202_hidden_refuted`, `C202_nearby`, `C202_subtype_refuted`, `C206_direction`, `C206_last_refuted`, `C214_between`, `C214_between_unit`, `C214_compose`, `C214_normal`, `C214_rigid`, `C214_unit`, `C218_one`, `C228_all`, `C228_point`, `C229_new`, `C230_backwards_refuted`, `C230_found`, `C230_gap_refuted`, `C231_collision`, `C231_completed`, `C231_last_refuted`, `C231_remembered`, `C231_reports`, `C231_silent_refuted`, `C232_beside_refuted`, `C232_distance`, `C232_ends`, `C232_inside`, `C233_behind_refuted`, `C233_ego`, `C233_npcs`, `C239_asked`, `C239_nothing`, `C239_rate`, `C239_start_refuted`.

These use `ClassicalDedekindReals.sig_not_dec`, `ClassicalDedekindReals.sig_forall_dec`, `FunctionalExtensionality.functional_extensionality_dep` of the standard library's reals:
`C133_found`, `C133_position`, `C133_range`, `C135_quadratic`, `C135_quadratic_double`, `C137_through`, `C138_continuous`, `C138_direction`, `C139_even`, `C139_length`, `C140_backwards_refuted`, `C140_distance_refuted`, `C146_delay`, `C146_late`, `C147_acceleration`, `C147_speed`, `C147_speed_commanded`, `C147_stop_refuted`, `C148_direction`, `C148_park_refuted`, `C148_still`, `C148_stop`, `C149_factor_refuted`, `C149_limit`, `C149_step`, `C150_brakes`, `C150_holds`, `C150_rolls`, `C151_change`, `C151_commanded`, `C151_limit_refuted`, `C154_jerk_refuted`, `C154_plane`, `C154_reported`, `C154_standing`, `C155_nearest`, `C155_order`, `C155_order_refuted`, `C156_direction`, `C156_direction_refuted`, `C156_length`, `C157_outline`, `C164_attained`, `C164_curved_refuted`, `C164_ends`, `C164_straight`, `C176_object`, `C176_relative_refuted`, `C177_object`, `C201_across`, `C201_box`, `C201_first`, `C201_lane`, `C201_neighbours_refuted`, `C201_off_route`, `C201_position`, `C201_route`, `C202_position`, `C203_nearest_refuted`, `C203_none`, `C203_own`, `C203_shortest`, `C204_end`, `C204_failed`, `C204_missing`, `C204_near`, `C204_on_lane`, `C204_within`, `C205_next`, `C205_short`, `C205_stay`, `C207_free`, `C207_nearest`, `C207_order`, `C208_least`, `C208_speed`, `C209_apart`, `C209_front`, `C209_front_refuted`, `C209_separate`, `C209_standing`, `C209_unit`, `C210_corner`, `C210_covers`, `C210_symmetric`, `C214_normalize`, `C214_normalize_refused`, `C216_axes`, `C216_order`, `C216_unit`, `C219_displaced`, `C219_flip`, `C219_height`, `C219_none`, `C219_slope_refuted`, `C222_cloud`, `C222_detected_refuted`, `C222_no_noise`, `C222_unattributed`, `C223_ring`, `C223_squared_refuted`, `C224_across`, `C224_amount_refuted`, `C224_radial`, `C224_tangential`, `C227_cached`, `C227_columns`, `C227_covered`, `C227_ends`, `C227_ray`, `C227_twice_refuted`, `C228_distance`, `C31_acceleration_meets_time`, `C31_acceleration_nonneg`, `C31_deceleration_negative`, `C31_nonneg_refuted`.

These use `ClassicalDedekindReals.sig_not_dec`, `ClassicalDedekindReals.sig_forall_dec`, `FunctionalExtensionality.functional_extensionality_dep`, `Classical_Prop.classic` of the standard library's reals:
`C136_complete`, `C136_lost_refuted`, `C136_residual`, `C136_sound`, `C136_three_exact`, `C141_along`, `C141_along_refuted`, `C141_exact`, `C141_found`, `C141_sound`, `C142_answers`, `C142_first`, `C142_hit`, `C142_line`, `C142_two_points_refuted`, `C143_part`, `C143_range`, `C143_range_refuted`, `C153_forgotten_refuted`, `C153_ideal_refuted`, `C153_memory_refuted`, `C153_motion`, `C153_position`, `C153_standing_refuted`, `C153_waiting`, `C215_finish`, `C215_rate`, `C215_same`, `C215_shortest_refuted`, `C215_start`, `C215_unit`, `C216_direction`, `C216_yaw`, `C216_yaw_given`, `C217_jerk_refuted`, `C217_refused`, `C217_still`, `C218_absolute_refuted`, `C218_acceleration_refuted`, `C218_action`, `C218_before`, `C218_end`, `C218_first_refuted`, `C218_points`, `C218_position`, `C218_single_refuted`, `C218_speed`, `C225_covariance`, `C225_motion`, `C225_noise`, `C225_orientation`, `C225_overridden_refuted`, `C226_aside_refuted`, `C226_rest_refuted`, `C226_slope_refuted`, `C226_strength`, `C226_turned`, `C226_upright`.

These use `ClassicalDedekindReals.sig_forall_dec` of the standard library's reals:
`C163_defined`, `C185_unreachable_refuted`, `C186_taken_refuted`, `C188_refuted`, `C221_first`, `C221_renamed_refuted`, `C221_total`, `C223_lengths`, `C223_ratio_refuted`.

Closed under the global context, that is, no axioms (766 theorems):
`C100_arrived_refuted`, `C100_engage`, `C100_engage_refuted`, `C100_engaged`, `C100_localized`, `C100_planned`, `C100_pose`, `C100_route`, `C101_driving_refuted`, `C101_expires`, `C101_lifted`, `C101_lifted_by_engagement`, `C101_not_before`, `C101_unlimited_refuted`, `C102_joins`, `C102_no_new_task`, `C103_once`, `C103_pose_before_route`, `C103_pose_first`, `C103_replan_refuted`, `C104_arrived`, `C104_driving`, `C104_initializing`, `C104_never_finalizing`, `C104_planning`, `C104_waiting_for_engage`, `C104_waiting_for_route`, `C105_again_refuted`, `C105_once`, `C105_sent`, `C105_thrown`, `C106_gone`, `C106_interrupted_refuted`, `C106_not_killed`, `C106_other_child_refuted`, `C107_current`, `C107_keeps`, `C107_pedestrian`, `C107_vehicle`, `C108_instant_refuted`, `C108_lane_change_refuted`, `C108_pedestrian`, `C108_vehicle`, `C108_walk_refuted`, `C109_decision`, `C109_unique`, `C110_front_beyond_light_refuted`, `C110_front_hides_light_refuted`, `C110_keeps`, `C110_light_hides_front_refuted`, `C110_speed`, `C110_stops`, `C110_yield_hides_light_refuted`, `C111_faster_refuted`, `C111_follows`, `C111_slower`, `C112_crossing`, `C112_detectors_refuted`, `C112_stop_line`, `C112_stuck_refuted`, `C112_tie_refuted`, `C113_backwards`, `C113_once`, `C113_twice_refuted`, `C114_frozen_refuted`, `C114_trajectory_ends`, `C114_trajectory_taken`, `C114_unmeetable`, `C115_best_effort_refuted`, `C115_constraint`, `C115_second_refuted`, `C115_standing_refuted`, `C115_time`, `C116_stands`, `C116_throws_refuted`, `C117_lane`, `C117_off_lane`, `C117_straight`, `C117_straight_for_ever_refuted`, `C117_trajectory`, `C118_deceleration_refuted`, `C118_limits`, `C118_range`, `C119_fails`, `C119_hard_braking`, `C119_reverses_refuted`, `C120_given_up`, `C120_overshoot`, `C120_prediction`, `C120_stop_choice`, `C121_arrival_choice`, `C121_last_frames`, `C121_prediction`, `C121_rounding`, `C122_clamp_refuted`, `C122_ramp`, `C123_closed`, `C123_frame`, `C123_open`, `C124_closed`, `C124_closed_two_refuted`, `C124_finished`, `C124_finishes`, `C125_absolute`, `C125_failures`, `C125_moved`, `C125_window`, `C126_endless_refuted`, `C126_one_lap`, `C126_open_ends`, `C127_backwards_refuted`, `C127_motion`, `C128_braking`, `C128_finishes`, `C128_stops`, `C129_selection_refuted`, `C129_shared`, `C129_times`, `C130_all_ended`, `C130_closed`, `C130_complete`, `C130_forgotten_refuted`, `C130_no_actor_refuted`, `C130_selection_refuted`, `C130_stays`, `C158_element`, `C158_elements`, `C158_elements_error`, `C158_repeated_refuted`, `C158_unknown`, `C159_choice`, `C159_groups`, `C159_order`, `C159_repeated_refuted`, `C159_silent_refuted`, `C160_deterministic`, `C160_deterministic_refuted`, `C160_rejected`, `C160_stochastic`, `C160_stochastic_refuted`, `C166_off_lane`, `C167_bulb`, `C167_direct`, `C167_readable`, `C167_shape_refuted`, `C167_upper_arrows`, `C168_array`, `C168_count`, `C168_dark_refuted`, `C168_formats`, `C168_groups`, `C168_no_others`, `C168_one_group_refuted`, `C168_wide_refuted`, `C169_dark_refuted`, `C169_not_detected`, `C169_predictions`, `C170_no_detector`, `C170_nothing_else`, `C170_shown`, `C170_truth`, `C170_v2i`, `C170_v2i_nothing_else`, `C170_wide_refuted`, `C171_both_refuted`, `C171_dated`, `C171_same`, `C171_unknown_refuted`, `C172_read_refused`, `C172_round_trip`, `C172_status_read`, `C172_status_refused`, `C172_status_sent`, `C173_answered`, `C173_echo`, `C173_read`, `C173_refused`, `C173_sent`, `C173_whole_refuted`, `C174_control`, `C174_control_refuted`, `C174_gear`, `C174_gear_refuted`, `C174_object`, `C174_subtype_refuted`, `C174_trajectory`, `C174_trajectory_read`, `C174_vehicle`, `C179_distance`, `C179_driven_refuted`, `C180_driven`, `C180_ego`, `C180_misc`, `C180_object_refuted`, `C180_road_end_refuted`, `C180_stopped_refuted`, `C181_checked`, `C181_performance`, `C181_unchecked`, `C182_answer`, `C182_arrived_refuted`, `C182_follow`, `C182_forward_refuted`, `C182_passed`, `C182_standing_refuted`, `C184_lanes`, `C184_once`, `C184_points`, `C184_position`, `C185_lanes`, `C185_matched`, `C185_off_lane`, `C185_skipped`, `C186_on_lane`, `C186_refused`, `C188_replan`, `C189_each`, `C189_objects`, `C189_refused`, `C191_complete`, `C191_continuous`, `C191_forgotten_refuted`, `C191_one`, `C191_requests`, `C191_sound`, `C191_step`, `C192_ends`, `C192_order`, `C192_rate_refuted`, `C193_at_once`, `C193_duration_refuted`, `C193_empty`, `C193_gone`, `C193_group_refuted`, `C193_lasts`, `C193_requests`, `C194_before`, `C194_ends`, `C194_environment`, `C194_once`, `C194_order_refuted`, `C195_ends`, `C196_absolute`, `C196_direction`, `C196_far_refuted`, `C196_ignored_refuted`, `C196_kinds`, `C196_reference`, `C196_relative`, `C196_same`, `C197_count`, `C197_none`, `C197_offset`, `C197_two_refuted`, `C198_allowed`, `C198_best`, `C198_distance`, `C198_none`, `C198_offset_refuted`, `C199_answers`, `C199_failed_refuted`, `C199_repeated`, `C199_unloaded`, `C19_phases_in_order`, `C200_answers`, `C200_ends`, `C200_no_race`, `C200_race_refuted`, `C200_replace_refuted`, `C200_safe`, `C20_drift`, `C20_no_phase_overdue`, `C20_phase_lasts`, `C211_goal`, `C211_lost`, `C211_total`, `C212_behind`, `C212_cleared`, `C212_end`, `C212_ended`, `C212_followed`, `C212_kept`, `C212_left_refuted`, `C212_loop_refuted`, `C212_next`, `C212_request`, `C212_success_refuted`, `C213_absolute_refuted`, `C213_in_time`, `C213_last_refuted`, `C213_sampled_refuted`, `C213_untimed_refuted`, `C213_vertex`, `C213_wait`, `C213_zero_refuted`, `C21_never_begins`, `C21_referencing_controller_begins_only_then`, `C21_referencing_controller_follows`, `C21_referencing_controller_follows_refuted`, `C220_dot_refuted`, `C220_found`, `C220_listed`, `C220_wildcards`, `C221_kept`, `C22_accepted`, `C22_cycle_time_bounds`, `C22_cycle_time_is_the_sum`, `C22_cycle_time_is_the_sum_refuted`, `C22_cycle_time_undefined`, `C22_equal_cycles`, `C22_unequal_cycles_accepted`, `C233_found`, `C234_either`, `C234_nothing`, `C234_value`, `C235_again`, `C235_broken`, `C235_defined`, `C235_others_refuted`, `C235_stays`, `C236_compare`, `C236_decimal_refuted`, `C236_dot`, `C236_emergency`, `C236_heading`, `C236_only_state`, `C236_state`, `C236_topic`, `C236_unknown`, `C237_order`, `C237_order_refuted`, `C237_refer`, `C238_assigned`, `C238_declared`, `C238_default_refuted`, `C238_seen`, `C238_twice`, `C238_two_refuted`, `C23_predictions`, `C23_predictions_refuted`, `C24_admissible_accepted`, `C24_declared_values_admissible`, `C24_rejected`, `C25_after_a_failure`, `C25_answers_of_a_queue`, `C25_distribution_refuted`, `C25_failing_load_keeps_scenarios_refuted`, `C25_first_in_first_out`, `C25_first_in_first_out_refuted`, `C25_load_succeeds_iff`, `C26_active_iff`, `C26_active_is_updated`, `C26_at_most_one`, `C27_cleanup_once`, `C27_elapsed`, `C28_continuous_time_refuted`, `C28_current_speed_refuted`, `C28_immediately_if_idle`, `C28_immediately_refuted`, `C28_latest_request_determines_target`, `C28_released_when_reached`, `C29_full_effort`, `C29_overspeed_refuted`, `C29_rate_refuted`, `C29_step`, `C30_always_terminates_refuted`, `C30_no_brakes_never_ends`, `C30_prediction_terminates`, `C30_reaches_and_stays`, `C30_stop_distance_terminates`, `C30_target_above_maximum_never_ends`, `C31_negative_limit_undefined`, `C32_bulb_round_trip`, `C32_light_round_trip`, `C32_parser_exact`, `C32_states_exact`, `C33_bulb_identity`, `C33_light_membership`, `C34_invalid_refused`, `C34_invalid_unchanged_refuted`, `C34_reachable`, `C34_set_replaces`, `C34_unknown_id`, `C35_enable`, `C35_history`, `C35_mirror`, `C35_relation_refuted`, `C35_set_visible`, `C36_any_id_refuted`, `C36_override`, `C36_overrides_reachable`, `C36_requests_reachable`, `C38_refuted`, `C39_refuted`, `C42_refuted`, `C43_entities`, `C43_rejected_despawn`, `C43_rejected_spawn`, `C44_constant_step`, `C44_first_start`, `C44_ros_time`, `C44_ros_time_monotone`, `C44_scenario_time`, `C44_second_start`, `C45_exception`, `C45_names_distinct`, `C45_negative_rate_never_ends`, `C45_rate`, `C45_terminates`, `C45_zero_rate`, `C46_sink`, `C47_predictions_stay`, `C47_predictions_stay_refuted`, `C48_current_phase`, `C48_current_phase_defined`, `C48_current_phase_defined_refuted`, `C49_set_changes_nothing_else`, `C49_set_then_condition`, `C49_set_then_condition_refuted`, `C50_modification`, `C50_modification_refuted`, `C50_not_numeric_rejected`, `C50_subtraction_undefined`, `C50_unsigned_modification`, `C51_constraints_preserved_refuted`, `C51_types_preserved`, `C52_integer_literals`, `C52_negative_unsigned_refuted`, `C52_unsigned_literals`, `C53_overrides_applied`, `C53_variants_kept_apart_refuted`, `C54_limit_in_force`, `C54_limit_in_force_refuted`, `C55_limits_reset`, `C55_limits_restored_refuted`, `C56_frame`, `C56_order`, `C56_succeeds_iff`, `C57_requests_accepted`, `C57_same_entities`, `C57_same_entities_refuted`, `C58_ego_again`, `C58_one_ego`, `C58_one_ego_sensed`, `C58_second_ego_rejected`, `C59_names_kept`, `C59_not_started`, `C59_order_irrelevant`, `C59_simultaneous`, `C60_answer_is_in_front`, `C60_front_entity`, `C60_front_entity_refuted`, `C60_order_dependent`, `C61_predictions`, `C62_compare_after_clear`, `C62_compare_after_set`, `C62_none_refuted`, `C63_stop_distance`, `C64_prediction_error`, `C64_stop_distance_too_short`, `C69_continuous_time_refused`, `C69_linear_time`, `C69_reference_gone_refuted`, `C69_relative_target`, `C69_relative_time`, `C69_relative_to_itself_lost`, `C69_released`, `C69_step`, `C69_step_relative_to_itself`, `C69_unknown_reference`, `C70_expression_means`, `C70_mixing_is_an_error`, `C70_terminates`, `C70_unambiguous`, `C71_division_is_not_an_integer`, `C71_empty_is_zero`, `C71_integers_exact`, `C71_overflow_undefined`, `C71_parameter_value_refuted`, `C72_nothing_left`, `C72_one_answer`, `C72_plain_text_kept`, `C72_refuted`, `C72_substituted`, `C72_unknown_is_an_error`, `C73_default_not_used`, `C73_empty`, `C73_expression`, `C73_expression_of_reference_refuted`, `C73_literal`, `C73_missing`, `C73_reference`, `C73_unknown_reference`, `C73_var`, `C74_at_most_one_verdict`, `C74_frame_verdict`, `C74_load_verdict`, `C74_start_verdict`, `C74_timeout_leaves_no_verdict`, `C74_timeout_refuted`, `C75_no_undefined_behaviour`, `C75_only_while_active`, `C75_plays_only_in_a_run`, `C75_refuted`, `C75_simulator_exists_iff_active`, `C76_accepted_iff_all_passed`, `C76_report`, `C76_shared_entry_refuted`, `C76_suite_totals`, `C77_recorder_per_run`, `C77_refuted`, `C78_exited_for_ever_refuted`, `C78_good_iff`, `C78_intervals`, `C78_largest_is_greatest`, `C78_smallest_is_least`, `C79_inside_in_force`, `C79_nested_overrides_restore`, `C79_overlap_refuted`, `C79_update_lost`, `C80_can_still_end`, `C80_hangs_or_ends`, `C80_refuted`, `C81_ends`, `C81_none_missed`, `C81_refuted`, `C81_traversal`, `C82_objects_are_drawn`, `C82_only_objects_are_drawn`, `C82_refuted`, `C82_small_objects_are_not_drawn`, `C83_as_if_alone`, `C83_nothing_left_over`, `C83_number_of_objects`, `C84_entities`, `C84_fails`, `C84_placed`, `C84_refuted`, `C85_backlog_refuted`, `C85_delay`, `C85_lidar_delay`, `C85_lidar_schedule`, `C85_regular`, `C85_regular_delay`, `C85_schedule`, `C86_detected`, `C86_level`, `C86_plane`, `C86_refuted`, `C87_in_step`, `C87_refuted`, `C88_autocorrelation_refuted`, `C88_beyond`, `C88_memoryless`, `C88_rate`, `C88_v1`, `C88_v1_statics_refuted`, `C88_v3`, `C89_all`, `C89_all_false`, `C89_any`, `C89_any_member_refuted`, `C89_empty`, `C89_error`, `C89_none`, `C89_without_errors`, `C90_accepted`, `C90_forward_reference_refuted`, `C90_members_are_objects`, `C90_object_wins`, `C90_objects`, `C90_reference`, `C90_triggering`, `C91_add`, `C91_add_once_refuted`, `C91_delete`, `C91_deleted`, `C91_not_added`, `C91_present_added`, `C92_ahead_refuted`, `C92_behind`, `C92_position`, `C92_position_quotient`, `C92_quotient`, `C92_receding_refuted`, `C92_unsupported`, `C93_backwards_refuted`, `C93_headway`, `C93_selection`, `C94_entity`, `C94_selection`, `C94_symmetric`, `C94_type`, `C95_all`, `C95_any_refuted`, `C95_listed`, `C95_selection_refuted`, `C96_distance_sign_refuted`, `C96_freespace`, `C96_lane_distance`, `C96_own_values`, `C96_relative_distance`, `C96_relative_distance_symmetric`, `C96_relative_speed`, `C96_relative_speed_aligned`, `C96_relative_speed_length`, `C96_unsupported`, `C97_acts`, `C97_answer`, `C97_answer_state`, `C97_begins`, `C97_ends`, `C97_in_order`, `C97_question`, `C98_accepted_after_failure_refuted`, `C98_cause`, `C98_every_request_throws`, `C98_nothing_after`, `C98_nothing_more`, `C99_finished`, `C99_sent`, `absolute_iff_leading_separator`, `absolute_reference`, `absolute_reference_parsed`, `active_group_description_undefined_refuted`, `active_group_is_first_true`, `activity_needs_active_ancestors`, `adjacent_distance_is_closest`, `all_skip_at_most_one_running`, `along_and_canonicalize_agree`, `along_backward_lands`, `along_can_be_undone`, `along_composes`, `along_composes_both_ways`, `along_ends`, `along_fails`, `along_forward_lands`, `along_is_canonicalize_refuted`, `along_route_lands`, `alternatives_always_end`, `alternatives_backward`, `alternatives_backward_complete`, `alternatives_forward`, `alternatives_forward_complete`, `alternatives_on_lane_refuted`, `answers_take_effect`, `box_distance_antisymmetric`, `box_distance_gap`, `broken_route_refuted`, `canonical_is_alternative`, `canonicalize_backward`, `canonicalize_backward_is_upstream`, `canonicalize_fails`, `canonicalize_fails_when`, `canonicalize_finds`, `canonicalize_forward`, `canonicalize_idempotent`, `canonicalize_keeps`, `canonicalize_terminates`, `child_executions_bounded`, `children_execute_once_per_execution`, `complete_after_end_or_stop`, `complete_has_nothing_executing`, `complete_is_quiet`, `completion_leaves_nothing_executing`, `condition_follows_definition`, `condition_without_delay`, `distance_antisymmetric`, `distance_defined_both_ways`, `distance_is_the_shorter_way`, `distance_on_one_lanelet`, `distance_over_lane_changes`, `distance_to_alternatives_refuted`, `distances_add_up`, `driving_the_distance_arrives`, `edge_missed_nonuniform_refuted`, `edge_reported_exactly_once`, `edge_reported_once_nonuniform_refuted`, `end_complete_iff_exhausted`, `end_only_when_children_complete`, `entity_condition_meaning`, `equality_rules_complementary`, `equality_rules_complementary_refuted`, `equality_rules_cover`, `event_executions_bounded`, `every_frame_serves_everything_due`, `execution_limit_zero_refuted`, `executions_bounded`, `exit_only_by_action`, `finished_never_executes_again`, `finished_stays_finished_refuted`, `following_covers`, `following_route_covers`, `following_route_refuses`, `following_route_succeeds`, `following_terminates`, `forward_distance_is_travelled`, `found_is_visible_definition`, `frame_terminates`, `history_bounded`, `history_bounded_uniform`, `join_separate`, `last_of_route_refuted`, `nearest_alternative`, `nearest_alternative_exists`, `new_route_leads_to_waypoint`, `no_alternative`, `no_route_no_distance`, `nothing_below_complete`, `nothing_pending_after_frame`, `on_lane_alternative`, `only_reached_refuted`, `order_rules_complementary`, `override_leaves_single_running`, `own_definition_shadows`, `parse_undefined_iff_empty`, `planned_lanelets_are_drivable`, `planner_always_answers`, `planner_leads_refuted`, `previous_covers`, `previous_terminates`, `progress_needs_parent`, `qualified_reference_goes_through_qualifier`, `qualified_reference_resolves`, `qualifier_escaped_refuted`, `reached_waypoint_removed`, `reexecution_refuted`, `reexecution_restarts_children`, `reference_terminates`, `relative_reference_roundtrip`, `restart_only_by_parent`, `route_canonicalize_backward`, `route_canonicalize_fails`, `route_canonicalize_finds`, `route_canonicalize_forward`, `route_canonicalize_terminates`, `rules_are_the_relations`, `run_after_start`, `running_has_unfinished_child`, `scopes_record_the_program`, `second_waypoint_refuted`, `separate_join`, `settled_between_frames`, `skip_never_beside_running`, `skipped_event_untouched`, `standard_lifecycle_refuted`, `start_needs_trigger`, `state_condition_is_ever_visited`, `state_condition_only_if_refuted`, `state_condition_sees_every_visit`, `sticky_stays`, `stop_finishes_in_frame`, `stop_needs_reason`, `stop_reaches_descendants_refuted`, `stop_trigger_completes`, `transitions_contiguous`, `transitions_lawful`, `trigger_corner_cases`, `trigger_evaluates_all_once`, `trigger_is_or_of_ands`, `trigger_updates_each_condition`, `triggering_entities_rules`, `unknown_qualifier_refuted`, `unqualified_reference_resolution`, `unreachable_alternative_refuted`, `waypoints_removed_in_order`.
