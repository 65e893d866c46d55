{"id": "C01", "title": "Storyboard elements only make lifecycle transitions", "statement": "In every run of a scenario, each state change that a storyboard element (Storyboard, Story, Act, ManeuverGroup, Maneuver, Event, Action) reports to its transition callbacks is one of: standby->start, start->running, running->end, end->standby, end->complete, stop->complete, start/running/end/complete->stop, start->standby (skip), and start ordered by the parent. In particular nothing is reported to run without having started and nothing completes without having ended or having been stopped.", "quantifier": "every storyboard tree, every sequence of trigger outcomes and action-completion outcomes, every number of frames", "why_tests_cant": "The set of runs is unbounded: tests only see particular trigger timings on particular trees.", "anchors": ["openscenario/openscenario_interpreter/include/openscenario_interpreter/syntax/storyboard_element.hpp: StoryboardElement::evaluate, transitionTo, override", "openscenario/openscenario_interpreter/src/syntax/event.cpp: Event::Event, Event::start", "openscenario/openscenario_interpreter/src/syntax/maneuver_group.cpp: ManeuverGroup::start"]}
{"id": "C02", "title": "Evaluating the storyboard always returns", "statement": "One call of Storyboard::evaluate (one frame) terminates: the dispatch loop of every element is left after a number of iterations bounded by its remaining executions, whatever the triggers answer.", "quantifier": "every storyboard tree, every state it can be in, every trigger and action outcome", "why_tests_cant": "Termination for all trigger outcomes is not observable by any finite set of runs.", "anchors": ["openscenario/openscenario_interpreter/include/openscenario_interpreter/syntax/storyboard_element.hpp: StoryboardElement::evaluate"]}
{"id": "C03", "title": "maximumExecutionCount bounds the number of executions", "statement": "An Event with maximumExecutionCount n (n >= 1) enters runningState at most n times between two restarts by its parent, and it reports completeState by itself only after exactly n executions.", "quantifier": "every n, every history of trigger outcomes, priorities and sibling behaviour", "why_tests_cant": "Needs all histories: an extra execution may only show up under one interleaving of overrides, skips and completions.", "anchors": ["openscenario/openscenario_interpreter/include/openscenario_interpreter/syntax/storyboard_element.hpp: current_execution_count, maximum_execution_count", "openscenario/openscenario_interpreter/src/syntax/event.cpp: Event::Event"]}
{"id": "C04", "title": "A finished element stays finished", "statement": "Once an element that its parent cannot restart (anything but a Maneuver or an Action) has been complete, it is never in any other state than completeState or, when overridden by a sibling Event, stopTransition: it never starts, runs or ends again. A Maneuver or an Action leaves completeState only when its parent begins a new execution. Nothing at all happens below a completed element. (That an overridden complete Event never leaves completeState is false of the code; this is proved as a refutation.)", "quantifier": "every element, every later frame, every stop/start trigger outcome", "why_tests_cant": "Quantifies over all futures of a run.", "anchors": ["openscenario/openscenario_interpreter/include/openscenario_interpreter/syntax/storyboard_element.hpp: StoryboardElement::evaluate (completeState, stopTransition)"]}
{"id": "C05", "title": "Stopping a parent stops what is executing below it", "statement": "When the stop trigger of an Act or of the Storyboard fires while it is executing, its stop is the next thing that happens and it is complete at the end of that frame; whenever an element is complete, the only descendants that can be left executing are those that the stop itself started out of standby (and what is inside them), and nothing happens below the completed element any more. (That the stop never starts anything is false of the code; this is proved as a refutation.)", "quantifier": "every tree below the stopped element, every state of the descendants, every trigger outcome while stopping", "why_tests_cant": "The faulty case needs a descendant whose own start trigger fires in the very evaluation that stops its parent.", "anchors": ["openscenario/openscenario_interpreter/include/openscenario_interpreter/syntax/storyboard_element.hpp: StoryboardElement::stop, override, evaluate", "openscenario/openscenario_interpreter/src/syntax/action.cpp: Action::stop"]}
{"id": "C06", "title": "Override priority leaves a single running Event", "statement": "When an Event with priority override starts, every other Event of the same Maneuver that was executing leaves runningState before that Event is evaluated, is never returned to runningState by that evaluation, and Events in standby are left untouched.", "quantifier": "every Maneuver, any number of Events in any states", "why_tests_cant": "All sibling-state combinations are unbounded.", "anchors": ["openscenario/openscenario_interpreter/src/syntax/event.cpp: Event::start", "openscenario/openscenario_interpreter/src/syntax/maneuver.cpp: Maneuver::overrideEvents"]}
{"id": "C07", "title": "Skip priority never starts beside a running sibling", "statement": "An Event with priority skip whose start trigger fires while another Event of the same Maneuver is running goes back to standby without starting or running any of its Actions and without consuming an execution; if all Events of a Maneuver have priority skip, at most one of them is running at any time.", "quantifier": "every Maneuver, every number of Events, every history", "why_tests_cant": "Mutual exclusion is a statement over all histories.", "anchors": ["openscenario/openscenario_interpreter/src/syntax/event.cpp: Event::Event", "openscenario/openscenario_interpreter/src/syntax/maneuver.cpp: Maneuver::running_events_count"]}
{"id": "C08", "title": "A parent's new execution re-executes its children", "statement": "Each time a ManeuverGroup or an Event starts running all its direct children have just been started, and each time it ends normally each direct child has been executed as often as itself. (That the Events below a re-executed ManeuverGroup are executed again is false of the code; this is proved as a refutation.)", "quantifier": "every ManeuverGroup and n >= 2", "why_tests_cant": "Requires reasoning on all storyboards below the group; a single example may pass or fail by the shape of the tree.", "anchors": ["openscenario/openscenario_interpreter/src/syntax/maneuver_group.cpp: ManeuverGroup::start", "openscenario/openscenario_interpreter/src/syntax/maneuver.cpp", "openscenario/openscenario_interpreter/include/openscenario_interpreter/syntax/storyboard_element.hpp"]}
{"id": "C09", "title": "Completion flows upward exactly", "statement": "A composite element ends normally exactly when all its children are complete: it never ends normally with an incomplete child, and it ends in the frame in which its last child completes.", "quantifier": "every tree, every frame", "why_tests_cant": "Ranges over all trees and histories.", "anchors": ["openscenario/openscenario_interpreter/include/openscenario_interpreter/syntax/storyboard_element.hpp: accomplished, evaluate"]}
{"id": "C10", "title": "Triggers are ORs of ANDs and never short-circuit", "statement": "Trigger::evaluate is true iff some ConditionGroup has all of its Conditions true in this evaluation (no group: false, empty group: true), and every Condition of every group is evaluated exactly once, in document order, whatever the outcomes.", "quantifier": "every trigger (any number of groups and conditions), every vector of outcomes", "why_tests_cant": "Unbounded group and condition counts; the once-each claim is about side effects on all of them.", "anchors": ["openscenario/openscenario_interpreter/src/syntax/trigger.cpp: Trigger::evaluate", "openscenario/openscenario_interpreter/src/syntax/condition_group.cpp: ConditionGroup::evaluate"]}
{"id": "C11", "title": "Delayed and edged conditions follow the OpenSCENARIO definition", "statement": "At evaluation time t a Condition with delay d and edge none returns the value its expression had at the latest evaluation not later than t-d (false if there is none); rising, falling and risingOrFalling compare that value with the one of the evaluation just before it; sticky is the OR of all such values so far. Discarding old history entries never changes any answer.", "quantifier": "every non-decreasing sequence of evaluation times, every sequence of expression values, every delay", "why_tests_cant": "History is unbounded and pruned on the fly, a wrong prune shows only for some delays and timings.", "anchors": ["openscenario/openscenario_interpreter/include/openscenario_interpreter/syntax/condition.hpp: Condition::update_condition", "openscenario/openscenario_interpreter/src/syntax/condition.cpp: Condition::evaluate", "openscenario/openscenario_interpreter/include/openscenario_interpreter/syntax/condition_edge.hpp"]}
{"id": "C12", "title": "Each edge is reported exactly once under uniform sampling", "statement": "With evaluations every dt seconds and a delay d >= 0, a rising (falling) condition is true at evaluation n iff the expression rose (fell) exactly at evaluation n - ceil(d/dt).", "quantifier": "every dt > 0, d >= 0, every expression history", "why_tests_cant": "All delays and histories.", "anchors": ["openscenario/openscenario_interpreter/include/openscenario_interpreter/syntax/condition.hpp: Condition::update_condition"]}
{"id": "C13", "title": "The stored condition history stays bounded", "statement": "The number of stored history entries of a Condition never exceeds the number of evaluations in the last delay window plus two, so long scenarios do not accumulate memory.", "quantifier": "every run length and delay", "why_tests_cant": "Claims about unbounded runs.", "anchors": ["openscenario/openscenario_interpreter/include/openscenario_interpreter/syntax/condition.hpp: Condition::update_condition"]}
{"id": "C14", "title": "StoryboardElementStateCondition sees every visit of the monitored state", "statement": "If the referenced element enters the monitored state at any time, even transiently between two evaluations, every later evaluation is true; and an evaluation is true only if the element was in that state at some time. (That it is true only if the element is, or since the previous evaluation has been, in that state is false of the code: the condition latches. This is proved as a refutation.)", "quantifier": "every interleaving of element transitions and condition evaluations", "why_tests_cant": "Interleavings of callbacks and evaluations are unbounded.", "anchors": ["openscenario/openscenario_interpreter/src/syntax/storyboard_element_state_condition.cpp"]}
{"id": "C15", "title": "Comparison rules are the mathematical relations", "statement": "Rule and TriggeringEntitiesRule: lessThan/greaterOrEqual and greaterThan/lessOrEqual are complementary for all comparable values; equalTo/notEqualTo are complementary where values are compared exactly, and for every pair of finite values at least one of them holds where equalTo has a tolerance (both hold within the tolerance, proved as a refutation of complementarity); 'all', 'any' and 'none' are the universal, existential and negated existential quantifier over the triggering entities.", "quantifier": "every pair of values, every list of entities", "why_tests_cant": "Infinite value domains and list lengths.", "anchors": ["openscenario/openscenario_interpreter/include/openscenario_interpreter/syntax/rule.hpp: Rule::operator()", "openscenario/openscenario_interpreter/include/openscenario_interpreter/syntax/triggering_entities_rule.hpp: apply"]}
{"id": "C16", "title": "Qualified names split and print back", "statement": "Splitting a reference on '::' and joining the pieces gives the reference back; a name whose components contain no ':' splits into exactly these components; a leading '::' marks it absolute.", "quantifier": "every string", "why_tests_cant": "All strings.", "anchors": ["openscenario/openscenario_interpreter/include/openscenario_interpreter/name.hpp: Prefixed::separate, Prefixed::Prefixed"]}
{"id": "C17", "title": "An unqualified reference resolves to the innermost enclosing definition", "statement": "Scope lookup of an unqualified name returns the unique object of the requested type in the nearest enclosing scope that (through unnamed sub-scopes) defines one; two candidates at the same distance are rejected as ambiguous; definitions in outer scopes never shadow inner ones.", "quantifier": "every scope tree, every name", "why_tests_cant": "Unbounded nesting and shadowing.", "anchors": ["openscenario/openscenario_interpreter/include/openscenario_interpreter/scope.hpp: EnvironmentFrame::find, ref"]}
{"id": "C18", "title": "A qualified reference resolves through its qualifier", "statement": "A reference A::x that resolves has gone through a visible scope named A to the scope of x or an enclosing one, or else no scope named A is visible and it was resolved from the outermost scope with the qualifier ignored; through existing unambiguous qualifiers it resolves to the object defined there. (That it is undefined in the other two cases is false of the code; both are proved as refutations.)", "quantifier": "every scope tree, every qualified name", "why_tests_cant": "All trees; the faulty case is a missing qualifier.", "anchors": ["openscenario/openscenario_interpreter/src/scope.cpp: EnvironmentFrame::lookupFrame, resolvePrefix", "openscenario/openscenario_interpreter/include/openscenario_interpreter/scope.hpp: find, ref"]}
{"id": "C19", "title": "A traffic signal controller cycles through its phases in order", "statement": "A controller without reference starts in its first phase at its first evaluation and from then on moves from phase i to phase i+1 (the last to the first), never skipping or reordering one, and only after the phase's duration has elapsed since the phase began.", "quantifier": "every list of phases, every non-decreasing sequence of evaluation times", "why_tests_cant": "All evaluation schedules and cycle lengths.", "anchors": ["openscenario/openscenario_interpreter/src/syntax/traffic_signal_controller.cpp: evaluate, changePhaseTo, currentPhaseExceeded", "openscenario/openscenario_interpreter/include/openscenario_interpreter/iterator/circular_iterator.hpp"]}
{"id": "C20", "title": "A phase lasts its duration, and at most one frame longer", "statement": "With evaluations every dt, a phase of duration d > 0 is shown for at least d and less than d + dt seconds, and a phase of duration 0 for exactly one frame; the excess accumulates as drift of at most dt per phase change.", "quantifier": "every dt, every duration >= 0, every number of cycles", "why_tests_cant": "Drift bounds are statements over unbounded time.", "anchors": ["openscenario/openscenario_interpreter/src/syntax/traffic_signal_controller.cpp: evaluate, currentPhaseExceeded, changePhaseTo"]}
{"id": "C21", "title": "A referencing controller starts its cycle 'delay' after the referenced one", "statement": "A controller with reference R and delay d begins its first phase at the first evaluation later than (time of the latest begin of R) + d, once per begin of R; otherwise it begins its first phase only when its own cycle is complete. (That every begin of R is followed is false of the code: a new begin of R before the delay is over postpones the pending one. This is proved as a refutation.)", "quantifier": "every evaluation schedule, every delay", "why_tests_cant": "All schedules.", "anchors": ["openscenario/openscenario_interpreter/src/syntax/traffic_signal_controller.cpp: notifyBegin, shouldChangePhaseToBegin", "openscenario/openscenario_interpreter/src/syntax/traffic_signals.cpp"]}
{"id": "C22", "title": "cycleTime is the sum of the phase durations", "statement": "The cycle time used to compare a controller with its reference equals the sum of the durations of its phases if these are whole seconds; for any finite durations it is at most the sum, and less than one second per phase below it; with an infinite phase it is undefined. A controller with a reference is accepted exactly if its delay is not negative and both cycle times so computed are equal. (That it is the sum for any durations is false of the code; this is proved as a refutation.)", "quantifier": "every list of durations", "why_tests_cant": "Truncation only shows for fractional durations.", "anchors": ["openscenario/openscenario_interpreter/src/syntax/traffic_signal_controller.cpp: cycleTime", "openscenario/openscenario_interpreter/src/syntax/traffic_signals.cpp: resolve_reference"]}
{"id": "C23", "title": "V2I predictions list the next phases in order", "statement": "For phases of whole seconds, the predictions published at a phase change are for the following phases in cyclic order, with times equal to the remaining time of the current phase plus the durations of the phases in between, at most six of them. (For other durations this is false of the code, because of the truncated cycle time; this is proved as a refutation.)", "quantifier": "every list of phases, every current phase and time", "why_tests_cant": "All phase lists.", "anchors": ["openscenario/openscenario_interpreter/src/syntax/traffic_signal_controller.cpp: updatePredictions"]}
{"id": "C24", "title": "A declared parameter satisfies its constraints", "statement": "A ParameterDeclaration yields a value only if it has no constraint groups or at least one group all of whose constraints hold for the value; otherwise the scenario is rejected. Names with the reserved prefix OSC are always rejected.", "quantifier": "every declaration, every list of groups", "why_tests_cant": "All constraint lists and values.", "anchors": ["openscenario/openscenario_interpreter/src/syntax/parameter_declaration.cpp", "openscenario/openscenario_interpreter/src/syntax/value_constraint_group.cpp"]}
{"id": "C25", "title": "The preprocessor hands out scenarios first-in first-out", "statement": "Every answer the preprocessor gives to any sequence of requests about scenarios is that of a first-in first-out queue which a failing load empties: scenarios are derived in load order, each once; Check answers whether one is left; a derive on an empty queue reports the absence without changing anything; a load succeeds exactly when the file is there, valid and its path does not defeat the preparation. (That a failing load loses no scenario loaded before is false of the code, and a valid parameter distribution is never accepted: loading one fails and empties the queue; both are proved as refutations.)", "quantifier": "every sequence of Load, Derive, Check and SetParameter requests", "why_tests_cant": "Unbounded service-call histories.", "anchors": ["openscenario/openscenario_preprocessor/src/openscenario_preprocessor.cpp"]}
{"id": "C26", "title": "At most one active job per kind", "statement": "After any sequence of requests and updates, for each (job type, exclusiveness) at most one job of an entity is active, and it is the most recently requested one that has not finished.", "quantifier": "every sequence of append/update operations", "why_tests_cant": "All histories.", "anchors": ["simulation/traffic_simulator/src/job/job_list.cpp: JobList::append, update", "simulation/traffic_simulator/src/job/job.cpp"]}
{"id": "C27", "title": "A job's cleanup runs exactly once and it never runs again afterwards", "statement": "Each job's cleanup callback is invoked at most once, exactly when the job becomes inactive (it finished or was replaced); its update function is never called after that; its k-th call gets the elapsed time (k-1)*step.", "quantifier": "every sequence of append/update operations, every job behaviour", "why_tests_cant": "All histories.", "anchors": ["simulation/traffic_simulator/src/job/job.cpp: Job::onUpdate, inactivate", "simulation/traffic_simulator/src/job/job_list.cpp"]}
{"id": "C28", "title": "The latest speed request determines the target speed", "statement": "After a speed change request for v that is not ignored, the entity's target speed is v from the end of its next update on (at once if no other speed request was in force), until an update finds v reached (never, if the request is continuous) or a newer request is made, whatever requests preceded it; it is released at the first update that finds v reached. A request is ignored if v is already reached, unless it is continuous and not time-constrained.", "quantifier": "every history of requestSpeedChange calls and updates", "why_tests_cant": "Interaction of the new request with cleanup of the replaced job depends on history.", "anchors": ["simulation/traffic_simulator/src/entity/entity_base.cpp: requestSpeedChange, requestSpeedChangeWithConstantAcceleration", "simulation/traffic_simulator/src/job/job_list.cpp"]}
{"id": "C29", "title": "Speed planning never overshoots and respects the limits", "statement": "From a speed within the maximum, one planning step moves the speed monotonically toward the target, limited to the maximum speed, without passing it; the new acceleration is within [-max_deceleration, max_acceleration] and in the direction of the target; it builds up by at most the rate limit times the step (but may fall to zero, or to what just meets the target, at once), and unless the target is met it is the strongest these limits allow. A speed above the maximum is cut to the maximum at once, whatever deceleration that takes.", "quantifier": "every speed, acceleration, target of at least -max_speed, step and set of non-negative constraints", "why_tests_cant": "Real-valued inputs.", "anchors": ["simulation/traffic_simulator/src/behavior/longitudinal_speed_planning.cpp: getDynamicStates, planLinearJerk, forward"]}
{"id": "C30", "title": "Repeated speed planning reaches the target", "statement": "Iterating the planning step with fixed positive constraints brings the speed to the target, limited to the maximum speed, in finitely many steps and keeps it there; the running-distance prediction terminates for a target of at most max_speed + 0.01. Outside these conditions it need not: for a higher target, or without any deceleration, it never ends.", "quantifier": "every initial state and reachable target", "why_tests_cant": "Convergence is about unbounded iteration.", "anchors": ["simulation/traffic_simulator/src/behavior/longitudinal_speed_planning.cpp: getRunningDistance, getDynamicStates"]}
{"id": "C31", "title": "Constraints planned for an acceleration in a given time", "statement": "For a target not below the current speed, the constraints returned by planConstraintsFromJerkAndTimeConstraint make the target be reached exactly at the given time, by one constant jerk or by building up the returned acceleration at the jerk limit and keeping it; they are non-negative if the current acceleration is non-negative and does not exceed the target by itself. Not so for a lower target: from a steady speed the returned deceleration is always negative, and the following planning step undefined.", "quantifier": "every set of constraints, duration, current speed and acceleration, and target speed", "why_tests_cant": "Real-valued inputs.", "anchors": ["simulation/traffic_simulator/src/behavior/longitudinal_speed_planning.cpp: planConstraintsFromJerkAndTimeConstraint"]}
{"id": "C32", "title": "Traffic light states print and parse back", "statement": "Every bulb (color, status, shape) printed by the simulator is parsed back to the same bulb, and the printed text of a whole light parses to the same set of bulbs. The parser accepts exactly the texts 'color [status] [shape]' (comma separated for several bulbs), whatever the iteration order of its name tables.", "quantifier": "every bulb, every set of bulbs", "why_tests_cant": "All sets of bulbs.", "anchors": ["simulation/traffic_simulator/src/traffic_lights/traffic_light.cpp: Bulb::make, operator<<, TrafficLight::set", "simulation/traffic_simulator/include/traffic_simulator/traffic_lights/traffic_light.hpp"]}
{"id": "C33", "title": "Distinct bulbs are never identified", "statement": "Two bulbs compare equivalent in a light's bulb set iff they have the same color, status and shape.", "quantifier": "every pair of bulbs", "why_tests_cant": "Depends on the packing of three fields into one hash.", "anchors": ["simulation/traffic_simulator/include/traffic_simulator/traffic_lights/traffic_light.hpp: Bulb::hash, operator<"]}
{"id": "C34", "title": "Setting a light state replaces the previous one", "statement": "After setTrafficLightsState(id, s) every light addressed by id shows exactly the bulbs of s; lights not addressed are unchanged; an invalid s or an unknown id is refused with an exception. (An invalid s is not guaranteed to leave the addressed lights as they were.)", "quantifier": "every id, every state string, every previous state", "why_tests_cant": "All histories and strings.", "anchors": ["simulation/traffic_simulator/src/traffic_lights/traffic_lights_base.cpp: setTrafficLightsState, clearTrafficLightsState, addTrafficLightsState"]}
{"id": "C35", "title": "V2I lights mirror the conventional lights", "statement": "Once V2I is enabled for a light (through its own id or through a relation), the V2I channel shows the same bulbs as the conventional channel after any history of operations on the light's own id, until a V2I-specific state is set, the feature is switched off, or the light is addressed through a relation id.", "quantifier": "every history of set/add/clear/enable operations, way ids and relation ids", "why_tests_cant": "All histories and id kinds.", "anchors": ["simulation/traffic_simulator/include/traffic_simulator/traffic_lights/traffic_lights.hpp: TrafficLights, setV2IFeature", "simulation/traffic_simulator/src/traffic_lights/traffic_lights_base.cpp"]}
{"id": "C36", "title": "Detected-state overrides replace the ground truth", "statement": "Applying detected traffic light overrides that were given for light ids to an update request gives exactly one state per light; for overridden lights it is the override (with its confidence), for the others the ground truth.", "quantifier": "every request and override map", "why_tests_cant": "All requests.", "anchors": ["simulation/traffic_simulator/include/traffic_simulator/traffic_lights/traffic_lights.hpp: DetectedTrafficLights::apply"]}
{"id": "C37", "title": "Canonicalised lane poses stay on the road at the same place", "statement": "canonicalizeLaneletPose ends and returns a pose with 0 <= s <= length of its lanelet and the same offset that lies the same travelled distance along a chain of successive (for s < 0 preceding) lanelets as the input, at each branch the first; it fails exactly when that road ends first, and names the lanelet where it ends; a pose already on its lanelet is returned unchanged.", "quantifier": "every road graph with positive lengths, every s", "why_tests_cant": "Unbounded s and graphs, termination included.", "anchors": ["simulation/traffic_simulator/src/lanelet_wrapper/pose.cpp: canonicalizeLaneletPose"]}
{"id": "C38", "title": "Canonicalising along a route keeps the place and the route", "statement": "For s >= 0, canonicalizeLaneletPose(pose, route) ends and returns the pose at the same travelled distance along the lanelets of the route, with s inside its lanelet, and fails exactly when the route ends first -- provided no lanelet has two continuations on the route (otherwise the length is taken off twice and s may be negative); a pose with s < 0 is canonicalised without regard to the route.", "quantifier": "every graph and route", "why_tests_cant": "Branches where two successors are both on the route are rare.", "anchors": ["simulation/traffic_simulator/src/lanelet_wrapper/pose.cpp: canonicalizeLaneletPose(\u2026, route)"]}
{"id": "C39", "title": "Moving along the lane composes", "statement": "alongLaneletPose(p, d) ends, and gives the pose d metres further (for negative results, back) along a chain of successive lanelets, straight ones preferred, with s inside the final lanelet, or fails when that road ends; moving d1 then d2 in one direction equals moving d1+d2; on a road without branches this holds for any signs and moving back undoes the move (over a merge it need not); where roads do not fork it agrees with canonicalising, up to the side of a lanelet boundary.", "quantifier": "every graph, pose and distances", "why_tests_cant": "All graphs and distances.", "anchors": ["simulation/traffic_simulator/src/lanelet_wrapper/pose.cpp: alongLaneletPose"]}
{"id": "C40", "title": "Following lanelets form a connected path covering the horizon", "statement": "followingLanelets(id, d) and previousLanelets(id, d) end and return id (if requested) and a connected chain of preferred successors (predecessors) whose length reaches d unless the road ends, with none superfluous; with a route, the result follows the route from id, goes on over preferred successors, and a lanelet not on the route is refused; on a connected route the call that includes the current lanelet succeeds (without it, it fails on the last lanelet; on a disconnected route the error path is undefined behaviour).", "quantifier": "every graph, id and horizon", "why_tests_cant": "All graphs.", "anchors": ["simulation/traffic_simulator/src/lanelet_wrapper/route.cpp: followingLanelets, previousLanelets"]}
{"id": "C41", "title": "A waypoint queue yields a connected route starting at the entity", "statement": "In every history RoutePlanner::getRouteLanelets answers with a connected list of lanelets that starts at the entity and reaches the horizon unless the road ends; it drops waypoints only in order and only on the entity's lanelet, a passed first waypoint always; with no route planned before, the list leads to the first waypoint. (A route planned earlier is not given up for new or next waypoints, and an unreached waypoint on the same lanelet can be dropped.)", "quantifier": "every history of setWaypoints/getRouteLanelets/cancelRoute calls", "why_tests_cant": "All histories.", "anchors": ["simulation/traffic_simulator/src/behavior/route_planner.cpp"]}
{"id": "C42", "title": "Signed longitudinal distance is the shorter way and antisymmetric", "statement": "Along a route that follows the lanes the forward distance is what one travels: moving along the route by it arrives at the target; distances add up; on one lanelet it is the difference of the coordinates. The longitudinal distance is the shorter of the ways there and back, negative for back; for poses without alternatives the distance from b to a is the negation of that from a to b, unless both ways are equally long, and both are defined or neither; with adjacent lanelets it is the closest of all candidate pairs; the distance between bounding boxes is antisymmetric too.", "quantifier": "every pair of poses on every graph", "why_tests_cant": "Fails only on ties in loops.", "anchors": ["simulation/traffic_simulator/src/utils/distance.cpp: longitudinalDistance", "simulation/traffic_simulator/src/lanelet_wrapper/distance.cpp"]}
{"id": "C43", "title": "Entity names are unique and despawned entities disappear", "statement": "At any time no two entities have the same name; despawnEntity removes exactly the named entity; spawning an existing name is rejected and changes nothing.", "quantifier": "every sequence of spawn/despawn", "why_tests_cant": "All histories.", "anchors": ["simulation/traffic_simulator/include/traffic_simulator/entity/entity_manager.hpp: spawnEntity", "simulation/traffic_simulator/src/entity/entity_manager.cpp: despawnEntity"]}
{"id": "C44", "title": "Simulation time advances by exactly one step per update", "statement": "After start, the scenario time after n successful frames is n * realtime_factor / frame_rate (the sum of the steps in force when the factor changes), independent of when it was started, and undefined before; a second start is rejected and changes nothing; the published ROS time is the elapsed time rounded down to a nanosecond and never decreases.", "quantifier": "every n, factor and frame rate", "why_tests_cant": "Unbounded n.", "anchors": ["simulation/traffic_simulator/src/simulation_clock/simulation_clock.cpp", "simulation/traffic_simulator/include/traffic_simulator/simulation_clock/simulation_clock.hpp"]}
{"id": "C45", "title": "A traffic source spawns at the configured rate", "statement": "A traffic source of positive rate r starting at t0 spawns its k-th entity (k = 0, 1, ...) in the first update later than t0 + k / r, exactly once and in order, in any pattern of update times, unless a spawn throws (then it is retried); the entity names of all sources are pairwise different, and every update ends.", "quantifier": "every rate, every update schedule", "why_tests_cant": "All schedules.", "anchors": ["simulation/traffic_simulator/src/traffic/traffic_source.cpp: execute"]}
{"id": "C46", "title": "A traffic sink removes exactly what reached it", "statement": "A sink despawns every entity of a configured type within its radius and no other entity.", "quantifier": "every set of entities and positions", "why_tests_cant": "All configurations.", "anchors": ["simulation/traffic_simulator/src/traffic/traffic_sink.cpp: execute"]}
{"id": "C47", "title": "Predictions stay published until the next phase change", "statement": "The V2I predictions published for a light remain unchanged until some controller changes its phase. (That they stay until the controller of that light changes its phase is false of the code; this is proved as a refutation.)", "quantifier": "every set of controllers, every sequence of frames and actions", "why_tests_cant": "Interaction of several controllers over all schedules.", "anchors": ["openscenario/openscenario_interpreter/src/syntax/traffic_signal_controller.cpp: updatePredictions", "simulation/traffic_simulator/src/traffic_lights/traffic_lights.cpp: clearTrafficLightsStatePredictions"]}
{"id": "C48", "title": "The current phase of a controller", "statement": "The phase a TrafficSignalControllerCondition compares is the one the controller began last, whatever the controller and history, and undefined exactly while it has begun none; a controller without a reference has begun one after the first evaluation. (That this holds of every controller is false of the code; this is proved as a refutation.)", "quantifier": "every set of controllers, every sequence of frames", "why_tests_cant": "Undefined behaviour is invisible to a passing test.", "anchors": ["openscenario/openscenario_interpreter/src/syntax/traffic_signal_controller.cpp: currentPhaseName", "openscenario/openscenario_interpreter/src/syntax/traffic_signal_controller_condition.cpp: evaluate"]}
{"id": "C49", "title": "A condition sees the value an action has set", "statement": "After a ParameterSetAction has given a parameter the literal s, a ParameterCondition comparing that parameter with s is true for equalTo, lessOrEqual and greaterOrEqual and false for the other rules, unless the value is the double nan; no other parameter changes. (The exception is proved needed as a refutation.)", "quantifier": "every parameter type, every literal, every set of parameters", "why_tests_cant": "All literals of all types; set and compare read literals with different code.", "anchors": ["openscenario/openscenario_interpreter/src/syntax/parameter_set_action.cpp: ParameterSetAction::set", "openscenario/openscenario_interpreter/src/syntax/parameter_condition.cpp: ParameterCondition::compare"]}
{"id": "C50", "title": "Modifying a parameter is arithmetic", "statement": "A ParameterModifyAction gives a double or integer parameter the sum / product of its value and the given number, rounded towards zero for integers, and does the same for an unsigned one if the number is natural and the result in range; non-numeric parameters are rejected. (That it does so for unsigned parameters and any number is false of the code; this is proved as a refutation.)", "quantifier": "every value of every numeric type, every operand", "why_tests_cant": "All values and operands, including fractions, negative operands and overflow.", "anchors": ["openscenario/openscenario_interpreter/src/syntax/parameter_add_value_rule.cpp", "openscenario/openscenario_interpreter/src/syntax/parameter_multiply_by_value_rule.cpp", "openscenario/openscenario_interpreter/src/syntax/unsigned_integer.cpp: operator+=, operator*="]}
{"id": "C51", "title": "Parameter actions preserve type and range", "statement": "Whatever parameter actions run, every parameter keeps its declared type and stays in the range of that type. (That it keeps satisfying its declared constraints is false of the code; this is proved as a refutation.)", "quantifier": "every list of declarations, every sequence of set and modify actions", "why_tests_cant": "All action sequences.", "anchors": ["openscenario/openscenario_interpreter/src/syntax/parameter_set_action.cpp", "openscenario/openscenario_interpreter/src/syntax/parameter_modify_action.cpp", "openscenario/openscenario_interpreter/src/syntax/parameter_declaration.cpp"]}
{"id": "C52", "title": "Numeric literals mean the number they write", "statement": "An integer, unsignedInt or unsignedShort literal is read as the number its digits and sign write and rejected if that number is not representable, except that a negative unsigned literal is read modulo 2 to the number of bits. (That it is rejected is false of the code; this is proved as a refutation.)", "quantifier": "every digit string", "why_tests_cant": "All digit strings.", "anchors": ["openscenario/openscenario_interpreter/src/syntax/integer.cpp", "openscenario/openscenario_interpreter/src/syntax/unsigned_integer.cpp", "openscenario/openscenario_interpreter/src/syntax/unsigned_short.cpp"]}
{"id": "C53", "title": "Preprocessor parameters override declarations and nothing else", "statement": "A successfully loaded scenario file has, for every declared parameter, the value most recently given by SetParameter (its own value if none), and is otherwise unchanged; the original is kept. (That a derived scenario's file is the one prepared by its own load is false of the code if the same file is loaded again before; this is proved as a refutation.)", "quantifier": "every history of requests, every scenario file", "why_tests_cant": "All request histories.", "anchors": ["openscenario/openscenario_preprocessor/src/openscenario_preprocessor.cpp: Preprocessor::preprocessScenario"]}
{"id": "C54", "title": "A requested acceleration limits the acceleration until the speed is reached", "statement": "When no acceleration-limited request is in force, a speed change request with a constant acceleration a makes |a| the entity's acceleration (or deceleration) limit, and it stays so through every update until one finds the requested speed reached.", "quantifier": "every prior history of requests and updates, every later history of motion and updates", "why_tests_cant": "The limit is set before the job that will reset it is appended, so histories matter.", "anchors": ["simulation/traffic_simulator/src/entity/entity_base.cpp: requestSpeedChangeWithConstantAcceleration", "simulation/traffic_simulator/src/job/job_list.cpp: append"]}
{"id": "C55", "title": "The acceleration limits are the defaults again after a limited speed change", "statement": "At the update that finds the speed of a constant-acceleration request reached, the entity's dynamic limits become the default ones of its type (not those in force before the request).", "quantifier": "every prior history of requests and updates, every later history of motion and updates", "why_tests_cant": "All histories.", "anchors": ["simulation/traffic_simulator/src/entity/entity_base.cpp: resetDynamicConstraints, requestSpeedChangeWithConstantAcceleration"]}
{"id": "C56", "title": "A frame is seen at one time, and the clock moves exactly when the frame succeeds", "statement": "Within updateFrame the entities, the traffic modules and the environment simulator are all given the scenario time at which the frame began; the clock advances, and the new time is published, exactly if updateFrame returns true; otherwise nothing of the clock changes.", "quantifier": "every state, every combination of answers of the environment simulator", "why_tests_cant": "All failure points of the calls to the other process.", "anchors": ["simulation/traffic_simulator/src/api/api.cpp: updateFrame, updateTimeInSim, updateEntitiesStatusInSim"]}
{"id": "C57", "title": "The traffic simulator and the environment simulator hold the same entities", "statement": "In every history the environment simulator accepts every request concerning an entity of the scenario (status update, bounding box, despawn) and is never asked for a second ego; as long as no behaviour plugin reset fails, both processes hold exactly the same entities with the same kinds, each once.", "quantifier": "every sequence of spawn, despawn, despawn-all, behaviour plugin resets, sinks and movements", "why_tests_cant": "All histories across two processes.", "anchors": ["simulation/traffic_simulator/include/traffic_simulator/api/api.hpp: spawn", "simulation/traffic_simulator/src/api/api.cpp: despawn, despawnEntities", "simulation/traffic_simulator/src/entity/entity_manager.cpp: resetBehaviorPlugin", "simulation/simple_sensor_simulator/src/simple_sensor_simulator.cpp: spawnVehicleEntity, despawnEntity, updateEntityStatus, getBoundingBox"]}
{"id": "C58", "title": "At most one ego exists", "statement": "At any time at most one ego vehicle exists, in both processes; a further one is rejected without any effect, and accepted again once the first is despawned.", "quantifier": "every sequence of spawn, despawn, despawn-all, behaviour plugin resets, sinks and movements", "why_tests_cant": "All histories.", "anchors": ["simulation/traffic_simulator/include/traffic_simulator/entity/entity_manager.hpp: spawnEntity", "simulation/traffic_simulator/src/entity/entity_manager.cpp: isAnyEgoSpawned", "simulation/simple_sensor_simulator/src/simple_sensor_simulator.cpp: spawnVehicleEntity"]}
{"id": "C59", "title": "All entities move simultaneously", "statement": "In every frame each entity's new state depends only on its own state and on the statuses and distances of all entities at the beginning of the frame, so the order in which the container holds the entities does not matter; afterwards each entity knows the new statuses of all others. Before the NPC logic is started nothing moves.", "quantifier": "every set of entities, every behaviour, every iteration order", "why_tests_cant": "All iteration orders of a hash map, all behaviours.", "anchors": ["simulation/traffic_simulator/src/entity/entity_manager.cpp: update, updateNpcLogic, calculateEuclideanDistances", "simulation/traffic_simulator/src/entity/entity_base.cpp: setOtherStatus"]}
{"id": "C60", "title": "An NPC's front entity is the closest one ahead", "statement": "If no two other entities are at the same distance: if any other entity within the horizon is ahead and reached by the spline, the front entity an NPC reacts to is one of those with the smallest distance along the spline; otherwise there is none; in any case an answer is such an entity. (With equal distances this is false of the code; this is proved as a refutation.)", "quantifier": "every set of entities and distances", "why_tests_cant": "All configurations, including ties, and all iteration orders.", "anchors": ["simulation/behavior_tree_plugin/src/action_node.cpp: getFrontEntityName"]}
{"id": "C61", "title": "Signal predictions are grouped by time", "statement": "After any sequence of predictions for a light, the published groups are more than 10 ms apart, every prediction is in a group within 10 ms of its time, and nothing else is in the groups.", "quantifier": "every sequence of predictions", "why_tests_cant": "All sequences of times, near the tolerance too.", "anchors": ["simulation/traffic_simulator/src/traffic_lights/traffic_lights.cpp: addTrafficLightsStatePrediction"]}
{"id": "C62", "title": "A state just set is found by the comparison", "statement": "After setTrafficLightsState(id, s) succeeded, compareTrafficLightsState(id, t) for the text t of one bulb, other than the literal none, is true iff that bulb is one of those of s; after clearing, the comparison with none or the empty text is true.", "quantifier": "every state, bulb text, id and previous state", "why_tests_cant": "All texts, synonyms and orders included.", "anchors": ["simulation/traffic_simulator/src/traffic_lights/traffic_lights_base.cpp: compareTrafficLightsState, setTrafficLightsState"]}
{"id": "C63", "title": "The stop line to respect is the nearest demanding one", "statement": "The distance to the red-light stop line is the smallest distance over the lights on the path that show a steady red or yellow circle and whose stop line the path crosses; it is absent iff there is none.", "quantifier": "every set of lights on the path", "why_tests_cant": "All sets and orders of lights.", "anchors": ["simulation/traffic_simulator/src/traffic_lights/traffic_lights_base.cpp: getDistanceToActiveTrafficLightStopLine, isRequiredStopTrafficLightState"]}
{"id": "C64", "title": "The predicted running distance", "statement": "The distance predicted for reaching a target speed (for the target zero the stop distance) is the distance an entity that follows the same plan moves until the speed is first within tolerance, plus (v'-v)*dt + (a'-a)*dt*dt/6 for the speeds and accelerations at the start and the end; a stop distance is therefore short by about the distance covered in one step.", "quantifier": "every state, target, step and constraint set", "why_tests_cant": "Unbounded iteration over real-valued states.", "anchors": ["simulation/traffic_simulator/src/behavior/longitudinal_speed_planning.cpp: getRunningDistance", "simulation/behavior_tree_plugin/src/action_node.cpp: calculateUpdatedEntityStatus, calculateStopDistance"]}
{"id": "C65", "title": "The alternatives of a lane pose are all the places the same distance along the road", "statement": "alternativeLaneletPoses ends and returns exactly the places the same travelled distance down (for s < 0 up) the road, over any chain of connected lanelets, the canonical form among them; only where a road ends before, the pose beyond its end is kept; the result is empty exactly when the road ends at the pose's own lanelet.", "quantifier": "every road graph with positive lengths, every pose", "why_tests_cant": "Unbounded s and graphs, termination included.", "anchors": ["simulation/traffic_simulator/src/lanelet_wrapper/pose.cpp: alternativeLaneletPoses"]}
{"id": "C66", "title": "The nearest alternative is chosen", "statement": "getAlternativeLaneletPoseBaseOnShortestRouteFrom returns one of the alternatives, and the route to no other has fewer lanelets; an alternative without a route counts as having zero lanelets and is preferred.", "quantifier": "every set of alternatives and routing graph", "why_tests_cant": "All graphs.", "anchors": ["simulation/traffic_simulator/src/data_type/lanelet_pose.cpp: getAlternativeLaneletPoseBaseOnShortestRouteFrom"]}
{"id": "C67", "title": "The answers of triggers and actions take effect at once", "statement": "Immediately after a start trigger, a stop trigger or an action answered, the element it belongs to makes the transition the answer demands, before anything else happens; when a frame returns nothing demanded is left undone; and a scenario is ended by an exception only directly after an action has thrown.", "quantifier": "every storyboard, every sequence of answers, every number of frames, frames cut off by an exception included", "why_tests_cant": "All trees and all orders of answers.", "anchors": ["openscenario/openscenario_interpreter/include/openscenario_interpreter/syntax/storyboard_element.hpp: evaluate, start, stop, override", "openscenario/openscenario_interpreter/src/syntax/event.cpp, act.cpp, maneuver_group.cpp, action.cpp, storyboard.cpp"]}
{"id": "C68", "title": "Every frame serves every element that is due", "statement": "After each frame, every element all of whose enclosing elements are running is complete, or waits and its start trigger was asked in this frame (and was false, or the element is a skip Event that was refused), or is running and its action was run in this frame without being accomplished or, for a composite, has an unfinished child, or is an Event overridden in this frame.", "quantifier": "every storyboard, every sequence of answers, every frame", "why_tests_cant": "All trees and all orders of answers.", "anchors": ["openscenario/openscenario_interpreter/include/openscenario_interpreter/syntax/storyboard_element.hpp: evaluate", "openscenario/openscenario_interpreter/src/syntax/storyboard.cpp, story.cpp, act.cpp, maneuver_group.cpp, maneuver.cpp, event.cpp"]}
{"id": "C69", "title": "Relative speed requests follow the reference entity", "statement": "After a speed request relative to another entity (delta or factor, without a time constraint), every update sets the target to that value relative to the reference's current speed, until a newer request is made or, unless continuous, an update finds the speed within 0.01 or does not know the reference, when the target is released; a step is carried out at once; a linear change in a given time is one with the constant acceleration that takes that time; a request relative to an unknown entity, or continuous with a time constraint, fails. (A request relative to the entity's own speed that is not a step is lost at the next update, and a request with an acceleration fails when the reference disappears: both are proved.)", "quantifier": "every history of the entity, every reference speed history, every request", "why_tests_cant": "All histories and interleavings of requests, updates and moves.", "anchors": ["simulation/traffic_simulator/src/entity/entity_base.cpp: requestSpeedChange(RelativeTargetSpeed, ...), requestSpeedChangeWithTimeConstraint, setOtherStatus", "simulation/traffic_simulator/src/data_type/speed_change.cpp: getAbsoluteValue"]}
{"id": "C70", "title": "An expression means what its operators say", "statement": "The value of an attribute written ${...} is the value of the expression with the usual precedence (or, and, + -, * / %, then signs and not, then calls), left associativity, parentheses and white space, operands evaluated from left to right; the same text never has two meanings; booleans and numbers do not mix in any operator but division; the evaluation always ends.", "quantifier": "every expression tree, every way of writing it down, every scope, every floating point arithmetic", "why_tests_cant": "Unbounded nesting and all layouts.", "anchors": ["openscenario/openscenario_interpreter/src/evaluate.cpp: Grammar, Value, evaluate"]}
{"id": "C71", "title": "Integer expressions are exact", "statement": "An expression of integer literals and integer parameters with signs, +, - and * evaluates to its mathematical value, and the text it is turned into reads back as that Integer, as long as all values in it fit 32 bits; beyond that the result is undefined. (Without the bound it is false: a larger integer parameter is silently reduced, and the result of / and % is never accepted for an attribute of type Integer; both are proved.)", "quantifier": "every expression tree, layout and scope", "why_tests_cant": "Unbounded nesting, all values.", "anchors": ["openscenario/openscenario_interpreter/src/evaluate.cpp: Value, toValue, evaluate", "openscenario/openscenario_interpreter/src/syntax/integer.cpp: Integer"]}
{"id": "C72", "title": "Substitutions are replaced by their values", "statement": "Every $(name argument) in an attribute value, nested ones included, is replaced by the value of the substitution and the other text is kept; what is returned has no replaceable substitution left; an unknown name is an error; the result does not depend on how many rounds are allowed. This holds when the values contain no substitutions themselves. (Without that it is false: a parameter whose value mentions itself makes reading never end; proved.)", "quantifier": "every attribute text, nesting depth and table of substitutions", "why_tests_cant": "Unbounded texts and nesting, termination included.", "anchors": ["openscenario/openscenario_interpreter/src/reader/attribute.cpp: substitute"]}
{"id": "C73", "title": "An attribute is read as what it says", "statement": "An Integer attribute reads a decimal literal as that number, $name as the value of the parameter in all 64 bits, $(var name) as the same, and ${...} as the value of the expression; a missing required attribute or an unknown parameter is an error; a default is used exactly when the attribute is missing; an empty value reads as 0. (That ${$name} and $name agree is false beyond 32 bits; proved.)", "quantifier": "every attribute text, scope and integer", "why_tests_cant": "All values and texts.", "anchors": ["openscenario/openscenario_interpreter/include/openscenario_interpreter/reader/attribute.hpp: readAttribute", "openscenario/openscenario_interpreter/src/reader/attribute.cpp: substitute"]}
{"id": "C74", "title": "One verdict per run, and the right one", "statement": "Between two attempts to load or run a scenario at most one verdict is recorded. A frame, a start or a load that fails records exactly the verdict its first failure deserves (exit success passes, exit failure fails, Autoware, semantic, simulation and syntax errors and everything else are errors of that type), for the scenario being run, and the run is over; one that does not fail records nothing and the run goes on. This holds as long as shutting down does not itself raise. (That a run stopped from outside for taking too long is reported as a failure is false: nothing is recorded, and the shipped check accepts the report; proved.)", "quantifier": "every history of lifecycle requests, parameter changes, frames and failures", "why_tests_cant": "All histories and all failure points.", "anchors": ["openscenario/openscenario_interpreter/include/openscenario_interpreter/openscenario_interpreter.hpp: set, withExceptionHandler", "openscenario/openscenario_interpreter/src/openscenario_interpreter.cpp: on_configure, on_activate, on_deactivate, reset", "test_runner/scenario_test_runner/scenario_test_runner/scenario_test_runner.py: spin"]}
{"id": "C75", "title": "Scenarios play only during their run", "statement": "Init actions, storyboard evaluation and simulator frames happen only after a run has begun and before its verdict; a node that is not active ignores its timer. The simulator exists exactly while the node is active, provided tearing it down does not raise. No history leads to undefined behaviour or an unhandled exception, provided shutting down does not raise. (Without the provisos both are false: a shutdown whose teardown raises removes an element from an empty list, a teardown that raises twice leaves the simulator behind; proved.)", "quantifier": "every history of lifecycle requests, frames and failures", "why_tests_cant": "All histories and all failure points.", "anchors": ["openscenario/openscenario_interpreter/src/openscenario_interpreter.cpp: on_activate, on_deactivate, on_error, on_shutdown, reset", "openscenario/openscenario_interpreter/include/openscenario_interpreter/simulator_core.hpp: activate, deactivate, update"]}
{"id": "C76", "title": "The report says what was recorded", "statement": "The report written last lists under every suite and case exactly the failures and errors recorded for scenarios with that directory and file name, in order; its totals are the numbers of failures, errors and verdicts recorded since the node started; the shipped check accepts it exactly when every recorded verdict is a pass. (That different scenario files have entries of their own is false: files of the same name in directories of the same name share one; proved.)", "quantifier": "every history of lifecycle requests, frames and failures", "why_tests_cant": "All histories, any number of scenarios.", "anchors": ["openscenario/openscenario_interpreter/include/openscenario_interpreter/openscenario_interpreter.hpp: set", "common/simple_junit/include/simple_junit/junit5.hpp: SimpleTestCase, SimpleTestSuite, SimpleTestSuites", "test_runner/scenario_test_runner/scenario_test_runner/result_checker.py: check"]}
{"id": "C77", "title": "One recorder per recorded run", "statement": "If recorders start properly, tearing down does not raise and the node is not shut down, then exactly one recorder runs during a run that is to be recorded, none during one that is not, and none between runs; stopping it never ends the process. (Without the provisos false: shutting down an active node leaves its recorder running, a failed fork makes the node interrupt every process it may signal, and a recorder that cannot be found after an earlier run ends the process; proved.)", "quantifier": "every history of lifecycle requests, frames and failures", "why_tests_cant": "All histories and failure points.", "anchors": ["openscenario/openscenario_interpreter/include/openscenario_interpreter/record.hpp: start", "openscenario/openscenario_interpreter/src/record.cpp: stop", "openscenario/openscenario_interpreter/src/openscenario_interpreter.cpp: on_activate, reset"]}
{"id": "C78", "title": "The status file is good exactly when every thread is alive", "statement": "The status file says good exactly when every thread ever heard of has exited or was last heard of less than the threshold ago; the intervals it gives for a thread are the smallest and the largest gap between the times it was heard of. (A thread heard of again after it exited counts as good for ever; proved.)", "quantifier": "every history of accesses by any number of threads, every threshold and time", "why_tests_cant": "All histories and interleavings.", "anchors": ["common/status_monitor/include/status_monitor/status_monitor.hpp: touch, good", "common/status_monitor/src/status_monitor.cpp: write, ~StatusMonitor"]}
{"id": "C79", "title": "An overridden threshold comes back", "statement": "While a threshold is overridden its value is in force, and overrides that are nested, whichever threads they belong to, restore the threshold that was in force before. (Overrides of two threads that overlap without nesting leave the inner value behind for good, and a threshold set during an override is lost; proved.)", "quantifier": "every nesting of overrides by any number of threads", "why_tests_cant": "All interleavings and depths.", "anchors": ["common/status_monitor/include/status_monitor/status_monitor.hpp: overrideThreshold, ScopedExchanger", "common/status_monitor/src/status_monitor.cpp: updateThreshold"]}
{"id": "C80", "title": "The status monitor ends", "statement": "When the destructor waits for the watchdog, it returns as soon as the watchdog got two more steps, unless the watchdog is waiting for the mutex the destructor holds; the schedules after which it can still end are exactly those in which that is not so. (So it does not always end: a schedule that makes it hang for good exists; proved.)", "quantifier": "every interleaving of the watchdog and the destructor", "why_tests_cant": "All schedules.", "anchors": ["common/status_monitor/src/status_monitor.cpp: StatusMonitor, ~StatusMonitor, write"]}
{"id": "C81", "title": "A grid traversal lists the cells a segment passes", "statement": "Traversing a segment ends, whatever the segment. For a segment that starts at coordinates not negative, and not on a line between cells which it then leaves upwards or to the right, the cells listed, followed by the cell of the end, are the cells the segment passes one after the other, consecutive ones sharing a side; the cell of the end itself is not listed. (From a point on such a line a cell the segment passes can be missed; proved.)", "quantifier": "every segment", "why_tests_cant": "All real segments, no bound on their length.", "anchors": ["simulation/simple_sensor_simulator/src/sensor_simulation/occupancy_grid/grid_traversal.cpp: GridTraversal, begin, operator++, operator!="]}
{"id": "C82", "title": "Objects are drawn in the occupancy grid", "statement": "If no vertex of an object's clipped outline lies on a line between cells and the object is not all in one cell, then every cell of the grid whose interior meets the inside of its convex outline is occupied; every occupied cell lies between two cells of its row that touch the outline of one and the same object. An object all in one cell is never drawn. (With a vertex on a line, a cell that meets the inside of an object can stay free; proved.)", "quantifier": "every set of objects, size of the grid and cell", "why_tests_cant": "All polygons, grids and numbers of objects.", "anchors": ["simulation/simple_sensor_simulator/src/sensor_simulation/occupancy_grid/occupancy_grid_builder.cpp: addPolygon, add, build", "simulation/simple_sensor_simulator/src/sensor_simulation/occupancy_grid/grid_traversal.cpp: GridTraversal"]}
{"id": "C83", "title": "Many objects in one occupancy grid", "statement": "In the picture of many objects a cell is occupied when it is in the picture of some object alone, else invisible when it is so in the picture of some object alone, else free. Up to 32767 objects make a picture, without an access outside the grid or an overflowing counter; more raise an error. What was drawn before does not matter.", "quantifier": "every history of pictures, every list of objects", "why_tests_cant": "Overflow shows with tens of thousands of objects only; all histories.", "anchors": ["simulation/simple_sensor_simulator/src/sensor_simulation/occupancy_grid/occupancy_grid_builder.cpp: addPolygon, add, build, reset"]}
{"id": "C84", "title": "The occupancy grid message", "statement": "In a message with as many rows as columns, a point of the world is drawn in a cell exactly when it lies where the message's origin and resolution place that cell. The entities drawn are exactly the others that the lidar detected and, if the sensor filters by range, that lie within range; this fails only when two others share a name, the entity with the sensor is missing, or, when filtering, is not an ego. (With different numbers of rows and columns the cells are misplaced: the origin is moved by the height along x and by the width along y; proved.)", "quantifier": "every size, resolution, position, set of entities and detections", "why_tests_cant": "All sizes and entity lists.", "anchors": ["simulation/simple_sensor_simulator/src/sensor_simulation/occupancy_grid/occupancy_grid_sensor.cpp: getOccupancyGrid, getDetectedObjects, getSensorPose", "simulation/simple_sensor_simulator/src/sensor_simulation/occupancy_grid/occupancy_grid_builder.cpp: transformToGrid, transformToPixel"]}
{"id": "C85", "title": "Sensors sample and publish on schedule", "statement": "Without delays, a lidar or detection sensor publishes in a frame exactly when its period, less 2 ms, has passed since it last did (or since it was made); with regular frames, in every k-th one. With delays it publishes what it would publish without, in the same order and nothing left out, each in the first frame (of a detection sensor: the first sampling frame) in which it is old enough and its predecessor is gone; with regular frames, a fixed number of samples later. Noise is computed from the ego's pose when the message is published, not when it was sampled. (After an irregular frame messages go out later than the configured delay, because at most one goes per sample; proved.)", "quantifier": "every sequence of frames, period and delay", "why_tests_cant": "All timings and histories; queues of any length.", "anchors": ["simulation/simple_sensor_simulator/src/sensor_simulation/detection_sensor/detection_sensor.cpp: update", "simulation/simple_sensor_simulator/include/simple_sensor_simulator/sensor_simulation/lidar/lidar_sensor.hpp: update"]}
{"id": "C86", "title": "Which entities are detected", "statement": "An undelayed detection sensor reports, in their order, exactly the entities other than its own that are in range, hit by a lidar or wanted anyway, and not below the road: at most 1 m lower than the ego, or not below the plane of the ego's pose in this or an earlier frame with an orientation that differs by at most 0.04. So with entities at most 1 m lower, or as long as the ego stays in its plane unless it turns, the present plane counts. (In general the plane is out of date: an ego that was lifted detects entities far below it; proved.)", "quantifier": "every history of frames, entities and configurations", "why_tests_cant": "The plane kept depends on the whole history.", "anchors": ["simulation/simple_sensor_simulator/src/sensor_simulation/detection_sensor/detection_sensor.cpp: update, isOnOrAboveEgoPlane", "common/math/geometry/src/plane.cpp: offset"]}
{"id": "C87", "title": "Lidars and detection sensors fit together", "statement": "If the lidars have the detection sensor's period and were made at the same time, the detection sensor reports in every message exactly the entities that a lidar hits in that frame (and that are in range and so on), whatever the frame times. (With another period this fails: in a frame in which a lidar does not scan, nothing counts as hit; proved.)", "quantifier": "every sequence of frames, set of lidars and positions", "why_tests_cant": "All timings and histories.", "anchors": ["simulation/simple_sensor_simulator/src/sensor_simulation/sensor_simulation.cpp: updateSensorFrame", "simulation/simple_sensor_simulator/include/simple_sensor_simulator/sensor_simulation/lidar/lidar_sensor.hpp: update", "simulation/simple_sensor_simulator/src/sensor_simulation/detection_sensor/detection_sensor.cpp: update"]}
{"id": "C88", "title": "Noise of detection sensors", "statement": "Version 2: an entity is reported exactly if the number drawn is below the rate of the first ellipse it is in; outside all ellipses never; independently of the past. The documented parameters of the autocorrelation have no effect: the name read lacks a dot. Version 1: without deviation and losses nothing changes, with probability 1 nothing is reported; only the configuration of the first call in the process counts, whichever sensor it is of. Version 3: an entity is missing from the first message it should be in, and one that matches no configuration is unchanged in all later ones.", "quantifier": "all parameters, entities, random numbers and histories", "why_tests_cant": "Random; all parameter sets and histories.", "anchors": ["simulation/simple_sensor_simulator/src/sensor_simulation/detection_sensor/detection_sensor.cpp: noise_v1, noise_v2, noise_v3, autocorrelation_coefficient, markov_process_noise", "simulation/simple_sensor_simulator/include/simple_sensor_simulator/sensor_simulation/noise_parameter_selector.hpp: createEllipticalParameterSelector", "docs/developer_guide/Parameters.md"]}
{"id": "C89", "title": "Triggering entities", "statement": "An entity condition with the rule all is satisfied exactly if every scenario object that the listed names stand for satisfies it, with any exactly if for some listed name every scenario object it stands for does, and none is the negation of any, provided no value is an error; an error shows exactly if a name that is looked at stands for an object whose value is an error, names being looked at in order until the answer is known. (So with any, one satisfying member of a selection is not enough, and a selection that stands for nothing satisfies every condition; proved.)", "quantifier": "all declarations, lists of triggering entities, conditions and worlds", "why_tests_cant": "All nestings of selections and all combinations of values and errors.", "anchors": ["openscenario/openscenario_interpreter/src/syntax/triggering_entities.cpp", "openscenario/openscenario_interpreter/include/openscenario_interpreter/syntax/triggering_entities_rule.hpp", "openscenario/openscenario_interpreter/include/openscenario_interpreter/syntax/entity.hpp: apply", "openscenario/openscenario_interpreter/src/syntax/speed_condition.cpp: evaluate"]}
{"id": "C90", "title": "Entity declarations and selections", "statement": "Declarations of entities are accepted exactly if every selection lists references or types but not both, and refers only to scenario objects and to selections declared earlier. Then a reference is accepted exactly if its name is declared, and it stands for exactly the scenario objects reached through the selections or having one of the types listed. A scenario object's name stands for it alone, also if a selection has the same name. (References to selections declared later are rejected; proved.)", "quantifier": "all lists of declarations, of any length and nesting", "why_tests_cant": "Nesting is unbounded.", "anchors": ["openscenario/openscenario_interpreter/src/syntax/entities.cpp", "openscenario/openscenario_interpreter/src/syntax/entity_selection.cpp", "openscenario/openscenario_interpreter/src/syntax/selected_entities.cpp", "openscenario/openscenario_interpreter/src/syntax/by_object_type.cpp", "openscenario/openscenario_interpreter/src/syntax/entity.cpp: objects"]}
{"id": "C91", "title": "Absent and deleted entities", "statement": "Adding an entity fails exactly if one of its scenario objects was added before, is present, or is listed twice, and otherwise makes exactly its scenario objects present; deleting never fails and removes exactly them; what is present was added. An entity that was not added satisfies no condition except with the rule notEqualTo; acceleration and standstill conditions, and headway to a selection, are errors. (An entity once added can never be added again, although it was deleted; after deletion, speed, acceleration and standstill conditions on it are errors instead of false; both proved.)", "quantifier": "every history of additions, deletions and removals; all conditions and worlds", "why_tests_cant": "All histories.", "anchors": ["openscenario/openscenario_interpreter/src/syntax/add_entity_action.cpp", "openscenario/openscenario_interpreter/src/syntax/delete_entity_action.cpp", "openscenario/openscenario_interpreter/src/syntax/entity_action.cpp", "openscenario/openscenario_interpreter/src/syntax/entities.cpp: isAdded", "openscenario/openscenario_interpreter/src/syntax/speed_condition.cpp", "openscenario/openscenario_interpreter/include/openscenario_interpreter/simulator_core.hpp: ConditionEvaluation"]}
{"id": "C92", "title": "Time to collision", "statement": "For an entity behind another that looks the same way the longitudinal time to collision is the one time at which the two would be level if they kept their speeds, and infinite if they never are. In general it is distance over relative speed as the conditions of those names measure them, infinite if that speed is not positive; combinations without a distance are errors once both entities were added, and without both the value is no number. For a position ahead it is the time to reach it, or infinite. (If the triggering entity is the one ahead this fails both ways: driving away gives a finite time, being caught up with gives infinity; for a position behind the time is negative and satisfies lessThan; entities that move away from each other satisfy greaterThan although the standard calls that false; all proved.)", "quantifier": "all positions, headings, speeds and combinations of attributes", "why_tests_cant": "Continuous ranges of positions and speeds.", "anchors": ["openscenario/openscenario_interpreter/include/openscenario_interpreter/syntax/time_to_collision_condition.hpp: evaluate", "openscenario/openscenario_interpreter/src/syntax/relative_distance_condition.cpp", "openscenario/openscenario_interpreter/src/syntax/relative_speed_condition.cpp", "openscenario/openscenario_interpreter/src/syntax/distance_condition.cpp"]}
{"id": "C93", "title": "Time headway", "statement": "For a triggering entity level with or behind the reference, measured along the reference's heading, the headway is the time the triggering entity needs for the way between them at its own speed, infinite if it stands; in front of the reference, or if one is absent, no number. A selection as reference is an error. (An entity behind that drives backwards has a negative headway and satisfies lessThan; proved.)", "quantifier": "all positions, headings and speeds", "why_tests_cant": "Continuous ranges of positions and speeds.", "anchors": ["openscenario/openscenario_interpreter/src/syntax/time_headway_condition.cpp: evaluate", "openscenario/openscenario_interpreter/include/openscenario_interpreter/simulator_core.hpp: evaluateTimeHeadway"]}
{"id": "C94", "title": "Collision conditions", "statement": "A collision condition against an entity is satisfied, with the rule all (any), exactly if that entity was added and every (for some listed name every) triggering object is present with it, is not it, and overlaps it; against a type exactly if every (for some listed name every) triggering object collides with some scenario object of that type. Nothing collides with itself and the order of the two does not matter. A selection as the other entity is an error.", "quantifier": "all declarations, triggering entities and worlds", "why_tests_cant": "All nestings of selections and worlds.", "anchors": ["openscenario/openscenario_interpreter/src/syntax/collision_condition.cpp: evaluate", "openscenario/openscenario_interpreter/src/syntax/by_object_type.cpp", "simulation/traffic_simulator/src/api/api.cpp: checkCollision"]}
{"id": "C95", "title": "Relative clearance", "statement": "With the rule all and no entities listed, the condition is satisfied exactly if no added scenario object that is not a triggering entity is in the zone of a triggering entity: on one of the lanes of the ranges, counted to the left as the entity looks, and within the distances behind and ahead of it. With entities listed, exactly if none of them is in a zone. (With any, a triggering entity other than the first is an obstacle to itself and to the first, and the answer depends on the first alone; a condition that lists a selection, or whose triggering entities are selections, is never satisfied; both proved.)", "quantifier": "all declarations, worlds, ranges and distances", "why_tests_cant": "All sets of entities and positions.", "anchors": ["openscenario/openscenario_interpreter/src/syntax/relative_clearance_condition.cpp: evaluate", "openscenario/openscenario_interpreter/src/syntax/relative_lane_range.cpp: evaluate", "openscenario/openscenario_interpreter/include/openscenario_interpreter/simulator_core.hpp: evaluateLateralRelativeLanes, evaluateRelativeHeading"]}
{"id": "C96", "title": "Speeds and distances that conditions compare", "statement": "A speed condition compares the component of the entity's velocity asked for, by default the forward one (in standard mode the length); relative speed is the projection of the triggering entity's velocity on the reference's axes less the reference's own speed, so the difference of the speeds if they look the same way and minus their sum if they look at each other. A relative distance in the entity frame is the absolute coordinate of the other, the same from both sides if they look the same way; on lanes it is signed without and absolute with the shortest route; the other combinations are errors. A standstill condition is satisfied when the duration is exceeded, a reach-position condition when the distance is below the tolerance. (The distance to a position in the entity frame is signed: one behind is nearer than every bound; proved.)", "quantifier": "all positions, headings, velocities and combinations of attributes", "why_tests_cant": "Continuous ranges and all combinations.", "anchors": ["openscenario/openscenario_interpreter/src/syntax/speed_condition.cpp", "openscenario/openscenario_interpreter/src/syntax/relative_speed_condition.cpp", "openscenario/openscenario_interpreter/src/syntax/distance_condition.cpp", "openscenario/openscenario_interpreter/src/syntax/relative_distance_condition.cpp", "openscenario/openscenario_interpreter/src/syntax/reach_position_condition.cpp", "openscenario/openscenario_interpreter/src/syntax/stand_still_condition.cpp", "openscenario/openscenario_interpreter/src/syntax/acceleration_condition.cpp", "openscenario/openscenario_interpreter/include/openscenario_interpreter/simulator_core.hpp: evaluateRelativeSpeed"]}
{"id": "C97", "title": "Requests to Autoware are carried out in order", "statement": "Whatever the interleaving of the two threads, tasks handed to the connection with Autoware begin in the order in which they were accepted, none is left out, and one begins only when all earlier ones have finished without failure; requests are sent and states waited for only while a task runs. The question whether Autoware is in a state is answered with yes exactly if every accepted task has finished and Autoware is in that state.", "quantifier": "every sequence of requests, schedule of the threads, and behaviour of Autoware", "why_tests_cant": "All interleavings of two threads and all answers of Autoware.", "anchors": ["external/concealer/src/task_queue.cpp: TaskQueue, delay", "external/concealer/include/concealer/task_queue.hpp: exhausted", "external/concealer/src/field_operator_application.cpp", "simulation/traffic_simulator/src/entity/ego_entity.cpp: isEngaged, isEngageable"]}
{"id": "C98", "title": "Failures of requests to Autoware", "statement": "When a task fails, nothing more is sent to Autoware by any later task, and from then on every request and every frame throws. A task fails only because the time limit passed, because a service did not appear for 180 s or refused 30 times, or because Autoware was in a state the task cannot start from. (A request that is being made at the moment of the failure can still be accepted silently and is never carried out; proved.)", "quantifier": "every sequence of requests, schedule of the threads, and behaviour of Autoware", "why_tests_cant": "The moment of failure relative to the other thread.", "anchors": ["external/concealer/src/task_queue.cpp: TaskQueue, rethrow", "external/concealer/include/concealer/service.hpp: operator ()", "external/concealer/src/field_operator_application.cpp: spinSome"]}
{"id": "C99", "title": "Services of Autoware are called until they succeed", "statement": "A task sends only its own request, again after each refusal and never after a success, at most 30 times; it finishes only after a success (engagement also if Autoware drives already).", "quantifier": "every sequence of requests, schedule of the threads, and answers of the services", "why_tests_cant": "All sequences of answers.", "anchors": ["external/concealer/include/concealer/service.hpp: operator ()", "external/concealer/src/field_operator_application.cpp"]}
{"id": "C100", "title": "Waiting for Autoware's states", "statement": "If Autoware's state only advances while a task runs: engagement is requested only when Autoware waits for engagement or is beyond, and counts as done only when it drives or is beyond; a route is requested only once Autoware is localized and counts as planned only when it waits for engagement or is beyond; an initial pose counts as set only once Autoware has initialized. Without that assumption engagement is at least never requested while planning, and so on, but only that one state is excluded. (Autoware falling back from planning to waiting for a route gets an engagement request; replanning after arrival fails at the engagement although planning succeeded; both proved.)", "quantifier": "every sequence of requests, schedule of the threads, and history of Autoware's states", "why_tests_cant": "All histories of the states of another process.", "anchors": ["external/concealer/src/field_operator_application.cpp: engage, plan, initialize", "external/concealer/include/concealer/field_operator_application.hpp: waitForAutowareStateToBe"]}
{"id": "C101", "title": "The time limit for initialisation", "statement": "A task fails because of the time limit not before the initialize_duration has passed, and never after a task of engagement has had its request accepted and seen Autoware leave the wait for engagement. While a task waits for a state and the limit has passed, it fails the next time it looks. (Once lifted there is no limit at all, so a later wait can last for ever; and a vehicle that was found driving already is still subject to it; both proved.)", "quantifier": "every duration, sequence of requests, schedule of the threads, and behaviour of Autoware", "why_tests_cant": "All timings.", "anchors": ["external/concealer/include/concealer/field_operator_application.hpp: waitForAutowareStateToBe, time_limit", "external/concealer/src/field_operator_application.cpp: engage"]}
{"id": "C102", "title": "Destruction of the connection with Autoware", "statement": "Once its destructor has begun to wait, the connection is gone after at most 45 further steps of its thread, whatever Autoware answers; at most one more task begins, and none if one was running.", "quantifier": "every history before the destruction and every schedule and behaviour of Autoware after it", "why_tests_cant": "All crash points and interleavings.", "anchors": ["external/concealer/src/task_queue.cpp: ~TaskQueue", "external/concealer/src/field_operator_application.cpp: ~FieldOperatorApplication", "external/concealer/include/concealer/field_operator_application.hpp: waitForAutowareStateToBe"]}
{"id": "C103", "title": "The initial pose is given once and first", "statement": "At most one initial pose is handed to Autoware; unless routes are replanned on request, a route is sent only after an initial pose was accepted. (A replanning request before any route assignment is sent without; proved.)", "quantifier": "every sequence of requests, schedule of the threads, and behaviour of Autoware", "why_tests_cant": "All orders of requests.", "anchors": ["simulation/traffic_simulator/src/entity/ego_entity.cpp: requestAssignRoute, requestReplanRoute", "external/concealer/src/field_operator_application.cpp: initialize, plan"]}
{"id": "C104", "title": "Autoware's state as derived from its topics", "statement": "Autoware counts as initializing exactly if one of localization, route and operation mode is unknown or localization is not finished; as waiting for a route exactly if localized without a route or 2 s after arrival; as planning or waiting for engagement exactly if it has a route, is stopped or without control, and autonomous mode is not or is available; as driving exactly if it has a route and control in another mode; as arrived for 2 s after arrival; as finalizing never.", "quantifier": "all combinations of messages and times", "why_tests_cant": "All combinations of messages and times.", "anchors": ["external/concealer/include/concealer/legacy_autoware_state.hpp: LegacyAutowareState"]}
{"id": "C105", "title": "Cooperation commands", "statement": "A cooperation command goes to the first request in the last message that is of the named module, has another command, is at most 20 m behind and was not answered before; if there is none, or a name is unknown, the call throws; no request with a given command is answered twice. (So activating, deactivating and activating the same request again is refused; proved.)", "quantifier": "every history of messages and calls", "why_tests_cant": "All histories.", "anchors": ["external/concealer/src/field_operator_application.cpp: sendCooperateCommand"]}
{"id": "C106", "title": "The end of the Autoware process", "statement": "If the simulator has no other child that ends and no signal arrives, the Autoware process is gone when the timeout has passed at the latest, and it is killed exactly if it had not ended by itself before; a process that ends in time is never killed. (If another child ends, or a signal arrives, within the timeout, a process that ignores the interrupt is not killed and the destructor never returns; proved.)", "quantifier": "all timeouts and moments of signals", "why_tests_cant": "All timings of signals.", "anchors": ["external/concealer/src/field_operator_application.cpp: ~FieldOperatorApplication"]}
{"id": "C107", "title": "Which action an NPC takes each frame", "statement": "Each frame, the actions of a vehicle (lane change, trajectory, lane following, following the entity ahead, stopping at a light, at a stop line, for a crossing entity, yielding, moving backwards; for a pedestrian lane, straight, trajectory) are asked in this order, beginning with the one in progress, until one does not decline; an action in progress goes on as long as it does not decline; the reported action is its name. If none acts, the whole list is asked again.", "quantifier": "every history of frames, with arbitrary answers of the actions and arbitrary requests", "why_tests_cant": "All histories of the tree's memory.", "anchors": ["simulation/behavior_tree_plugin/src/vehicle/behavior_tree.cpp: createTree, tickOnce", "simulation/behavior_tree_plugin/config/vehicle_entity_behavior.xml", "simulation/behavior_tree_plugin/config/pedestrian_entity_behavior.xml"]}
{"id": "C108", "title": "A frame of an NPC ends", "statement": "A frame of a vehicle ends after at most three passes through its tree, of a pedestrian after at most two, for all requests the API accepts. (A vehicle told to walk straight, a pedestrian told to change lanes, or lane changes that end in their first frame and can be planned again from where they land, never end; proved.)", "quantifier": "every reachable tree, request, entity and world", "why_tests_cant": "Termination for all states.", "anchors": ["simulation/behavior_tree_plugin/src/vehicle/behavior_tree.cpp: update", "simulation/behavior_tree_plugin/src/pedestrian/behavior_tree.cpp: update"]}
{"id": "C109", "title": "The decision of a vehicle that follows its lane", "statement": "A vehicle on a lane, free to choose, takes exactly one of these decisions in one pass: with a clear way it drives at its target speed; with right of way to yield it yields; behind the nearest entity it follows it; else it stops for a red light in sight, else at the nearest stop line, else for the nearest crossing entity, else drives on.", "quantifier": "every world, setting and cruising vehicle", "why_tests_cant": "All combinations of distances, speeds and settings.", "anchors": ["simulation/behavior_tree_plugin/src/vehicle/follow_lane_sequence: doAction, checkPreconditions of all actions"]}
{"id": "C110", "title": "Stopping at red lights", "statement": "Free to choose and with nobody to follow, or already stopping, a vehicle stops for a red light within five seconds (20 to 50 m): it aims at 0 when the rest is shorter than its stopping distance and else never above its present or target speed. (While it stops it ignores the entity ahead, while it follows it ignores the light, an entity beyond the light hides it, and so does the duty to yield; proved.)", "quantifier": "every world, setting and cruising vehicle", "why_tests_cant": "All distances and speeds.", "anchors": ["simulation/behavior_tree_plugin/src/vehicle/follow_lane_sequence/stop_at_traffic_light_action.cpp: doAction, calculateTargetSpeed", "simulation/behavior_tree_plugin/src/action_node.cpp: getHorizon"]}
{"id": "C111", "title": "Following the entity ahead", "statement": "Behind a slower entity a vehicle aims at 0 within its stopping distance, at the entity's speed up to its length and 5 m more, at 2 m/s more beyond, never above its own target speed. (If the entity ahead is not slower than the target speed the vehicle aims at its target speed however small the gap; proved.)", "quantifier": "every world, setting and cruising vehicle", "why_tests_cant": "All gaps and speeds.", "anchors": ["simulation/behavior_tree_plugin/src/vehicle/follow_lane_sequence/follow_front_entity_action.cpp: doAction"]}
{"id": "C112", "title": "Stop lines and crossing entities", "statement": "The nearest stop line before any entity, and the nearest crossing entity before any stop line, is stopped for like a light; a vehicle standing within its length and 5 m of the line starts again. (A line and a crossing entity at the same distance are both driven through; so is a line behind an entity seen by one of the two detectors only; a vehicle that stands for another reason further away from the line never starts again; proved.)", "quantifier": "every world, setting and cruising vehicle, and any number of frames", "why_tests_cant": "All distances and histories.", "anchors": ["simulation/behavior_tree_plugin/src/vehicle/follow_lane_sequence/stop_at_stop_line_action.cpp: doAction", "simulation/behavior_tree_plugin/src/vehicle/follow_lane_sequence/stop_at_crossing_entity_action.cpp: doAction", "simulation/behavior_tree_plugin/src/vehicle/follow_lane_sequence/yield_action.cpp: doAction"]}
{"id": "C113", "title": "One move per frame", "statement": "A vehicle that follows its lane forwards, or goes on moving backwards, is moved exactly once in a frame. (In the frame in which it begins to move backwards it is moved twice; proved.)", "quantifier": "every world, setting and vehicle", "why_tests_cant": "All states of tree and world.", "anchors": ["simulation/behavior_tree_plugin/src/vehicle/follow_lane_sequence/yield_action.cpp: doAction", "simulation/behavior_tree_plugin/src/vehicle/follow_lane_sequence/move_backward_action.cpp: doAction"]}
{"id": "C114", "title": "The life of a request to follow a trajectory or change lanes", "statement": "A trajectory request takes effect in the frame that sees it, whatever was in progress, and is dropped in the frame that finds the trajectory finished, without a move; a request that cannot be met is dropped and the vehicle follows its lane in that frame. (A trajectory that is finished in its first frame freezes the vehicle for ever; proved.)", "quantifier": "every reachable tree, world, setting, vehicle and any number of frames", "why_tests_cant": "All histories.", "anchors": ["simulation/behavior_tree_plugin/src/vehicle/follow_trajectory_sequence/follow_polyline_trajectory_action.cpp: doAction", "simulation/behavior_tree_plugin/src/vehicle/behavior_tree.cpp", "simulation/behavior_tree_plugin/src/transition_events/reset_request_event.cpp: ResetRequestEvent"]}
{"id": "C115", "title": "How long a lane change takes", "statement": "With policy force, a lane change under a duration, a lateral velocity or no constraint is in progress after exactly the frames that end before the asked time (longer only if the target speed is too low for it) and ends with the first frame that does not, on the target lane, the excess distance included; the request is then dropped. (At speed zero it never ends; under best effort a standing vehicle without target speed never starts; a second request during a change is swallowed; proved.)", "quantifier": "every time step, curve, constraint, target speed and number of frames", "why_tests_cant": "All numbers of frames.", "anchors": ["simulation/behavior_tree_plugin/src/vehicle/lane_change_action.cpp: doAction"]}
{"id": "C116", "title": "Vehicles off the lanes", "statement": "A vehicle off the lanes without trajectory stands still. (If it was following an entity or stopping at a light or a stop line in the frame before, the frame throws instead; proved.)", "quantifier": "every reachable tree, world, setting and vehicle", "why_tests_cant": "All histories.", "anchors": ["simulation/behavior_tree_plugin/src/vehicle/follow_lane_sequence/follow_lane_action.cpp: doAction", "simulation/behavior_tree_plugin/src/vehicle/follow_lane_sequence/stop_at_stop_line_action.cpp: calculateWaypoints", "simulation/behavior_tree_plugin/src/action_node.cpp: stopEntity"]}
{"id": "C117", "title": "Pedestrians", "statement": "In one frame, whatever was in progress, a pedestrian on a lane walks along it at its target speed or the speed limit and stops for an obstacle; off the lanes it stands; told to walk straight it does so at 1.111 m/s or its target speed and stops for what is in front; told to follow a trajectory it does. (The request to walk straight is never dropped; proved.)", "quantifier": "every reachable tree, request, world, setting and pedestrian", "why_tests_cant": "All histories.", "anchors": ["simulation/behavior_tree_plugin/src/pedestrian/follow_lane_action.cpp: doAction", "simulation/behavior_tree_plugin/src/pedestrian/walk_straight_action.cpp: doAction", "simulation/behavior_tree_plugin/src/pedestrian/behavior_tree.cpp"]}
{"id": "C118", "title": "Limits of the acceleration on a trajectory", "statement": "The acceleration chosen for an entity that follows a polyline trajectory changes by no more than the jerk limits allow in one frame; unless the entity could not but go backwards or exceed its target speed, it also respects the limits of acceleration and deceleration and leads to a speed between 0 and the target speed, all up to the tolerance. (The limit of deceleration is exceeded when the target speed is far below the speed; proved.)", "quantifier": "every set of positive limits, remaining way and time, speed and acceleration", "why_tests_cant": "All speeds, accelerations and limits.", "anchors": ["simulation/traffic_simulator/src/behavior/follow_waypoint_controller.cpp: getAccelerationLimits, getAcceleration"]}
{"id": "C119", "title": "Slowing down on a trajectory", "statement": "While the speed exceeds the target, the deceleration grows by the jerk limit in every frame, however great it becomes; an entity that is to slow down to less than about half its speed ends in a controller error after an explicit number of frames, whatever the remaining way and time. (So a lower target speed is not always reached; with the target speed 0 the entity is told to drive backwards; proved.)", "quantifier": "every set of limits, cruising speed, target speed and number of frames", "why_tests_cant": "All histories of speeds.", "anchors": ["simulation/traffic_simulator/src/behavior/follow_waypoint_controller.cpp: getAcceleration, getAccelerationLimits"]}
{"id": "C120", "title": "The choice of an acceleration without an arrival time", "statement": "Where no arrival time is given, the acceleration is one of 31 at equal distances between the limits; the prediction for it ends at a standstill, and none of the others leads to a preferable place: short of the end and nearer to it or, if all overshoot, less far behind it. The prediction is the motion with that acceleration for one frame and then with the braking the limits allow; it is given up only after passing the end by more than 1 m.", "quantifier": "every controller, way, speed and acceleration", "why_tests_cant": "All predictions of any length.", "anchors": ["simulation/traffic_simulator/src/behavior/follow_waypoint_controller.cpp: getAcceleration, getPredictedStopEntityStatusWithoutConsideringTime"]}
{"id": "C121", "title": "The choice of an acceleration for an arrival time", "statement": "With more than four frames left to the arrival time, no candidate acceleration is predicted to arrive nearer to that time than the one picked, up to the tolerance; if that arrives a frame or more too late the answer is the greatest acceleration, if too early the least, otherwise the picked one, which by then has no more than 1 m left. The prediction is the motion with that acceleration for one frame, then to constant speed and, where the entity is to stop, to a standstill. In the last frames the acceleration is, as far as it is allowed, the one that covers the rest of the way or brings the speed to 0.", "quantifier": "every controller, way, time, speed and acceleration", "why_tests_cant": "All predictions of any length.", "anchors": ["simulation/traffic_simulator/src/behavior/follow_waypoint_controller.cpp: getAcceleration, getPredictedWaypointArrivalState"]}
{"id": "C122", "title": "The jerk-limited ramp", "statement": "The acceleration computed for a change of speed under a jerk limit, taken back by the jerk limit in each frame, reaches the wanted speed exactly, after the whole number of frames nearest to sqrt(2|dv|/jerk)/step, or one. (The limits may come out the wrong way round, which makes a later call of std::clamp undefined; proved.)", "quantifier": "every step time, speed, wanted speed and jerk limit", "why_tests_cant": "All real parameters, any number of frames.", "anchors": ["simulation/traffic_simulator/src/behavior/follow_waypoint_controller.cpp: accelerationWithJerkConstraint, getAcceleration, clampAcceleration"]}
{"id": "C123", "title": "Waypoints are passed in order", "statement": "Every waypoint of an open polyline trajectory is passed at most once and in order, and only when it is within the distance of one frame and, if it has a time, due within half a frame; those of a closed one are passed in order round and round and none is lost.", "quantifier": "every map, trajectory, entity, target speed and number of frames", "why_tests_cant": "All histories of frames and any number of waypoints passed in one.", "anchors": ["simulation/traffic_simulator/src/behavior/follow_trajectory.cpp: makeUpdatedStatus, discard_previous_waypoint_and_recurse, handle_intermediate_waypoint"]}
{"id": "C124", "title": "When a trajectory is finished", "statement": "A trajectory is finished exactly when its last waypoint is the next, the entity is at rest within 10 cm of it, and its time, if it has one, is at most half a frame ahead; a closed one of three or more vertices is never finished. (A closed one of two vertices is; proved.)", "quantifier": "every map, trajectory and entity", "why_tests_cant": "All trajectories and statuses.", "anchors": ["simulation/traffic_simulator/src/behavior/follow_trajectory.cpp: handle_final_waypoint"]}
{"id": "C125", "title": "Arrival times", "statement": "The first timed waypoint ahead is passed, or the trajectory ended at it, not more than two frames after and less than half a frame before its time, and with absolute non-decreasing times this holds of every timed waypoint; otherwise the frame fails, and it fails for these reasons only if the entity is more than a frame late or a due waypoint is out of reach.", "quantifier": "every map, open trajectory, entity and number of frames", "why_tests_cant": "All histories.", "anchors": ["simulation/traffic_simulator/src/behavior/follow_trajectory.cpp: validate_arrival_time, remaining_time_to_waypoint, handle_intermediate_waypoint"]}
{"id": "C126", "title": "Every frame ends; laps", "statement": "The recursion over the waypoints passed in one frame ends on every open trajectory. On a closed one with absolute times the entity cannot go round twice: once all times are past it moves only while no timed waypoint is ahead. (On a closed one whose waypoints all lie where the entity stands the recursion does not end; proved.)", "quantifier": "every map, trajectory, entity and depth", "why_tests_cant": "Any number of waypoints.", "anchors": ["simulation/traffic_simulator/src/behavior/follow_trajectory.cpp: discard_previous_waypoint_and_recurse, validate_arrival_time"]}
{"id": "C127", "title": "Time, speed, acceleration and distance agree", "statement": "Each frame on a trajectory advances the entity's time by the step time; its reported speed is not negative, its reported acceleration is the change of that speed, and the distance covered is that of the mean of the old and the new speed. (It may be moved backwards while it reports a positive speed; proved.)", "quantifier": "every map, trajectory and entity", "why_tests_cant": "All statuses.", "anchors": ["simulation/traffic_simulator/src/behavior/follow_trajectory.cpp: update_entity_status, step_displacement_vector"]}
{"id": "C128", "title": "The last metres of a trajectory", "statement": "Within 10 cm of the last waypoint the entity never reverses nor exceeds the limit of deceleration, loses a fixed amount of speed in every frame, is at rest after an explicit number of frames, and an untimed trajectory is then finished.", "quantifier": "every map, limits, step time, speed and number of frames", "why_tests_cant": "All speeds and numbers of frames.", "anchors": ["simulation/traffic_simulator/src/behavior/follow_trajectory.cpp: constrained_brake_velocity, handle_final_waypoint"]}
{"id": "C129", "title": "The start of a trajectory", "statement": "A waypoint written with time t is due at offset + scale*t, counted from the start of the action if times are relative; the trajectory begins at the entity's own place. (The members of an entity selection share one trajectory, which begins with the places of all of them; what one passes the others skip; proved.)", "quantifier": "every timing, list of waypoints and list of objects", "why_tests_cant": "Any number of waypoints and objects.", "anchors": ["openscenario/openscenario_interpreter/src/syntax/follow_trajectory_action.cpp: start", "openscenario/openscenario_interpreter/include/openscenario_interpreter/simulator_core.hpp: applyFollowTrajectoryAction"]}
{"id": "C130", "title": "When a FollowTrajectoryAction is complete", "statement": "The action of a closed trajectory is never complete; that of an open one is not at the first call, is once no actor is running, only if each actor was seen to have ended, and stays so. (An actor that ended and runs again may be forgotten; an action without actors is never complete; a selection counts as ended when one member has; proved.)", "quantifier": "every list of actors and history of calls", "why_tests_cant": "All histories.", "anchors": ["openscenario/openscenario_interpreter/src/syntax/follow_trajectory_action.cpp: accomplished"]}
{"id": "C131", "title": "Segments cross when they have a point in common", "statement": "Two segments are reported as crossing exactly when they have a point of the plane in common, except for triangles of their ends that are flat up to the rounding constant (there both errors are possible). The side of a point relative to a segment is reported with the sign opposite to the documented one.", "quantifier": "every two segments and every point", "why_tests_cant": "All coordinates, all degenerate and touching positions.", "anchors": ["common/math/geometry/src/polygon/line_segment.cpp: isIntersect2D, relativePointPosition2D", "common/math/geometry/src/intersection/intersection.cpp: isIntersect2D"]}
{"id": "C132", "title": "The intersection point lies on both segments", "statement": "The point handed back for two segments lies on both; none is handed back exactly when they have no point in common; an exception is raised exactly when they meet and are parallel. (In particular two segments that continue each other in a straight line raise it.)", "quantifier": "every two segments", "why_tests_cant": "All coordinates.", "anchors": ["common/math/geometry/src/intersection/intersection.cpp: getIntersection2D"]}
{"id": "C133", "title": "Position along a segment", "statement": "The position of the intersection along a segment is between zero and the length (or one), and asking for the point at that position gives a point of both segments; it is found whenever they meet at an angle. Points outside of the segment's range raise an error, inside they do not.", "quantifier": "every two segments and position", "why_tests_cant": "All coordinates.", "anchors": ["common/math/geometry/src/polygon/line_segment.cpp: get2DIntersectionSValue, getPoint"]}
{"id": "C134", "title": "The segments of a polyline", "statement": "A polyline is cut into exactly the pairs of differing neighbours, and the closing pair when asked for, in order, so that each starts where the one before ends and no point is lost.", "quantifier": "every list of points", "why_tests_cant": "Any number of points, with repetitions.", "anchors": ["common/math/geometry/src/polygon/line_segment.cpp: getLineSegments"]}
{"id": "C135", "title": "Linear and quadratic equations", "statement": "The solver hands back exactly the real solutions in the range (those outside by no more than the tolerance are moved to its end), and fails only for an equation without unknown and without contradiction. A discriminant within the tolerance counts as a double root.", "quantifier": "every coefficients and range", "why_tests_cant": "All coefficients.", "anchors": ["common/math/geometry/src/solver/polynomial_solver.cpp: solveLinearEquation, solveQuadraticEquation, filterByRange"]}
{"id": "C136", "title": "Cubic equations", "statement": "The solver hands back every real solution in the range, and nothing else but the real parts of pairs of complex solutions whose imaginary part is below the tolerance; with three real solutions exactly those. (All solutions are lost when the discriminant is within the tolerance on the wrong side, and a triple solution always is.)", "quantifier": "every coefficients and range", "why_tests_cant": "All coefficients; the trigonometric and the radical formulas have to agree with the algebra.", "anchors": ["common/math/geometry/src/solver/polynomial_solver.cpp: solveCubicEquation, solveMonicCubicEquationWithComplex"]}
{"id": "C137", "title": "A spline goes through its control points in order", "statement": "A spline can be built from every non-empty list of points, and positions that grow from zero to the length exist at which it passes through the control points, in their order (repetitions of neighbours count once). Only the empty list is refused.", "quantifier": "every list of points", "why_tests_cant": "Any number of points anywhere, with repetitions.", "anchors": ["common/math/geometry/src/spline/catmull_rom_spline.cpp: CatmullRomSpline, getPoint, getCurveIndexAndS"]}
{"id": "C138", "title": "A spline has neither jumps nor kinks", "statement": "The point and the tangent of a spline through three or more points vary continuously with the position, also where two curves meet; at every inner control point the tangent is half the vector between its neighbours. A curve that is given by its two ends and the directions there passes through them in these directions.", "quantifier": "every list of at least three points and position", "why_tests_cant": "The junctions of curves built from any coordinates.", "anchors": ["common/math/geometry/src/spline/catmull_rom_spline.cpp: CatmullRomSpline, getPoint, getTangentVector", "common/math/geometry/src/spline/hermite_curve.cpp: getPoint, getTangentVector"]}
{"id": "C139", "title": "Lengths along a spline", "statement": "The length of a spline is positive exactly when its control points are not all the same. On evenly spaced points of a straight line the position is the distance from the start and the tangent is the spacing.", "quantifier": "every list of points; every number of points, spacing and direction", "why_tests_cant": "Any number of points anywhere.", "anchors": ["common/math/geometry/src/spline/catmull_rom_spline.cpp: getLength", "common/math/geometry/src/spline/hermite_curve.cpp: getLength, calculateLength"]}
{"id": "C140", "title": "A spline never goes backwards along its points", "statement": "Following a spline through points of a straight line never goes backwards, and the position is the distance gone. Refuted: with gaps between points of ratio above three the spline starts in the opposite direction, and the position differs from the distance whenever the spacing is uneven.", "quantifier": "every control points on a line", "why_tests_cant": "Any spacing.", "anchors": ["common/math/geometry/src/spline/catmull_rom_spline.cpp: CatmullRomSpline", "common/math/geometry/src/spline/hermite_curve.cpp: calculateLength"]}
{"id": "C141", "title": "Collisions of a curve with an edge", "statement": "Every position at which a curve meets an edge is found, and every position handed back is in the range of the curve, with a zero of the equation of the edge's line within the tolerance; without near-double solutions exactly the meeting positions are handed back. A curve that runs along the edge is only looked at in its start (or end when searching backward).", "quantifier": "every curve and edge whose equation is away from the solver's degenerate cases", "why_tests_cant": "All coefficients and edges; the solver's cases have to agree with the geometry.", "anchors": ["common/math/geometry/src/spline/hermite_curve.cpp: getCollisionPointsIn2D"]}
{"id": "C142", "title": "Collisions of a spline with a polygon", "statement": "A search always answers for three or more control points; a spline that meets an edge of the polygon gives a collision at or before (backward: at or after) the meeting position; and a collision handed back is on an edge or at a control point. With two control points the edge that closes the polygon is not looked at.", "quantifier": "every spline of three or more points, polygon and direction of search", "why_tests_cant": "Any number of curves and edges.", "anchors": ["common/math/geometry/src/spline/catmull_rom_spline.cpp: getCollisionPointsIn2D, getCollisionPointIn2D"]}
{"id": "C143", "title": "Collisions in ranges and parts of splines", "statement": "A search with a range still finds every collision strictly after its start and not after its end; a part of a spline hands back its first (backward: last) collision counted from its own start, and nothing only if there is none inside. A search with a range may also hand back a collision before the range, because only whole curves are left out.", "quantifier": "every spline, polygon, range and part", "why_tests_cant": "Any range, any number of curves.", "anchors": ["common/math/geometry/src/spline/catmull_rom_spline.cpp: getCollisionPointsIn2D", "common/math/geometry/src/spline/catmull_rom_subspline.cpp: getCollisionPointIn2D"]}
{"id": "C144", "title": "Sampled trajectories start, end and step as asked", "statement": "The positions of a sampled trajectory start with the given start, end with the given end and lie one resolution apart in the direction from start to end, the last step alone being shorter; exactly a resolution of zero (up to rounding) is refused. The trajectory of a single curve leaves out the start and goes beyond the end.", "quantifier": "every start, end and resolution", "why_tests_cant": "Any number of steps in either direction.", "anchors": ["common/math/geometry/src/spline/catmull_rom_spline.cpp: getTrajectory, getTrajectoryPoses", "common/math/geometry/src/spline/hermite_curve.cpp: getTrajectory"]}
{"id": "C145", "title": "Altitudes of a part of a spline", "statement": "The altitude range of a part of a spline is the least and the greatest altitude of the control points in it, if there is any. If there is none, the range is meant to hold every altitude but leaves out all that are not positive.", "quantifier": "every control points, lengths and part", "why_tests_cant": "Any number of control points.", "anchors": ["common/math/geometry/src/spline/catmull_rom_subspline.cpp: getAltitudeRange"]}
{"id": "C146", "title": "Commands to the ego vehicle take effect after the delay", "statement": "A vehicle model with delays behaves exactly as the same model without delays that is given the waiting commands first; so commands of the last steps have no effect yet. The number of waiting commands is the configured delay divided by the step time, to the nearest step, and they are zero at the start.", "quantifier": "every model with delays, contents of the queues, sequence of commands, step time and delay", "why_tests_cant": "Sequences of any length and delays of any size.", "anchors": ["simulation/simple_sensor_simulator/src/vehicle_simulation/vehicle_model/sim_model_delay_steer_acc_geared.cpp: update, initializeInputQueue", "simulation/simple_sensor_simulator/src/vehicle_simulation/vehicle_model/sim_model_delay_steer_vel.cpp: update", "simulation/simple_sensor_simulator/src/vehicle_simulation/vehicle_model/sim_model_delay_steer_acc_geared_wo_fall_guard.cpp: update"]}
{"id": "C147", "title": "Limits of the ego vehicle's speed and acceleration", "statement": "After every step the speed of a model with a speed limit is within it, whatever was commanded; a model commanded by speeds stays within it for steps not longer than its time constant. The speed changes by no more than the acceleration limit (without fall guard, plus the slope) times the step, except that the gear or brake may set it to zero: gear park stops any speed within one step.", "quantifier": "every model with limits, state, sequence of commands and step time", "why_tests_cant": "All commands and histories.", "anchors": ["simulation/simple_sensor_simulator/src/vehicle_simulation/vehicle_model/sim_model_delay_steer_acc_geared.cpp: update, calcModel, updateStateWithGear", "simulation/simple_sensor_simulator/src/vehicle_simulation/vehicle_model/sim_model_delay_steer_vel.cpp: calcModel"]}
{"id": "C148", "title": "Gears decide the direction of the ego vehicle", "statement": "In forward gears the speed is never negative, in reverse gears never positive, and in all other gears the vehicle stays exactly where it is, whatever is commanded and for ever; when the speed would get the wrong sign the vehicle stops at its place, otherwise the gear changes nothing. Refuted for the model without fall guard: in gear park it rolls on for ever.", "quantifier": "every geared model, state, sequence of commands and gears", "why_tests_cant": "All histories of gears and commands.", "anchors": ["simulation/simple_sensor_simulator/src/vehicle_simulation/vehicle_model/sim_model_delay_steer_acc_geared.cpp: updateStateWithGear", "simulation/simple_sensor_simulator/src/vehicle_simulation/vehicle_model/sim_model_ideal_steer_acc_geared.cpp: updateStateWithGear", "simulation/simple_sensor_simulator/src/vehicle_simulation/vehicle_model/sim_model_delay_steer_acc_geared_wo_fall_guard.cpp: calcModel"]}
{"id": "C149", "title": "Steering of the ego vehicle", "statement": "In every step of a model with delays the angle moves towards the angle that is due, never past it, no faster than the rate limit, not at all within the dead band and strictly outside of it; so it stays within the limit of the angle for factors up to one. A factor above one takes it past the limit.", "quantifier": "every model with delays, state and command, for steps not longer than the time constant", "why_tests_cant": "All angles, limits and histories.", "anchors": ["simulation/simple_sensor_simulator/src/vehicle_simulation/vehicle_model/sim_model_delay_steer_acc_geared.cpp: calcModel", "simulation/simple_sensor_simulator/src/vehicle_simulation/vehicle_model/sim_model_delay_steer_acc_geared_wo_fall_guard.cpp: calcModel, getSteer"]}
{"id": "C150", "title": "Standing on a slope", "statement": "Without fall guard a brake pressed at least as hard as the slope pulls holds the vehicle where it is, for ever; one pressed less lets it roll with the slope; and braking hard enough never turns the direction.", "quantifier": "every state, slope and sequence of commands, for steps not longer than the time constant", "why_tests_cant": "Unbounded time on every slope.", "anchors": ["simulation/simple_sensor_simulator/src/vehicle_simulation/vehicle_model/sim_model_delay_steer_acc_geared_wo_fall_guard.cpp: update, calcModel"]}
{"id": "C151", "title": "The reported acceleration of the ego vehicle", "statement": "The acceleration reported is the change of the speed over the step, for the models that derive it so (without fall guard, commanded by speed, ideal geared, ideal with speed). Refuted for the others: at the speed limit they go on reporting an acceleration while the speed is constant.", "quantifier": "every state, command and step time", "why_tests_cant": "All histories.", "anchors": ["simulation/simple_sensor_simulator/src/vehicle_simulation/vehicle_model/sim_model_delay_steer_acc_geared_wo_fall_guard.cpp: update", "simulation/simple_sensor_simulator/src/vehicle_simulation/vehicle_model/sim_model_ideal_steer_vel.cpp: update", "simulation/simple_sensor_simulator/src/vehicle_simulation/vehicle_model/sim_model_delay_steer_acc_geared.cpp: getAx"]}
{"id": "C152", "title": "The acceleration map", "statement": "With a usable table (at least two speeds and two accelerations, both ascending, rows of full length) every request is answered, by linear interpolation between neighbouring entries at the nearest speed and acceleration of the table; entries are reproduced and the answer never leaves the range of the entries. Unusable keys are refused.", "quantifier": "every table, speed and acceleration", "why_tests_cant": "Tables of any size with any entries.", "anchors": ["simulation/simple_sensor_simulator/src/vehicle_simulation/vehicle_model/sim_model_delay_steer_map_acc_geared.cpp: AccelerationMap, lerp", "simulation/simple_sensor_simulator/include/simple_sensor_simulator/vehicle_simulation/vehicle_model/sim_model_delay_steer_map_acc_geared.hpp: getAcceleration"]}
{"id": "C153", "title": "Setting the state of the ego vehicle", "statement": "After the state was set, the ego vehicle is reported where it was put (a lane under it decides the height), with the yaw and speed given and, for models with delays, the yaw rate; waiting commands remain due. Refuted: a standing vehicle loses its yaw rate, ideal models report their last command instead, the model without fall guard goes on from uninitialised memory, and before the other entities start the next frame puts the vehicle back.", "quantifier": "every initial pose, model, status and lane height", "why_tests_cant": "All orientations and states.", "anchors": ["simulation/simple_sensor_simulator/src/vehicle_simulation/ego_entity_simulation.cpp: overwrite, updateStatus, getCurrentPose"]}
{"id": "C154", "title": "Where the ego vehicle drives", "statement": "Off the lanes the ego vehicle stays in the plane parallel to its initial pose, over any sequence of commands; it is reported with the speed and yaw rate of its model and, for a level initial pose, at the distance of the model from the start. A vehicle that stands is not moved, except that from a tilted initial pose the height of its lane pushes it sideways by a given amount. The jerk reported is an acceleration.", "quantifier": "every initial pose, sequence of commands and heights of lanes", "why_tests_cant": "All orientations and histories.", "anchors": ["simulation/simple_sensor_simulator/src/vehicle_simulation/ego_entity_simulation.cpp: update, getCurrentPose, getCurrentTwist, getCurrentAccel, getLinearJerk"]}
{"id": "C155", "title": "The nearest points of two bounding boxes", "statement": "For two boxes that have no point in common, seen from above, a point of each is returned and no two points of the boxes are nearer to each other; otherwise nothing is returned. The point of the second box comes first if a corner of it is nearest, otherwise the point of the first box comes first. Refuted: the order of the two points does not follow the order of the boxes.", "quantifier": "every two boxes with a length and a width (the second may be the empty box of a plain position) in every pose that is not on its side", "why_tests_cant": "All positions, orientations and sizes; a minimum over infinitely many pairs of points.", "anchors": ["common/math/geometry/src/bounding_box.cpp: getClosestPoses, pointToSegmentProjection, toPolygon2D"]}
{"id": "C156", "title": "The relative position of two bounding boxes", "statement": "On level ground the relative position is an arrow between two nearest points of the boxes, in the axes of the first: its length is the distance of the boxes, and it is missing exactly if they touch. It points from the first to the second box if a corner of the second is nearest. Refuted: otherwise it points the other way, so that what is ahead is reported behind.", "quantifier": "every two boxes and poses, the first on level ground", "why_tests_cant": "All positions, orientations and sizes.", "anchors": ["simulation/traffic_simulator/src/utils/pose.cpp: boundingBoxRelativePose", "common/math/geometry/src/transform.cpp: getRelativePose", "common/math/geometry/src/bounding_box.cpp: getClosestPoses, subtractPoses"]}
{"id": "C157", "title": "Outlines of bounding boxes", "statement": "The polygon of a box encloses exactly the points the box covers, seen from above, whatever the pose; extended corners are those of the longer and wider box. The nearest point of the outline is on it and nearest to the query among all its points, and of all the box if the query is outside.", "quantifier": "every box, pose and query point", "why_tests_cant": "All positions, orientations and sizes; infinitely many points.", "anchors": ["common/math/geometry/src/bounding_box.cpp: getClosestPointOnPolygon, toPolygon2D, getPointsFromBbox, getDistancesFromCenterToEdge", "simulation/simple_sensor_simulator/src/sensor_simulation/detection_sensor/detection_sensor.cpp: noise_v4"]}
{"id": "C158", "title": "Reading the elements of a scenario", "statement": "Repeated elements are read exactly if their number is within the limits and each can be made, in the order of the document; the error is that of the first that cannot be made. A single element is the first of its name, or the default if there is none and the class has a default. Elements of other names change nothing, wherever they are. Refuted: a single element given twice is an error; the second, even if malformed, is ignored.", "quantifier": "every document, element name, constructor and limits", "why_tests_cant": "All documents, of any size and nesting.", "anchors": ["openscenario/openscenario_interpreter/include/openscenario_interpreter/reader/element.hpp: traverse, readElement, readElements"]}
{"id": "C159", "title": "Choices and groups of elements", "statement": "A choice succeeds exactly if elements of one and only one of its names are there and its constructor accepts the first of them, whatever the order of the alternatives. Groups are what can be made of the children, in order, within limits. Refuted: the chosen element given twice is an error, and a child that cannot be made is an error; both pass in silence.", "quantifier": "every document, set of alternatives and constructors", "why_tests_cant": "All documents and all sets of alternatives.", "anchors": ["openscenario/openscenario_interpreter/src/reader/element.cpp: choice", "openscenario/openscenario_interpreter/include/openscenario_interpreter/reader/element.hpp: readGroups"]}
{"id": "C160", "title": "Parameter distributions are read as written", "statement": "Refuted in three ways: every file of parameter distributions that conforms to the schema is rejected when it is loaded; every deterministic part is read as empty, without an error; of the stochastic distributions only the first is read.", "quantifier": "every document that conforms to the schema in names and nesting", "why_tests_cant": "All conforming documents, of any number of distributions.", "anchors": ["openscenario/openscenario_interpreter/src/syntax/parameter_value_distribution_definition.cpp", "openscenario/openscenario_interpreter/src/syntax/deterministic.cpp", "openscenario/openscenario_interpreter/src/syntax/deterministic_parameter_distribution.cpp", "openscenario/openscenario_interpreter/src/syntax/stochastic.cpp", "openscenario/openscenario_interpreter/src/syntax/open_scenario_category.cpp"]}
{"id": "C161", "title": "Distances to stop lines", "statement": "The distance to a stop line is that of the nearest line of a stop sign on the route that the way crosses; there is none if no line is crossed. The distance to the stop line of a traffic light is where a stop line of it is crossed, if one is, and an error exactly if the map has no such light. Along a route it is the nearest stop line of the lights (of those that ask to stop), provided the way crosses the stop lines of each light in one place. Refuted without that proviso: the first line in the map counts, not the nearest.", "quantifier": "every map, route, light and set of lines crossed", "why_tests_cant": "All maps and routes; the order of elements in the map matters.", "anchors": ["simulation/traffic_simulator/src/lanelet_wrapper/distance.cpp: distanceToStopLine, distanceToTrafficLightStopLine", "simulation/traffic_simulator/src/lanelet_wrapper/lanelet_map.cpp: stopLinesOnPath", "simulation/traffic_simulator/src/lanelet_wrapper/traffic_lights.cpp: trafficLightStopLinesPoints, trafficLightIdsOnPath", "simulation/traffic_simulator/src/traffic_lights/traffic_lights_base.cpp: getDistanceToActiveTrafficLightStopLine"]}
{"id": "C162", "title": "Where an entity gives way", "statement": "The distance is that to the start of the first lanelet ahead at which somebody is on a lanelet with right of way and whose start can be reached, negative if it can only be reached backwards; there is none exactly if there is no such lanelet.", "quantifier": "every map, route, set of regulations and positions of the others", "why_tests_cant": "All maps, routes and positions.", "anchors": ["simulation/traffic_simulator/src/utils/distance.cpp: distanceToYieldStop", "simulation/traffic_simulator/src/lanelet_wrapper/lanelet_map.cpp: rightOfWayLaneletIds"]}
{"id": "C163", "title": "Distances across lanes", "statement": "The lateral distance is there exactly if there is a route and each change of lanes on it can be measured one way or the other; if the lanes have places side by side it is the difference of the places. For bounding boxes centred on their entities the distance is the room between the boxes. Refuted for other boxes: the sides that face away are taken, so that boxes with room between them are reported to overlap.", "quantifier": "every route, set of offsets and pair of boxes", "why_tests_cant": "All routes of any length, all boxes.", "anchors": ["simulation/traffic_simulator/src/lanelet_wrapper/distance.cpp: lateralDistance", "simulation/traffic_simulator/src/utils/distance.cpp: boundingBoxLaneLateralDistance"]}
{"id": "C164", "title": "Distance of a bounding box from a spline", "statement": "The search ends, and its answer is the distance of a corner from a point of the spline near the entity, so never less than the true distance. Along a straight spline it is at most 2.5 cm more than that of the nearest corner. Refuted for curved splines: a corner on the spline can be reported 40 cm away from it.", "quantifier": "every box, curve and reference point", "why_tests_cant": "All curves and boxes; the error of a search over a continuum.", "anchors": ["simulation/traffic_simulator/src/utils/distance.cpp: distanceToSpline"]}
{"id": "C165", "title": "Distance to an entity along a spline", "statement": "There is a distance exactly if the other is within a metre of the altitudes of the spline, can be routed to, is near enough to the spline or crossed by it, and the room along the lane is not negative; it is that room plus half the own length. Refuted: an entity in front whose box overlaps along the lane is not seen, and one behind whose box overlaps is reported in front.", "quantifier": "every pair of boxes around their reference points, every position and threshold", "why_tests_cant": "All positions and boxes.", "anchors": ["simulation/traffic_simulator/src/utils/distance.cpp: splineDistanceToBoundingBox, boundingBoxLaneLongitudinalDistance", "simulation/traffic_simulator/src/lanelet_wrapper/pose.cpp: isAltitudeWithinRange"]}
{"id": "C166", "title": "The nearest conflict ahead", "statement": "The distance to the nearest conflict is the least over all crosswalks on the way with somebody on them and all entities on conflicting lanes that are seen along the spline; there is none if there are none.", "quantifier": "every set of entities, crosswalks and lanes", "why_tests_cant": "Any number of entities.", "anchors": ["simulation/traffic_simulator/src/utils/distance.cpp: distanceToNearestConflictingPose"]}
{"id": "C167", "title": "What is published of a bulb", "statement": "The colour, shape and status of every bulb are published so that they can be read back, in every message format. Refuted for the arrows to the upper left and upper right: the message to the sensor simulator turns them into an unknown shape.", "quantifier": "every colour, shape and status of a bulb", "why_tests_cant": "All combinations, in every format.", "anchors": ["simulation/traffic_simulator/include/traffic_simulator/traffic_lights/traffic_light.hpp", "simulation/simulation_interface/include/simulation_interface/conversions.hpp: toMsg of TrafficLight"]}
{"id": "C168", "title": "Groups of published traffic lights", "statement": "Every light that shows something is published, once for each relation it belongs to, under the id of that relation and with exactly its bulbs, and nothing else is published, alike in all formats. Refuted: two lights of one relation give two groups with the same id; a light that shows nothing is missing; an id beyond 32 bits is cut.", "quantifier": "every set of traffic lights and relations", "why_tests_cant": "Any number of lights, relations and bulbs.", "anchors": ["simulation/traffic_simulator/src/traffic_lights/traffic_light_publisher.cpp", "simulation/simulation_interface/proto/simulation_api_schema.proto", "simulation/simulation_interface/include/simulation_interface/conversions.hpp: convertMessage"]}
{"id": "C169", "title": "Predictions of traffic lights", "statement": "What is published of a light includes the predictions given for it, with their times, and what the detector shows has none. Refuted: the predictions of a light that shows nothing are not published.", "quantifier": "every set of lights and predictions", "why_tests_cant": "Any number of predictions.", "anchors": ["simulation/traffic_simulator/src/traffic_lights/traffic_light_publisher.cpp", "simulation/simple_sensor_simulator/include/simple_sensor_simulator/sensor_simulation/traffic_lights/traffic_lights_detector.hpp"]}
{"id": "C170", "title": "Overrides of detected traffic lights", "statement": "The traffic lights shown to the ego by the detector are the true ones, except that a light given another state for detection shows that one, and nothing else is shown; the messages over V2I show the same; without a detector nothing is shown by it. Refuted for ids beyond 32 bits.", "quantifier": "every set of true and overridden states", "why_tests_cant": "All sets of lights and overrides.", "anchors": ["simulation/simple_sensor_simulator/include/simple_sensor_simulator/sensor_simulation/traffic_lights/traffic_lights_detector.hpp", "simulation/simple_sensor_simulator/src/simple_sensor_simulator.cpp: updateTrafficLights", "simulation/traffic_simulator/src/api/api.cpp: updateTrafficLightsInSim"]}
{"id": "C171", "title": "Which message format a version of the architecture gets", "statement": "For versions of the form awf/universe/DATE, the first format is used before a date and the next from it on. Refuted: the V2I publisher accepts dates that the detector refuses; a name that is no version but comes later in the alphabet is accepted.", "quantifier": "every name of an architecture", "why_tests_cant": "All strings; the comparison is alphabetical.", "anchors": ["simulation/traffic_simulator/include/traffic_simulator/traffic_lights/traffic_lights.hpp", "simulation/simple_sensor_simulator/include/simple_sensor_simulator/sensor_simulation/sensor_simulation.hpp", "simulation/simple_sensor_simulator/src/sensor_simulation/sensor_simulation.cpp"]}
{"id": "C172", "title": "An entity's status between the processes", "statement": "An entity's status is sent so that each field of the message carries the field of the same meaning, and reading it gives the status sent; a type or subtype that is not known is refused.", "quantifier": "every status", "why_tests_cant": "All values of all fields; a swapped field is found only by a value that differs there.", "anchors": ["simulation/simulation_interface/src/conversions.cpp: toProto and toMsg of EntityStatus, EntityType, EntitySubtype, ActionStatus, LaneletPose, Pose, Twist, Accel, BoundingBox"]}
{"id": "C173", "title": "The exchange of a frame", "statement": "What is sent to the sensor simulator in a frame carries name, type, subtype, time, pose and action status; bounding box and lanelet pose are empty there. An entity other than the ego is left exactly as it was by the exchange, and the answer changes nothing but pose and action status. Refuted for the whole status: bounding box and lanelet pose are lost.", "quantifier": "every status and answer", "why_tests_cant": "All values of all fields.", "anchors": ["simulation/simulation_interface/src/conversions.cpp", "simulation/traffic_simulator/src/api/api.cpp: updateEntitiesStatusInSim", "simulation/simple_sensor_simulator/src/simple_sensor_simulator.cpp: updateEntityStatus"]}
{"id": "C174", "title": "Parameters, trajectories and commands between the processes", "statement": "Parameters of entities, trajectories of any number of vertices, known gears and the stamps, angles, speeds, accelerations and jerks of control commands arrive as sent. Refuted: the subtype of parameters is lost; an unknown gear is not refused but leaves the gear of the message; the marks saying which parts of a control command are meant are lost.", "quantifier": "every parameter set, trajectory, gear and command", "why_tests_cant": "All values; trajectories of any length.", "anchors": ["simulation/simulation_interface/src/conversions.cpp: toProto and toMsg of VehicleParameters, PedestrianParameters, MiscObjectParameters, PolylineTrajectory, GearCommand, Control"]}
{"id": "C175", "title": "The parts of an entity's status agree", "statement": "After any calls that set or replace an entity's status, the status says that the entity is on a lane exactly if it is on one, says which place of the lane, and gives it the height and direction of that place; name, type, subtype and bounding box never change.", "quantifier": "every map, every entity and every sequence of calls, including those that throw", "why_tests_cant": "All sequences of calls and all answers of the map.", "anchors": ["simulation/traffic_simulator/src/data_type/entity_status.cpp: CanonicalizedEntityStatus", "simulation/traffic_simulator/src/entity/entity_base.cpp: setStatus, setMapPose, setCanonicalizedStatus", "simulation/traffic_simulator/include/traffic_simulator/entity/entity_manager.hpp: spawnEntity"]}
{"id": "C176", "title": "Teleporting an entity", "statement": "An entity teleported to a lane position stands exactly there, and the teleport is refused exactly if there is no such place; one that is off the lanes and is teleported to a pose stands at that point, on the lane that the pose matches. Refuted: an entity on a lane that is teleported to a pose is still said to be at its former place of the lane and has the height and direction of that place; the offsets of a RelativeWorldPosition are taken along the axes of the entity referred to, not of the world; the ego can be teleported while the scenario runs, although setting its status is refused.", "quantifier": "every map, entity and position", "why_tests_cant": "All positions and all states of the entity.", "anchors": ["openscenario/openscenario_interpreter/src/syntax/teleport_action.cpp", "simulation/traffic_simulator/src/entity/entity_base.cpp: setStatus", "simulation/traffic_simulator/src/utils/pose.cpp: transformRelativePoseToGlobal", "simulation/traffic_simulator/include/traffic_simulator/entity/ego_entity.hpp: setStatus"]}
{"id": "C177", "title": "Adding an entity", "statement": "An entity added at a lane position, a world position or a position relative to an object stands there, with its name, type, subtype and bounding box, and it is refused exactly if the lane position has no place. Refuted: it cannot be added at a RelativeWorldPosition.", "quantifier": "every map, position and kind of entity", "why_tests_cant": "All positions and all answers of the map.", "anchors": ["openscenario/openscenario_interpreter/src/syntax/add_entity_action.cpp", "simulation/traffic_simulator/include/traffic_simulator/entity/entity_manager.hpp: spawnEntity"]}
{"id": "C178", "title": "Setting the status that was read", "statement": "Setting an entity's status to the one read from it leaves an entity on a lane exactly as it is, and leaves one off the lanes at its point, on the lane that its pose matches, if any. The pose reported for the ego puts it at that point, on a lane of its route if one matches, and no other entity accepts such a report.", "quantifier": "every map and entity", "why_tests_cant": "All states of the entity.", "anchors": ["simulation/traffic_simulator/src/data_type/entity_status.cpp: set", "simulation/traffic_simulator/src/entity/ego_entity.cpp: setMapPose", "simulation/traffic_simulator/src/api/api.cpp: updateEntitiesStatusInSim"]}
{"id": "C179", "title": "The distance an entity has travelled", "statement": "It is the sum over all frames of the length of the frame times the speed the entity is seen to have after it, whatever is requested of the entity. Refuted for the way really gone: the last metres before the end of the road do not count.", "quantifier": "every kind of entity and every history of requests and frames", "why_tests_cant": "Any number of frames and requests, in any order.", "anchors": ["simulation/traffic_simulator/src/entity/entity_base.cpp: constructor, onUpdate, onPostUpdate", "simulation/traffic_simulator/src/job/job_list.cpp", "simulation/traffic_simulator/src/entity/vehicle_entity.cpp: onUpdate", "simulation/traffic_simulator/src/entity/pedestrian_entity.cpp: onUpdate"]}
{"id": "C180", "title": "How long an entity stands still", "statement": "It is the length of the frames since the entity was last seen to move, by more than the machine epsilon; frames in which a vehicle or pedestrian is at the end of its road do not count. Refuted: the StandStillCondition is never met by an entity that stands at the end of its road, nor by a misc object; an entity that stands still need not be stopped.", "quantifier": "every kind of entity and every history of requests and frames", "why_tests_cant": "Any number of frames and requests, in any order.", "anchors": ["simulation/traffic_simulator/src/entity/entity_base.cpp: constructor, isStopped", "simulation/traffic_simulator/src/entity/misc_object_entity.cpp: onUpdate", "openscenario/openscenario_interpreter/include/openscenario_interpreter/simulator_core.hpp: evaluateStandStill"]}
{"id": "C181", "title": "Performance of an entity is enforced", "statement": "A frame that ends without exception leaves speed, acceleration and jerk in the range activated last, up to 0.01, and a value is complained of only if it is out of that range; earlier ranges do not count. At the end of its road an entity stands and is not checked.", "quantifier": "every kind of entity, every history and every range", "why_tests_cant": "Any number of activations, requests and frames.", "anchors": ["simulation/traffic_simulator/src/entity/entity_base.cpp: activateOutOfRangeJob", "openscenario/openscenario_interpreter/include/openscenario_interpreter/simulator_core.hpp: activatePerformanceAssertion"]}
{"id": "C182", "title": "Synchronizing with another entity", "statement": "The request answers whether the entity is at its goal, and takes the speed asked for if it is; else, until the other entity has passed its own goal, every frame sets the target speed to one step faster, slower or the same, as needed to arrive together; after that no frame does. The ego refuses. Refuted: it is told to be faster when the other stands; it may be told a negative speed; after the answer yes, an earlier request goes on and overrides the speed asked for.", "quantifier": "every history of requests and frames, and all distances and speeds", "why_tests_cant": "All distances, speeds and histories.", "anchors": ["simulation/traffic_simulator/src/entity/entity_base.cpp: requestSynchronize"]}
{"id": "C183", "title": "Changing the behaviour of an entity", "statement": "Changing the behaviour plugin of a vehicle or pedestrian keeps its place, time, speed, acceleration and jerk. Refuted: it always reads the status of an entity that was destroyed before; with a copy of the status it would be so, and no other entity would be touched, but what the entity had counted and its target speed would be lost. It is refused for the ego, for misc objects and for unknown names.", "quantifier": "every set of entities", "why_tests_cant": "Memory is read after it was freed; a test passes if it is not yet overwritten.", "anchors": ["simulation/traffic_simulator/src/entity/entity_manager.cpp: resetBehaviorPlugin, despawnEntity", "simulation/traffic_simulator/include/traffic_simulator/entity/entity_manager.hpp: spawnEntity"]}
{"id": "C184", "title": "A route for the ego vehicle, by poses", "statement": "Autoware is asked to forget its route, to plan to the last place requested through exactly the others in their order, with the permission to change the goal as requested, and to drive. Over any number of requests it is told where it is exactly once, by the first, which does not yet make it drive.", "quantifier": "every ego state, every route of any length, every history of requests", "why_tests_cant": "Routes and histories of any length.", "anchors": ["simulation/traffic_simulator/src/entity/ego_entity.cpp: requestAssignRoute, requestAcquirePosition", "external/concealer/src/field_operator_application.cpp: initialize, plan, engage, clearRoute"]}
{"id": "C185", "title": "A route for the ego vehicle, by lanelets", "statement": "If each place can be reached from the one before, the lanelets given to Autoware lead from the ego's own to the goal's, each can be entered from the one before, all places are passed in order, and none is named twice in a row. Off all lanelets the request is refused and the old route is kept. Refuted: a goal that cannot be reached is not refused, and the lanelets then do not end at it; a pose on no lanelet is left out, so that another place becomes the goal; if it is the only one, the behaviour is undefined.", "quantifier": "every road graph, every route of any length", "why_tests_cant": "All road graphs and routes.", "anchors": ["simulation/traffic_simulator/src/entity/ego_entity.cpp: requestAssignRoute", "simulation/traffic_simulator/src/lanelet_wrapper/route.cpp: routeFromGraph"]}
{"id": "C186", "title": "A route for a vehicle or a pedestrian", "statement": "On a lane, exactly the requested places become its waypoints and goals; a place on no lane is refused and changes neither. Refuted: an entity on no lane ignores a route without complaint, and after a requested position keeps the waypoints of the route before.", "quantifier": "every entity and every route of any length", "why_tests_cant": "All states and routes.", "anchors": ["simulation/traffic_simulator/src/entity/vehicle_entity.cpp: requestAcquirePosition, requestAssignRoute", "simulation/traffic_simulator/src/entity/pedestrian_entity.cpp: requestAcquirePosition, requestAssignRoute"]}
{"id": "C187", "title": "Respawning the ego vehicle", "statement": "A pose not given on the map is refused without effect. Else the simulator is asked to put the ego, standing, at that point; if it answers with exactly the ego's status, the ego is there with the answered speed and acceleration, controlled by Autoware, which is asked to plan to the goal and drive; for any other answer it throws and Autoware is asked nothing. Refuted: an ego on a lane keeps the direction of where it was; after a failure an ego that followed a trajectory is controlled by nobody.", "quantifier": "every ego state, every pose, every answer of the simulator", "why_tests_cant": "All answers of another process, and all states.", "anchors": ["simulation/traffic_simulator/src/api/api.cpp: respawn", "simulation/traffic_simulator/src/entity/ego_entity.cpp: requestReplanRoute, setMapPose"]}
{"id": "C188", "title": "A new route for a driving ego vehicle", "statement": "Autoware is asked to forget its route, plan to the goal, take control and drive. Refuted for routes of more than one place: they are written outside an empty vector.", "quantifier": "every ego state and goal", "why_tests_cant": "A test passes when the memory written happens to be free.", "anchors": ["simulation/traffic_simulator/src/entity/ego_entity.cpp: requestReplanRoute"]}
{"id": "C189", "title": "Routes requested of several actors", "statement": "Every actor is asked with its own permission to change the goal: the property of its controller if it has one, else the parameter of the scenario, else no. An actor that refuses ends the action; those before it have been asked, those after it are as they were. Objects refuse.", "quantifier": "every list of actors, all properties and parameters", "why_tests_cant": "Any number of actors of any kinds.", "anchors": ["openscenario/openscenario_interpreter/src/syntax/acquire_position_action.cpp: start", "openscenario/openscenario_interpreter/src/syntax/assign_route_action.cpp: start"]}
{"id": "C190", "title": "Control of the ego vehicle", "statement": "While the ego follows a trajectory nothing is asked of Autoware; in the frame in which there is no next status it is asked, once, to take control. Under Autoware's control frames change neither pose nor speed. Changing lanes and relative speeds are refused, absolute speeds are accepted only before the scenario runs; a speed limit reaches Autoware.", "quantifier": "every run of frames of any length", "why_tests_cant": "Runs of any length.", "anchors": ["simulation/traffic_simulator/src/entity/ego_entity.cpp: onUpdate, requestFollowTrajectory, requestLaneChange, requestSpeedChange, setVelocityLimit"]}
{"id": "C191", "title": "When a speed action is over", "statement": "For each actor's objects one change of speed is requested, when the action starts. An action that is over found every actor at the target speed in some frame since its start; it is over as soon as all are there in one frame, with one actor exactly when it has been there; a step is over at once, a target followed continuously never. Refuted: it is not enough that each of several actors has been at the target since the start.", "quantifier": "every list of actors and selections, every target, every sequence of frames", "why_tests_cant": "Histories and selections of any length.", "anchors": ["openscenario/openscenario_interpreter/src/syntax/speed_action.cpp: start, accomplished, endsImmediately", "openscenario/openscenario_interpreter/include/openscenario_interpreter/syntax/storyboard_element.hpp: evaluate"]}
{"id": "C192", "title": "Speed profiles", "statement": "A speed profile is over exactly when every actor has had the speeds of all entries, one after the other in different frames. The entries are requested in their order, the first at once and each other one only when those before it have been met, with the given time if there is one. Refuted: without times the acceleration requested in the mode position is that of the action's constraints (it is always 10 m/s2).", "quantifier": "every list of entries and actors, every sequence of frames", "why_tests_cant": "Profiles and histories of any length.", "anchors": ["openscenario/openscenario_interpreter/src/syntax/speed_profile_action.cpp: start, run, accomplished, apply"]}
{"id": "C193", "title": "When a lane change action is over", "statement": "One lane change is requested for each object of each actor, when the action starts. Refuted: the action lasts as long as the lane change. It is over already in the frame in which it starts unless all objects of some actor are changing lanes at that moment; then it ends with the first member of a selection that does not, not with the last; with an empty selection it never ends. If an object of the actor disappears while all of them change lanes, the scenario fails.", "quantifier": "every list of actors and selections, every sequence of frames", "why_tests_cant": "Histories and selections of any length.", "anchors": ["openscenario/openscenario_interpreter/src/syntax/lane_change_action.cpp: start, accomplished", "openscenario/openscenario_interpreter/include/openscenario_interpreter/syntax/storyboard_element.hpp: evaluate"]}
{"id": "C194", "title": "The actions of Init", "statement": "Every action of Init is started exactly once. Those that end immediately, and all global ones, are started before the simulation time starts, in the order global, user defined, private, and run after all have been started; the others in the first frame. Init is over in the first frame in which all its actions are accomplished, so never with an EnvironmentAction. Refuted: they are started in the order of the document.", "quantifier": "every Init with any number of actions, every sequence of frames", "why_tests_cant": "Any number of actions and frames.", "anchors": ["openscenario/openscenario_interpreter/src/syntax/init_actions.cpp: startInstantaneousActions, startNonInstantaneousActions, accomplished", "openscenario/openscenario_interpreter/src/syntax/init.cpp: evaluateInstantaneousActions", "openscenario/openscenario_interpreter/src/syntax/private.cpp"]}
{"id": "C195", "title": "Actions that only wait", "statement": "An action that waits for a duration is over in the first frame whose time lies strictly after the start plus the duration.", "quantifier": "every duration and every sequence of frame times", "why_tests_cant": "Sequences of any length.", "anchors": ["openscenario/openscenario_interpreter/src/syntax/custom_command_action.cpp: DummyLongRunningAction"]}
{"id": "C196", "title": "Lane change requests", "statement": "A request to change to the lane n lanes to the left (n > 0) or right (n < 0) of an entity, with |n| < 256, is taken by a vehicle exactly when there are that many neighbouring lanes and leads to the last of them, with the offset, shape and constraint of the action; it is refused when there are not, or when the entity is unknown or on no lane. A request by direction leads to the middle of the neighbouring lane. A named lane is taken unchecked. Nothing is taken by the ego vehicle (which refuses a lane) or by pedestrians and objects (which ignore it). Refuted: a change by 256 lanes is refused on a road with one lane (it leads to the own lane); an impossible request by direction is reported (it is ignored).", "quantifier": "every road graph, entity, reference and number of lanes", "why_tests_cant": "Any graph and any number of lanes.", "anchors": ["simulation/traffic_simulator/src/entity/entity_base.cpp: requestLaneChange", "simulation/traffic_simulator/src/entity/vehicle_entity.cpp: requestLaneChange", "simulation/traffic_simulator/src/lanelet_wrapper/lane_change.cpp: laneChangeableLaneletId", "openscenario/openscenario_interpreter/src/syntax/relative_target_lane.cpp"]}
{"id": "C197", "title": "Counting lane changes", "statement": "The numbers of lane changes along a route are the numbers of hops to a lane on the left and to a lane on the right; hops to a following lane are not counted; there are numbers unless there is no route. With lanes numbered across the road and changes to neighbours only, their difference is the difference of the lanes. Refuted: this holds also for hops over several lanes (such a hop counts once).", "quantifier": "every road graph and every route", "why_tests_cant": "Routes of any length.", "anchors": ["simulation/traffic_simulator/src/lanelet_wrapper/lane_change.cpp: countLaneChanges"]}
{"id": "C198", "title": "The curve of a lane change", "statement": "Without a constraint the curve leads to the whole metre of the target lane's middle that lies more than a metre ahead and needs a curvature below ten, and whose curve is closest to twenty metres long, the first of those equally close; there is none only if no point is suitable. With a constraint the curve ends beside the point at the given distance, twenty metres for a time or a lateral speed, at the target's offset. A lane that may not be changed to gives no curve. Refuted: the target's offset is respected without a constraint.", "quantifier": "every lane length, every geometry of curves, every parameter", "why_tests_cant": "Lanes of any length and any geometry.", "anchors": ["simulation/traffic_simulator/src/lanelet_wrapper/lane_change.cpp: laneChangeTrajectory, laneChangePoints", "simulation/traffic_simulator/src/utils/route.cpp: laneChangeTrajectory"]}
{"id": "C199", "title": "Answers of the map", "statement": "After any sequence of activations and questions, the answer to a question about the active map (a route, the centre points, the spline or the length of a lanelet) is the one that computing it anew would give, however often and in whatever order it was asked (for lanelets whose spline can be built); asked before a map is activated, or with a map that cannot be loaded, it is an error; a question that was answered is answered in the same way again, whatever is asked in between. Refuted: a question whose answer is an error stays an error (the points of a lanelet whose spline cannot be built are stored before the error, and are returned when they are asked for again).", "quantifier": "every history of activations and questions, every map", "why_tests_cant": "Histories of any length over any map.", "anchors": ["simulation/traffic_simulator/include/traffic_simulator/lanelet_wrapper/lanelet_wrapper.hpp: RouteCache, CenterPointsCache, LaneletLengthCache", "simulation/traffic_simulator/src/lanelet_wrapper/lanelet_wrapper.cpp: activate, getInstance"]}
{"id": "C200", "title": "Asking the map from several threads", "statement": "Any number of threads may ask the same or different questions in any interleaving of their steps: every answer is the computed one for the thread's own question, no call uses a destroyed instance, every call is over after at most six of its steps, and answers returned by value are never read while they are written. Refuted: this holds for the centre points, which are returned by reference (one thread copies them while another assigns them); and a map may be activated while another thread is in a call (the call goes on with a destroyed instance).", "quantifier": "every schedule of any number of threads", "why_tests_cant": "Schedules of any length; races need interleavings that tests do not control.", "anchors": ["simulation/traffic_simulator/include/traffic_simulator/lanelet_wrapper/lanelet_wrapper.hpp: RouteCache, CenterPointsCache, LaneletLengthCache", "simulation/traffic_simulator/src/lanelet_wrapper/lanelet_wrapper.cpp: activate, getInstance"]}
{"id": "C201", "title": "Which lane a pose is on", "statement": "A pose is on a lane exactly when its projection on the middle of the lane is found, it is at most one metre above or below, and it heads along the lane or against it up to 45 degrees; its offset is the distance to the middle, negative on the right. Of the lanes of a route, the first that it is on is taken, whichever is nearer; without one, of the lanes that its box touches and it is on, the one whose middle is nearest (of equally near ones, the smallest id); without one, the position alone decides. An entity that stands across all lanes around it is on none. Refuted: the lanes before and after the matched one are tried (that code is never reached).", "quantifier": "every map, pose, box, route and matching distance", "why_tests_cant": "Any number of lanes and any geometry.", "anchors": ["simulation/traffic_simulator/src/lanelet_wrapper/pose.cpp: toLaneletPose, findMatchingLanes, matchToLane", "simulation/traffic_simulator/src/utils/pose.cpp: toCanonicalizedLaneletPose"]}
{"id": "C202", "title": "Lanelets around a position", "statement": "The lanelets around a position are those of the given number of nearest ones that are within the threshold and, if crosswalks are left out, have a subtype other than crosswalk, nearest first; a position is put on the first of them that it is on. Refuted: every lane within the threshold is found (five crosswalks hide it; lanelets without a subtype are left out).", "quantifier": "every map, position, threshold and number", "why_tests_cant": "Any number of lanelets.", "anchors": ["simulation/traffic_simulator/src/lanelet_wrapper/lanelet_map.cpp: nearbyLaneletIds", "simulation/traffic_simulator/src/lanelet_wrapper/pose.cpp: toLaneletPose"]}
{"id": "C203", "title": "Lanes to which there is a route", "statement": "When distances to an entity are measured, its own lane is used if there is a route to it; otherwise one of the other lanes within three metres of it to which a route is shortest; of equally short ones that with the smallest signed offset; there is none exactly if there is no such lane. Refuted: of equally short ones the nearest is taken.", "quantifier": "every map, pose, box and routing graph", "why_tests_cant": "Any number of lanes and any routes.", "anchors": ["simulation/traffic_simulator/src/utils/pose.cpp: findRoutableAlternativeLaneletPoseFrom"]}
{"id": "C204", "title": "Lanes of pedestrians", "statement": "A pedestrian that matches a lane is on it. One that matches none but is within two metres of a lane that ends is kept at that end, with its offset and heading. Where the positions found are within the lengths of their lanes, a pedestrian is only where it was found on a lane.", "quantifier": "every map, pose and route", "why_tests_cant": "Any geometry.", "anchors": ["simulation/traffic_simulator/src/utils/pose.cpp: pedestrian::transformToCanonicalizedLaneletPose"]}
{"id": "C205", "title": "Crossing into the next lanelet", "statement": "In a step an entity stays in its lanelet exactly when the way along the lane does not exceed what is left of it; otherwise it is in the next lanelet, where the ways along the lanelets and across them make up the displacement and the heading to the lane is kept; it is an error exactly when it would pass the next lanelet too.", "quantifier": "every pose, velocity, step and length of lanelets", "why_tests_cant": "Any real values.", "anchors": ["simulation/traffic_simulator/src/utils/pose.cpp: updatePositionForLaneletTransition"]}
{"id": "C206", "title": "Direction of a lane at a point", "statement": "The direction of a lane at a point is that from the first of the centre points nearest to it to the following one. Refuted: there is a direction at every point (at points nearest to the last centre point it is an error).", "quantifier": "every lane and point", "why_tests_cant": "Any number of centre points.", "anchors": ["simulation/traffic_simulator/src/lanelet_wrapper/lanelet_map.cpp: laneletYaw"]}
{"id": "C207", "title": "The nearest allowed velocity of a pedestrian", "statement": "Where some velocity within the speed is on the allowed side of all lines, the velocity taken is such a velocity, and of all of them the one nearest to the preferred velocity; it does not depend on the order of the lines. Without lines it is the preferred velocity, shortened to the speed. (Lines whose directions differ by less than the threshold without being parallel are not covered.)", "quantifier": "every list of lines, every speed above the machine epsilon and every preferred velocity", "why_tests_cant": "Any number of lines in any position.", "anchors": ["simulation/context_gamma_planner/src/orca/solver.cpp: applyConstraintOnLine, solveLinearProgramForConstraints, optimizeVelocityWithConstraints"]}
{"id": "C208", "title": "The velocity of a pedestrian if none is allowed", "statement": "Where no velocity within the speed is on the allowed side of all lines, the one taken keeps every bound, on how far it is on the wrong side of a line, that any velocity within the speed keeps; the search for it never fails. Whatever the lines, the velocity taken is within the speed. (Lines or bisectors whose directions differ by less than the threshold without being parallel are covered by the last sentence only.)", "quantifier": "every list of lines, every speed above the machine epsilon and every preferred velocity", "why_tests_cant": "Any number of lines in any position.", "anchors": ["simulation/context_gamma_planner/src/orca/solver.cpp: resolveConstraintViolationViaIntersectionSearch, optimizeVelocityWithConstraints"]}
{"id": "C209", "title": "Lines that keep pedestrians apart", "statement": "All lines have directions of length one. Where the present relative velocity is not at the front of the forbidden cone, two entities that both take velocities on the allowed sides of their lines stay apart for ever. Where they overlap already, they are apart after one step. At the front of the cone a velocity is allowed exactly if it does not exceed the present one in the direction of the other entity. Refuted: they stay apart for five seconds then too (the correction is applied along the line instead of across it); one that stands may never move towards one that stands in front of it, however far away.", "quantifier": "every pair of positions, velocities, sizes and step", "why_tests_cant": "Any real values and times.", "anchors": ["simulation/context_gamma_planner/src/orca/orca.cpp: calculateOrcaLine"]}
{"id": "C210", "title": "Sizes of entities to avoid", "statement": "An entity is taken as an ellipse through the corners of its box: in every direction the radius is at least that of the box, and in the directions of the corners it is that of the box. Both entities take the same sum of radii.", "quantifier": "every size, heading and direction", "why_tests_cant": "Any real values.", "anchors": ["simulation/context_gamma_planner/src/orca/orca.cpp: calculateOrcaLine"]}
{"id": "C211", "title": "Goals of pedestrians along their lanes", "statement": "A pedestrian that follows lanes heads for the first centre point of its route that is beyond the threshold after the first ones within it, or for the last point; it plans with its target speed. It stops exactly if all points are beyond the threshold, and an empty route is an error.", "quantifier": "every route, threshold, position and request", "why_tests_cant": "Any number of points.", "anchors": ["simulation/context_gamma_planner/src/planner/pedestrian/follow_lane_planner.cpp: calculateNextGoalPoint", "simulation/context_gamma_planner/src/behavior/pedestrian/follow_lane_action.cpp: tick"]}
{"id": "C212", "title": "Goals of pedestrians along trajectories", "statement": "With no points left, a requested trajectory is followed from its first point that is not both ahead and within the threshold; the points before are dropped, or taken up again at the end if it is closed; a point behind stays the goal. At its end the action ends and nothing is requested any more; other requests give up what is left. Refuted: a closed trajectory always has a next goal (if all its points are ahead and within the threshold the search never ends); the action succeeds at the end (it fails); a new trajectory is followed when it is requested (what is left of an earlier one, kept while lanes are followed, is followed first).", "quantifier": "every trajectory, threshold, position, request and history", "why_tests_cant": "Any number of points and any history.", "anchors": ["simulation/context_gamma_planner/src/planner/follow_polyline_trajectory_planner_base.cpp: setWaypoints, calculateNextGoalPoint", "simulation/context_gamma_planner/src/behavior/pedestrian/follow_polyline_trajectory_action.cpp: tick", "simulation/context_gamma_planner/config/pedestrian_behavior.xml"]}
{"id": "C213", "title": "Speeds of pedestrians along trajectories", "statement": "Before the start a pedestrian stands; then its speed covers the way to the next goal in the time left to the first vertex ahead, if that time is before the time of the last vertex, and is its greatest speed if that time is over. Refuted: the time of the last vertex is kept (it goes as fast as it may); absolute times, no times, or a last time of zero are possible (the speed is not a number); between vertices on a spline the speed is that for the vertex (it is that for the next point of the spline, a metre away).", "quantifier": "every trajectory, position and time", "why_tests_cant": "Any real times and distances.", "anchors": ["simulation/context_gamma_planner/src/planner/follow_polyline_trajectory_planner_base.cpp: getTargetSpeed, getCurrentTrajectoryWaypointIndex"]}
{"id": "C214", "title": "Composing and comparing orientations", "statement": "Turning by the product of two orientations is turning by the second, then by the first; products and differences of orientations are orientations; turning changes no lengths and angles. The rotation between two orientations is the only one that leads from the first to the second. A quaternion is normalized to the orientation it is a positive multiple of, and refused exactly if its length is at most the machine epsilon. The normal vector of an orientation is where it takes the vertical.", "quantifier": "all quaternions and vectors", "why_tests_cant": "Any real coordinates.", "anchors": ["common/math/geometry/include/geometry/quaternion/operator.hpp", "common/math/geometry/include/geometry/quaternion/get_rotation.hpp", "common/math/geometry/include/geometry/quaternion/get_rotation_matrix.hpp", "common/math/geometry/include/geometry/quaternion/normalize.hpp", "common/math/geometry/include/geometry/quaternion/norm.hpp", "common/math/geometry/include/geometry/quaternion/get_normal_vector.hpp"]}
{"id": "C215", "title": "Interpolating orientations", "statement": "Between two orientations that are not the same, the interpolation starts at the first, ends at the second, is an orientation at every ratio and covers an angle in proportion to the ratio; between orientations that are the same it stays at the first. Refuted: it depends only on the orientations (an orientation has two quaternions, and with one of them the long way round is taken).", "quantifier": "all orientations and ratios", "why_tests_cant": "Any real coordinates and ratios.", "anchors": ["common/math/geometry/include/geometry/quaternion/slerp.hpp: slerp"]}
{"id": "C216", "title": "Orientations from angles and directions", "statement": "An orientation made from roll, pitch and yaw is the turn by the roll about the x axis, then by the pitch about the y axis, then by the yaw about the z axis. One made from a direction looks into that direction, without leaning to a side or lying on its back. The yaw read from an orientation that does not look straight up or down is the angle at which it looks across the map, in (-pi, pi]; a yaw given is read back.", "quantifier": "all angles, directions and orientations", "why_tests_cant": "Any real angles and coordinates.", "anchors": ["common/math/geometry/include/geometry/quaternion/euler_to_quaternion.hpp: convertEulerAngleToQuaternion", "common/math/geometry/include/geometry/quaternion/direction_to_quaternion.hpp: convertDirectionToQuaternion", "common/math/geometry/include/geometry/quaternion/quaternion_to_euler.hpp: convertQuaternionToEulerAngle"]}
{"id": "C217", "title": "Entities that do nothing stand still", "statement": "An entity whose behaviour is to do nothing stays where it is however long the simulation goes on, with no speed and no acceleration. A trajectory to follow is refused, when it is to be followed, exactly if there is none, or it is closed, or the dynamics are not to be ignored, or it has an offset, or fewer than two points. Refuted: an entity that stands has no jerk (that of its last movement is reported for ever).", "quantifier": "all entities and all sequences of frames", "why_tests_cant": "Any number of frames.", "anchors": ["simulation/do_nothing_plugin/src/plugin.cpp: DoNothingBehavior::update", "simulation/do_nothing_plugin/src/plugin.cpp: checkPolylineTrajectory"]}
{"id": "C218", "title": "Entities that do nothing but follow a trajectory", "statement": "Between the times of the first and the last point the entity is on the leg the time belongs to, where an even movement along it would be, at every point at its time, and reported with the speed of that movement; before, it waits where it is; from the time of the last point on it is there and the action is over, and not before. An action of a scenario with relative times and two points or more is followed like that after the time of its first point. Refuted: the entity goes to the first point (it waits and is there when the time comes, however far away); absolute times are possible (it never moves and the action never ends); one point is enough (the speed reported is not a number); an entity that starts to move is reported to accelerate (the sign is wrong).", "quantifier": "all trajectories, times and states", "why_tests_cant": "Any number of points and any real times.", "anchors": ["simulation/do_nothing_plugin/src/plugin.cpp: interpolateEntityStatusFromPolylineTrajectory", "simulation/do_nothing_plugin/src/plugin.cpp: getLastVertexTimestamp", "openscenario/openscenario_interpreter/src/syntax/follow_trajectory_action.cpp: start", "openscenario/openscenario_interpreter/include/openscenario_interpreter/simulator_core.hpp: applyFollowTrajectoryAction"]}
{"id": "C219", "title": "What the fourth noise model does to poses", "statement": "On level ground the point of an entity's outline that is nearest to the ego vehicle is moved away from it and to its right by the numbers drawn, and the whole entity with it, turned about that point by the angle drawn; if that point is within a micrometre nothing happens, and without noise nothing changes. A flip leaves the middle, the outline and the covered area of the entity where they are and turns it to face the other way. Refuted: the same on slopes (the position is turned about the vertical, the orientation about the entity's own axis).", "quantifier": "all poses, bounding boxes, positions of the ego vehicle and numbers drawn", "why_tests_cant": "Any real coordinates.", "anchors": ["simulation/simple_sensor_simulator/src/sensor_simulation/detection_sensor/detection_sensor.cpp: noise_v4, apply_yaw_flip"]}
{"id": "C220", "title": "Which configuration of noise is meant for an entity", "statement": "In the patterns of a configuration of noise, * stands for any text, ? for any character and every other character for itself, if no character with a meaning in regular expressions is used. Of the configurations that have a pattern for the type, one for the subtype and one for the name of the entity, the one with the first parameter in the list is found, and none if there is none; the configurations that are available are those that have a parameter. Refuted: a dot stands for itself.", "quantifier": "all patterns, names, entities and parameters", "why_tests_cant": "Texts and lists of any length.", "anchors": ["simulation/simple_sensor_simulator/include/simple_sensor_simulator/sensor_simulation/noise_parameter_selector.hpp: findMatchingNoiseConfigForEntity, listAvailableNoiseConfigs, parseConfigNameFromParameter"]}
{"id": "C221", "title": "The configuration of an entity is found once", "statement": "The first time the noise of point clouds needs the configuration for a name, the one meant for the entity is found, whatever entities came before; from then on the name keeps it; as long as the parameters stay as they are nothing is thrown. Refuted: an entity gets the noise meant for it (one that is spawned under the name of another, of another type, gets the noise of that).", "quantifier": "all parameters and all sequences of entities", "why_tests_cant": "Histories of any length.", "anchors": ["simulation/simple_sensor_simulator/src/sensor_simulation/lidar/lidar_noise_model_v1.cpp: LidarNoiseModelV1, getConfigFor"]}
{"id": "C222", "title": "What noise leaves of a point cloud", "statement": "Every point of the cloud after the noise is a point of the cloud before it, in the same order: the point itself if there is no configuration for its entity, otherwise the point moved by deviates drawn for the ring of its entity; points of such entities are lost only if the draw for the rate says so, and points of nobody always. A cloud whose points are not all attributed is left alone, and values that stand for no noise change nothing. Refuted: an entity that is reported as detected has a point in the cloud (names are taken before the noise).", "quantifier": "all clouds, entities, configurations and numbers drawn", "why_tests_cant": "Any number of points and entities.", "anchors": ["simulation/simple_sensor_simulator/src/sensor_simulation/lidar/lidar_noise_model_v1.cpp: applyNoise, removeMarkedPoints", "simulation/simple_sensor_simulator/include/simple_sensor_simulator/sensor_simulation/lidar/raycaster.hpp: getDetectedEntityNames", "simulation/simple_sensor_simulator/src/sensor_simulation/lidar/lidar_sensor.cpp: raycast"]}
{"id": "C223", "title": "The rings of the noise of point clouds", "statement": "The values used for an entity are those listed for the first radius whose square is greater than its distance, measured in the ellipses of the rate, or the last ones. Refuted: they are those of the ring the entity is in (the radius is squared twice); every kind of value has ellipses of its own (the other ratios are ignored). If a list of values is shorter than that of the radii, and only then, the values read are undefined.", "quantifier": "all lists of radii and values, and positions", "why_tests_cant": "Lists of any length, any real coordinates.", "anchors": ["simulation/simple_sensor_simulator/src/sensor_simulation/lidar/lidar_noise_model_v1.cpp: Config::Config, Config::getDistanceBin", "simulation/simple_sensor_simulator/include/simple_sensor_simulator/sensor_simulation/lidar/lidar_noise_model_v1.hpp: DistanceBin"]}
{"id": "C224", "title": "How noise moves a point of a cloud", "statement": "The radial deviate is the change of the point along the line of sight, and alone it keeps the direction. The tangential deviate moves the point horizontally, across the line of sight and to the right. Refuted: it moves the point by the deviate drawn (the cosine of the elevation is a factor).", "quantifier": "all points other than the sensor itself, and all deviates", "why_tests_cant": "Any real coordinates.", "anchors": ["simulation/simple_sensor_simulator/src/sensor_simulation/lidar/lidar_noise_model_v1.cpp: applyNoise"]}
{"id": "C225", "title": "What the inertial measurement unit reports of the motion", "statement": "Without noise the message has the orientation of the entity, unless its longitudinal axis is vertical, its angular velocity and, without gravity, its acceleration. With noise each of the nine values has a deviate of its own, from the distribution configured for its kind. Each covariance matrix is diagonal with the square of the configured deviation. Refuted: a message without noise claims no variance (if the legacy configuration is overridden its noise is left out but not its variance).", "quantifier": "all orientations of length one, motions, configurations and numbers drawn", "why_tests_cant": "All real orientations and deviates.", "anchors": ["simulation/simple_sensor_simulator/src/sensor_simulation/imu/imu_sensor.cpp: generateMessage", "simulation/simple_sensor_simulator/include/simple_sensor_simulator/sensor_simulation/imu/imu_sensor.hpp: ImuSensorBase, calculateCovariance", "common/math/geometry/include/geometry/quaternion/quaternion_to_euler.hpp: convertQuaternionToEulerAngle"]}
{"id": "C226", "title": "Gravity in the messages of the inertial measurement unit", "statement": "If gravity is asked for, a vector of the length 9.81 is added to the acceleration. For an entity that stands upright it is the attraction of the earth as the entity sees it. Refuted: it is so on a slope (the vector is turned the wrong way, so it points to the other end of the vehicle); an entity that does not lean sideways feels nothing sideways; a unit at rest shows the acceleration upwards that an accelerometer shows (it shows the attraction instead).", "quantifier": "all orientations of length one, motions and configurations", "why_tests_cant": "All real orientations.", "anchors": ["simulation/simple_sensor_simulator/src/sensor_simulation/imu/imu_sensor.cpp: generateMessage"]}
{"id": "C227", "title": "The rays of a lidar", "statement": "A scan has one ray for each column and each vertical angle; the columns are one resolution apart, the first one resolution after the start and the last the first beyond the end, so no angle of the scan is further from a column than the resolution. The preparation ends if and only if the resolution is positive or the scan empty. The rays are those of the scan asked for, whatever scans were asked for before. Refuted: no ray is cast twice in a full turn.", "quantifier": "all lists of vertical angles, horizontal angles, resolutions and histories of scans", "why_tests_cant": "Any number of columns, any history.", "anchors": ["simulation/simple_sensor_simulator/src/sensor_simulation/lidar/raycaster.cpp: getDirections, setDirection"]}
{"id": "C228", "title": "The points of a lidar", "statement": "The points are those where the rays meet the boxes of entities, in the order of the rays, none missing: put into the map by the pose of the sensor, each is where its ray met the box of the entity that the point is attributed to. No point is nearer or further than the distances configured.", "quantifier": "all scenes, poses and lists of rays", "why_tests_cant": "Any number of rays and entities, any real pose.", "anchors": ["simulation/simple_sensor_simulator/src/sensor_simulation/lidar/raycaster.cpp: raycast", "simulation/simple_sensor_simulator/include/simple_sensor_simulator/sensor_simulation/lidar/raycaster.hpp: intersect"]}
{"id": "C229", "title": "When random tests count a collision as new", "statement": "As long as time does not go back, a collision of the ego with an entity is a new one if and only if every earlier one with this entity is more than half a second ago, whatever other entities it touched.", "quantifier": "all histories of collisions", "why_tests_cant": "Histories of any length.", "anchors": ["test_runner/random_test_runner/include/random_test_runner/metrics/ego_collision_metric.hpp: isThereEgosCollisionWith"]}
{"id": "C230", "title": "When random tests find a standstill", "statement": "As long as frames are at most two seconds apart, a standstill is found if and only if the speed was below 0.01 m/s in every frame since one that is more than ten seconds ago. Refuted: this holds with longer gaps (the count goes on after them, whatever the speed was in the frames around them); a vehicle that drives backwards does not stand still.", "quantifier": "all histories of times and speeds", "why_tests_cant": "Histories of any length.", "anchors": ["test_runner/random_test_runner/include/random_test_runner/metrics/almost_standstill_metric.hpp: isAlmostStandingStill"]}
{"id": "C231", "title": "What a random test reports and when it is over", "statement": "A test is over when the goal is reached, the time is up, a standstill is found or an error is thrown, and stays so. In a frame a timeout is reported if and only if the time is up and the goal not reached, a standstill if and only if one is found before the time is up away from the goal, an exception if it is an error of Autoware or of the simulator, and collisions with entities that are touched; every new one before the time is up. What was touched and how fast the ego was is remembered for later frames. Refuted: a test that an error ends reports something; a collision in the last frame is reported.", "quantifier": "all states of a test and frames", "why_tests_cant": "Any number of entities, any history before the frame.", "anchors": ["test_runner/random_test_runner/include/random_test_runner/test_executor.hpp: TestExecutor::update, executeWithErrorHandling", "test_runner/random_test_runner/include/random_test_runner/metrics/goal_reached_metric.hpp: isGoalReached"]}
{"id": "C232", "title": "Where random tests look for places", "statement": "All the parts of lanelets that are found for a pose and two distances are at a distance between these, by travelling ahead or back from the pose, the one opposite to it or those beside it. If these are within their lanelets, so are all the parts. The search ends if there is a length that no lanelet falls short of. Refuted: the parts are always parts of lanelets (beside the pose there may be a shorter lanelet).", "quantifier": "all maps, poses and distances", "why_tests_cant": "Graphs of any size and with any cycles.", "anchors": ["test_runner/random_test_runner/src/lanelet_utils.cpp: getLanesWithinDistance"]}
{"id": "C233", "title": "The entities and the route of a random test", "statement": "If a test is made, it has the number of entities asked for, with names of their own, each within the parts found, and any two more than five metres apart. The ego starts and ends at a pair of places drawn, such that its goal is ahead on the same lanelet, or there is a route to it or to the lanelet opposite to it; if there is such a pair among the first hundred, one is found. Refuted: the goal is not behind the start on the same lanelet (a lanelet has a route to itself).", "quantifier": "all maps, parameters and numbers drawn", "why_tests_cant": "Any number of entities and attempts.", "anchors": ["test_runner/random_test_runner/src/test_randomizer.cpp: generate, generateEgoRoute, isFeasibleRoute, generateRandomPoseWithinMinDistanceFromPosesFromLanelets"]}
{"id": "C234", "title": "Conditions on topics use the last value received", "statement": "A user-defined value condition on a topic compares the last value it has received since it was made with its own, as values of the type the message says, whatever other conditions are made, destroyed or receive; as long as there is none, or it is empty or of an unknown type, the condition is false.", "quantifier": "all histories in which conditions are made, destroyed, receive or fail to", "why_tests_cant": "Histories of any length and interleaving, any number of conditions.", "anchors": ["openscenario/openscenario_interpreter/src/syntax/user_defined_value_condition.cpp: MagicSubscription, UserDefinedValueCondition::evaluate"]}
{"id": "C235", "title": "What a failure to receive does to conditions on topics", "statement": "Once receiving has failed, every condition on every topic throws, whatever is received, made or destroyed, as long as one that was there is left; when all are gone, new ones work again. No condition that exists uses a node that does not. Refuted: conditions on other topics are not affected.", "quantifier": "all histories in which conditions are made, destroyed, receive or fail to", "why_tests_cant": "Histories of any length and interleaving, any number of conditions.", "anchors": ["openscenario/openscenario_interpreter/src/syntax/user_defined_value_condition.cpp: MagicSubscription"]}
{"id": "C236", "title": "What the name of a user-defined value stands for", "statement": "The name of an entity, a dot and one of five names of states stand for this state of the entity, and nothing else does; any other name with a dot in it is refused. A name stands for a topic if and only if it is written as one. A call of the relative heading without dots is one, and every other function is refused. States are compared as text, but the current state cannot be compared with an emergency. Refuted: the relative heading can be asked for at a position with a decimal point.", "quantifier": "all names and all values", "why_tests_cant": "Strings of any length.", "anchors": ["openscenario/openscenario_interpreter/src/syntax/user_defined_value_condition.cpp: UserDefinedValueCondition::UserDefinedValueCondition", "openscenario/openscenario_interpreter/include/openscenario_interpreter/regex/function_call_expression.hpp: FunctionCallExpression"]}
{"id": "C237", "title": "Which entry a reference to a catalog means", "statement": "If the names of catalogs are distinct, a reference means an entry if and only if there is a catalog of that name in which it is the only entry of its name, and it is a vehicle, controller, pedestrian, miscellaneous object or maneuver; the order in which directories and files are gone through does not matter. Refuted: it never matters (of catalogs of the same name any may be taken).", "quantifier": "all directories of catalogs and references", "why_tests_cant": "Any number of directories, files and entries in any order.", "anchors": ["openscenario/openscenario_interpreter/src/syntax/catalog_reference.cpp: CatalogReference, choice_by_attribute", "openscenario/openscenario_interpreter/src/syntax/catalog_location.cpp: CatalogLocation"]}
{"id": "C238", "title": "What parameters mean in an entry of a catalog", "statement": "A parameter that a reference assigns once, that has no value in the scope of the reference yet and that the entry does not declare has the value assigned, in the entry and in the scope of the reference. One that the entry declares has the value declared. One that already has a value in the scope becomes ambiguous. Refuted: a value assigned replaces the default that the entry declares; two references in the same scope can assign values of their own.", "quantifier": "all environments, scopes, assignments and entries", "why_tests_cant": "Environments of any size, any number of assignments and declarations.", "anchors": ["openscenario/openscenario_interpreter/src/syntax/catalog_reference.cpp: CatalogReference", "openscenario/openscenario_interpreter/include/openscenario_interpreter/syntax/parameter_assignment.hpp: ParameterAssignment", "openscenario/openscenario_interpreter/include/openscenario_interpreter/scope.hpp: EnvironmentFrame::find"]}
{"id": "C239", "title": "The rate at which traffic lights are published", "statement": "Whatever starts and resets are requested, traffic lights are published at the rate of the last reset, or without one of the first start, by one timer only, and this rate is reported; before any request nothing is published. Refuted: starting again with another rate changes it.", "quantifier": "all histories of starts and resets", "why_tests_cant": "Histories of any length.", "anchors": ["simulation/traffic_simulator/src/traffic_lights/configurable_rate_updater.cpp: startTimer, resetTimer", "simulation/traffic_simulator/src/traffic_lights/traffic_lights_base.cpp: startUpdate, resetUpdate"]}
