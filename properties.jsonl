{"id": "C01", "title": "A controller is updated only while it runs", "statement": "Whenever a controller's update() callback is invoked, the most recent life-cycle callback that controller received is starting(); it has received no stopping(), waiting() or aborting() since. A controller that has never been started is never updated.", "quantifier": "every history of load / unload / switch requests and control cycles, with any hardware answers and any cycle in which reset_controllers is set", "why_tests_cant": "The claim is about every position in every callback history; tests run a handful of scripted switches.", "anchors": ["controller_manager/src/controller_manager.cpp::update, manageSwitch, startControllers, startControllersAsap, stopControllers", "controller_interface/include/controller_interface/controller_base.h::updateRequest, startRequest, stopRequest, waitRequest, abortRequest"]}
{"id": "C02", "title": "Each cycle updates exactly the running controllers, once, in load order", "statement": "A call of ControllerManager::update() without reset_controllers invokes update(), with that cycle's time and period, exactly once on each controller that was running when the cycle began, in the order in which the controllers were loaded, and on no other; every starting/stopping/waiting/aborting callback of that cycle comes after the last update() of the cycle.", "quantifier": "every reachable manager state and every control cycle", "why_tests_cant": "Depends on the whole loaded list and on all switch phases; tests use one or two controllers.", "anchors": ["controller_manager/src/controller_manager.cpp::update"]}
{"id": "C03", "title": "A switch happens in one time step when the hardware is ready", "statement": "If a switch request is accepted and the hardware reports the switch as done, the very next control cycle stops every running controller named in the stop list, starts every controller named in the start list, leaves all other controllers in the state they had, and ends the request.", "quantifier": "every reachable state, every accepted request, every set of start and stop names, every strictness; histories in which no earlier switch call was cut short by the node shutting down (what may happen after that: C76)", "why_tests_cant": "The end state must be exact for every combination of requested names and current states.", "anchors": ["controller_manager/src/controller_manager.cpp::switchController, manageSwitch, startControllers, stopControllers", "controller_manager_msgs/srv/SwitchController.srv"]}
{"id": "C04", "title": "Resource exclusivity of the running controllers", "statement": "With the default conflict check, at no moment (between any two callbacks, not only at cycle ends) are two running controllers such that the same resource is claimed by both.", "quantifier": "every history of requests, cycles, hardware answers and time stamps, every prefix of the callback trace; histories in which no earlier switch call was cut short by the node shutting down (what may happen after that: C76)", "why_tests_cant": "A safety property of all histories: tests only check that one particular conflicting request is refused.", "anchors": ["controller_manager/src/controller_manager.cpp::switchController, manageSwitch", "hardware_interface/include/hardware_interface/robot_hw.h::checkForConflict"]}
{"id": "C05", "title": "A refused switch request changes nothing", "statement": "When switchController refuses a request during validation (unknown name, wrong state, conflicting command, resource conflict, prepareSwitch false), no controller callback is invoked, no controller changes state, the loaded list is unchanged, and doSwitch is not called then or later on behalf of that request.", "quantifier": "every reachable idle state and every refused request; histories in which no earlier switch call was cut short by the node shutting down (what may happen after that: C76)", "why_tests_cant": "Refusals have many causes and positions in the scan; tests check a few return codes only.", "anchors": ["controller_manager/src/controller_manager.cpp::switchController"]}
{"id": "C06", "title": "STRICT requests are accepted exactly when everything in them can be done", "statement": "A STRICT request is accepted if and only if every start and stop name is loaded, every controller to stop is running, every controller to start is not running, the resulting set of running controllers passes the conflict check, and prepareSwitch agrees.", "quantifier": "every reachable state and every pair of name lists (with repetitions and unknown names); histories in which no earlier switch call was cut short by the node shutting down (what may happen after that: C76)", "why_tests_cant": "An iff over all lists; tests sample a few accept and reject cases.", "anchors": ["controller_manager/src/controller_manager.cpp::switchController", "controller_manager_msgs/srv/SwitchController.srv"]}
{"id": "C07", "title": "BEST_EFFORT requests are accepted exactly when no hard conflict exists, and unusable names are ignored", "statement": "A BEST_EFFORT request (also strictness 0) is accepted if and only if no running controller is named in both lists, the resulting set passes the conflict check, and prepareSwitch agrees; names that are not loaded have no effect on the outcome.", "quantifier": "every reachable state and every pair of name lists; histories in which no earlier switch call was cut short by the node shutting down (what may happen after that: C76)", "why_tests_cant": "An iff over all lists, including unknown and repeated names.", "anchors": ["controller_manager/src/controller_manager.cpp::switchController", "controller_manager_msgs/srv/SwitchController.srv"]}
{"id": "C08", "title": "starting() and stopping() alternate", "statement": "A controller that is running receives no further starting(), waiting() or aborting() before its stopping(), and stopping() is only sent to a running controller, in every execution whose switch requests use start_asap, or name no controller twice in the start list and either are STRICT or name no running controller for start. Known exceptions (proved reachable): a BEST_EFFORT request that names a running controller in its start list calls starting() on it again, and a name given twice in the start list is started twice even under STRICT.", "quantifier": "every history of requests and cycles; histories in which no earlier switch call was cut short by the node shutting down (what may happen after that: C76)", "why_tests_cant": "Needs a search over request sequences (repeated names, BEST_EFFORT start of a running controller).", "anchors": ["controller_manager/src/controller_manager.cpp::switchController, startControllers", "controller_interface/include/controller_interface/controller_base.h::startRequest"]}
{"id": "C09", "title": "Hardware switching hooks follow the prepare-then-do protocol", "statement": "Every doSwitch() call is preceded by a prepareSwitch() call that returned true with exactly the same start and stop lists; each accepted request causes at most one doSwitch(); doSwitch() precedes every stopping/starting/waiting/aborting callback issued for the request.", "quantifier": "every history of requests and cycles", "why_tests_cant": "Protocol property over the interleaved trace of hardware hooks and callbacks.", "anchors": ["controller_manager/src/controller_manager.cpp::switchController, manageSwitch", "hardware_interface/include/hardware_interface/robot_hw.h::prepareSwitch, doSwitch"]}
{"id": "C10", "title": "Lists given to the hardware hooks are disjoint and accurate", "statement": "The start list passed to prepareSwitch/doSwitch contains exactly the loaded, not running controllers named for start, the stop list exactly the running controllers named for stop, each once and in load order; the two lists are disjoint, as the RobotHW documentation promises.", "quantifier": "every reachable state and every accepted or prepare-refused request; histories in which no earlier switch call was cut short by the node shutting down (what may happen after that: C76)", "why_tests_cant": "Documented contract for all requests; tests check one configuration.", "anchors": ["controller_manager/src/controller_manager.cpp::switchController", "hardware_interface/include/hardware_interface/robot_hw.h::prepareSwitch"]}
{"id": "C11", "title": "Stops precede starts", "statement": "In the cycle that completes a switch every stopping() callback comes before every starting() callback.", "quantifier": "every reachable state and request", "why_tests_cant": "Ordering over all list contents.", "anchors": ["controller_manager/src/controller_manager.cpp::manageSwitch"]}
{"id": "C12", "title": "A failed or timed out hardware switch starts nothing", "statement": "If the hardware reports an error, or reports neither done nor error until the request's timeout has passed, no controller of the start list that was not running becomes running; each of them ends aborted, and the request ends.", "quantifier": "every reachable state with a pending non-asap request, every hardware answer sequence and time stamp; histories in which no earlier switch call was cut short by the node shutting down (what may happen after that: C76)", "why_tests_cant": "Depends on all combinations of hardware answers and clock values.", "anchors": ["controller_manager/src/controller_manager.cpp::startControllers", "controller_manager_msgs/srv/SwitchController.srv"]}
{"id": "C13", "title": "switchController's return value tells whether the controllers were switched", "statement": "When switchController returns true (and ROS is running), every controller of the start list is running, or it is aborted and some cycle of the request had a hardware error or was past the deadline; every stop-list controller that was running is stopped; all others are as before. Known exceptions (proved reachable): the call returns true although controllers were aborted on a hardware error, and it returns true with nothing switched when ROS shuts down while it waits.", "quantifier": "every reachable state, request and hardware behaviour", "why_tests_cant": "Requires exhibiting hardware behaviours the unit tests' dummy hardware never shows.", "anchors": ["controller_manager/src/controller_manager.cpp::switchController, startControllers", "controller_manager_msgs/srv/SwitchController.srv"]}
{"id": "C14", "title": "While the hardware is switching, pending controllers wait", "statement": "While the hardware reports an ongoing switch and the timeout has not passed, every controller of the start list receives waiting() once per cycle and no update(), and the request stays pending.", "quantifier": "every pending non-asap request and every number of cycles; histories in which no earlier switch call was cut short by the node shutting down (what may happen after that: C76)", "why_tests_cant": "Unbounded number of cycles.", "anchors": ["controller_manager/src/controller_manager.cpp::startControllers", "controller_interface/include/controller_interface/controller_base.h::waitRequest"]}
{"id": "C15", "title": "start_asap starts each controller as soon as its own resources are ready", "statement": "With start_asap, in each cycle each pending controller is decided by the hardware answer for that controller alone: ready ones are started, failed or timed-out ones aborted, others wait; the request ends exactly when every requested controller is running or aborted.", "quantifier": "every pending asap request and every per-controller hardware answer; histories in which no earlier switch call was cut short by the node shutting down (what may happen after that: C76)", "why_tests_cant": "All combinations of per-controller answers over all cycles.", "anchors": ["controller_manager/src/controller_manager.cpp::startControllersAsap"]}
{"id": "C16", "title": "A request that timed out on the wall clock leaves nothing behind", "statement": "After switchController has returned false because of its wall-clock timeout, later control cycles start, stop or otherwise change no controller on behalf of that request, and, if at least one control cycle ran while the request was pending, the hardware is not told to switch either. Known exception (proved reachable): if no cycle ran in between, the next cycle still calls doSwitch with the request's lists although no controller is switched.", "quantifier": "every history in which a request times out before the control loop runs it; histories in which no earlier switch call was cut short by the node shutting down (what may happen after that: C76)", "why_tests_cant": "Depends on scheduling delays between the service thread and the control loop.", "anchors": ["controller_manager/src/controller_manager.cpp::switchController, update, manageSwitch"]}
{"id": "C17", "title": "Loaded names are unique and listed in load order", "statement": "At every moment the names of the loaded controllers are pairwise distinct, and they appear in the order of their successful loads (unloads remove without reordering).", "quantifier": "every history of load and unload requests", "why_tests_cant": "An invariant of all histories.", "anchors": ["controller_manager/src/controller_manager.cpp::loadController, unloadController, getControllerNames"]}
{"id": "C18", "title": "Loading adds exactly one controller or nothing", "statement": "loadController(name) returns true exactly when the name is free, its namespace is valid, its type parameter is set, some loader can construct the type and the controller's initialisation succeeds; then the list is the old list followed by the new controller, in state initialized, with the claims made during its initialisation. Otherwise the list and all controllers are unchanged.", "quantifier": "every reachable state and every load outcome; loaders that declare each of their types once", "why_tests_cant": "Many failure points; all-or-nothing for each.", "anchors": ["controller_manager/src/controller_manager.cpp::loadController"]}
{"id": "C19", "title": "Unloading removes exactly the named, not running controller", "statement": "unloadController(name) returns true exactly when a controller of that name is loaded and not running; then exactly that entry disappears and the others keep order and state. Otherwise nothing changes. A running controller cannot be removed by unloading.", "quantifier": "every reachable state and every name", "why_tests_cant": "All states and names.", "anchors": ["controller_manager/src/controller_manager.cpp::unloadController"]}
{"id": "C20", "title": "The first registered loader that offers a type constructs it", "statement": "Among the registered controller loaders the first one (in registration order) that declares the requested type and yields an object constructs the controller; later loaders are not consulted, and if construction throws the load fails.", "quantifier": "every list of loaders with every set of declared classes and construction outcomes; loaders that declare each of their types once", "why_tests_cant": "All loader lists.", "anchors": ["controller_manager/src/controller_manager.cpp::loadController, registerControllerLoader", "controller_manager/include/controller_manager/controller_loader.h"]}
{"id": "C21", "title": "Reloading libraries is refused while controllers are loaded, and force_kill leaves the manager empty", "statement": "reload_controller_libraries answers ok=false and changes nothing if controllers are loaded and force_kill is not set; if it answers ok=true the list of loaded controllers is empty, every loader was reloaded once, and every controller that was running received stopping() before it was unloaded.", "quantifier": "every reachable state; histories in which no earlier switch call was cut short by the node shutting down (what may happen after that: C76)", "why_tests_cant": "All lists of controllers in all states.", "anchors": ["controller_manager/src/controller_manager.cpp::reloadControllerLibrariesSrv"]}
{"id": "C22", "title": "list_controllers reports the true state", "statement": "The list_controllers reply has one entry per loaded controller, in order, with its name, type and claims and with the state string that corresponds to its last life-cycle callback (initialized, running, stopped, waiting, aborted); the string \"unknown\" is never reported.", "quantifier": "every history", "why_tests_cant": "Relates reported strings to whole callback histories.", "anchors": ["controller_manager/src/controller_manager.cpp::listControllersSrv"]}
{"id": "C23", "title": "reset_controllers restarts every running controller and changes nothing else", "statement": "A cycle with reset_controllers and no pending switch invokes stopping() then starting() on each running controller in load order, then update() on each of them, and leaves every controller in the state it had.", "quantifier": "every reachable state", "why_tests_cant": "All lists and states.", "anchors": ["controller_manager/src/controller_manager.cpp::update"]}
{"id": "C24", "title": "The real-time thread never iterates a list that is being modified", "statement": "While the control loop iterates over the controller list in a cycle, no load or unload modifies that list; the list the loop sees is the current or the previously current one; and every list made current is complete, i.e. the previous one with one controller added or removed. (Start-up and shutdown: see C25, C27.)", "quantifier": "every interleaving of atomic steps of the control loop and of load/unload/switch calls in which ROS stays up and the control loop's very first publication of the list index is not interrupted", "why_tests_cant": "Data race freedom over all schedules; a stress test samples few schedules.", "anchors": ["controller_manager/src/controller_manager.cpp::update, loadController, unloadController", "controller_manager/include/controller_manager/controller_manager.h::used_by_realtime_, current_controllers_list_, controllers_lists_"]}
{"id": "C25", "title": "List safety at the very first control cycle (known exception)", "statement": "The guarantee that the list under iteration is not modified needs the first publication of the list index to be uninterrupted. Known exception (proved reachable): if a load runs between the control loop's first reading of the current index and its publication, the load clears the list while the loop iterates over it.", "quantifier": "every interleaving of the first update() call with loads", "why_tests_cant": "A start-up race visible only in one schedule.", "anchors": ["controller_manager/src/controller_manager.cpp::update, loadController", "controller_manager/include/controller_manager/controller_manager.h::used_by_realtime_"]}
{"id": "C26", "title": "Loads do not wait forever for a live control loop", "statement": "If the control loop keeps cycling, a pending load or unload passes each of its two waits after at most two further cycles.", "quantifier": "every interleaving", "why_tests_cant": "Liveness under all fair schedules.", "anchors": ["controller_manager/src/controller_manager.cpp::loadController, unloadController, update"]}
{"id": "C27", "title": "List safety and shutdown (known exception)", "statement": "The guarantee that the list under iteration is not modified needs ros::ok() to stay true during loads and unloads. Known exception (proved reachable): a load waiting for the control loop that sees ros::ok() false in its loop condition clears the list the control loop is iterating over.", "quantifier": "every interleaving with a shutdown event", "why_tests_cant": "Needs a shutdown at a precise point of a schedule.", "anchors": ["controller_manager/src/controller_manager.cpp::loadController, unloadController"]}
{"id": "C28", "title": "A controller is never destroyed while it is running", "statement": "No controller instance is removed from the manager while it is in the running state: always when operations do not overlap with a cycle, and under every interleaving when no cycle has reset_controllers set. Known exception (proved reachable): an unload that examines a controller between its stop and its restart in a reset cycle destroys it in the running state.", "quantifier": "every interleaving of unload steps with cycle steps", "why_tests_cant": "The violating window is between two statements of a reset cycle.", "anchors": ["controller_manager/src/controller_manager.cpp::unloadController, update", "controller_interface/include/controller_interface/controller_base.h::stopRequest, startRequest"]}
{"id": "C29", "title": "Overlapping switch requests (known exception)", "statement": "A switchController call entering the manager while no request is outstanding does not affect callbacks, hooks or answers until it obtains the lock. Known exception (proved for every waiting request): a call made directly through the C++ API while another request waits for the control loop cancels that request, and the first caller is nevertheless told that it succeeded.", "quantifier": "every history of manager operations with arbitrary further callers entering switchController", "why_tests_cant": "Depends on the statement executed before the lock is taken.", "anchors": ["controller_manager/src/controller_manager.cpp::switchController"]}
{"id": "C30", "title": "Named resource registry behaves as a map", "statement": "After any sequence of registrations, getHandle(n) returns the handle registered last under n and throws exactly when none was registered; getNames() lists exactly the registered names, once each, sorted.", "quantifier": "every sequence of registrations and every name", "why_tests_cant": "All sequences.", "anchors": ["hardware_interface/include/hardware_interface/internal/resource_manager.h::registerHandle, getHandle, getNames"]}
{"id": "C31", "title": "Combining registries keeps every resource, later registries win", "statement": "Combining a list of registries yields a registry whose names are exactly the union, and each name maps to the handle of the last registry in the list that has it.", "quantifier": "every list of registries", "why_tests_cant": "All lists, all overlaps.", "anchors": ["hardware_interface/include/hardware_interface/internal/resource_manager.h::concatManagers"]}
{"id": "C32", "title": "Getting a handle claims exactly that resource, and only on claiming interfaces", "statement": "A successful getHandle(n) on a claiming interface adds exactly n to its claims; a failed one, or any one on a non-claiming interface, leaves the claims unchanged; clearing empties them.", "quantifier": "every sequence of getHandle / clearClaims calls", "why_tests_cant": "All sequences and outcomes.", "anchors": ["hardware_interface/include/hardware_interface/internal/hardware_resource_manager.h::getHandle", "hardware_interface/include/hardware_interface/hardware_interface.h::claim, clearClaims, getClaims"]}
{"id": "C33", "title": "Conflict detection is exact for distinct controllers", "statement": "checkForConflict on a list of controllers is true if and only if some resource is claimed more than once, counting each (controller, hardware interface) claim; in particular it is true whenever two controllers of the list claim a common resource.", "quantifier": "every list of controllers with arbitrary claims", "why_tests_cant": "All claim configurations.", "anchors": ["hardware_interface/include/hardware_interface/robot_hw.h::checkForConflict"]}
{"id": "C34", "title": "A single controller is in conflict exactly when it claims a resource twice", "statement": "A list with a single controller is reported as in conflict exactly if that controller claims one resource more than once (through two of its hardware interfaces). Known exception to the documentation (\"checks if any two controllers use the same resource\"; proved reachable): a single controller can be in conflict with itself.", "quantifier": "every single controller", "why_tests_cant": "Counterexample needs a controller claiming one joint through two interfaces.", "anchors": ["hardware_interface/include/hardware_interface/robot_hw.h::checkForConflict"]}
{"id": "C35", "title": "Reported claims are exactly those made in the controller's own initialisation", "statement": "After a successful single-interface controller initialisation the reported claims are exactly the provided resources whose handles that initialisation obtained through that (claiming) interface, whatever claims were recorded before (also by controllers whose initialisation failed), and the interface is left without claims; initialisation succeeds exactly if both init() overloads return true and every resource they ask for exists or its absence is handled; it returns false exactly if one of the overloads returned false (the second is asked only if the first agreed) or the interface is missing, and exceptions of init() pass through; the controller becomes initialized exactly if it was constructed and init succeeded.", "quantifier": "every prior history of the interface and every init body (as a sequence of getHandle calls)", "why_tests_cant": "All prior claim states and init bodies.", "anchors": ["controller_interface/include/controller_interface/controller.h::initRequest", "hardware_interface/include/hardware_interface/internal/hardware_resource_manager.h::getHandle"]}
{"id": "C36", "title": "Multi-interface controllers see and claim only what they asked for", "statement": "A multi-interface controller's init sees exactly those of its requested interfaces that the robot exposes; unless optional interfaces were allowed, init runs only if all are exposed; on success the reported claims contain one entry per exposed requested interface, in request order, with exactly the resources claimed in this init. Once the interfaces are given to it, init succeeds if and only if both user init functions return true and every handle they ask for exists. It returns false exactly if one of them did (the second is asked only if the first agreed); exceptions pass through.", "quantifier": "every robot, every list of requested interfaces, every init body", "why_tests_cant": "All interface subsets.", "anchors": ["controller_interface/include/controller_interface/multi_interface_controller.h::initRequest", "controller_interface/include/controller_interface/internal/robothw_interfaces.h::hasInterfaces, extractInterfaceResources, clearClaims, populateClaimedResources"]}
{"id": "C37", "title": "Interface lookup returns the registered interface or a combination of all of them", "statement": "RobotHW::get<T>() for a combinable T returns null exactly if neither the robot nor a registered sub-robot has T registered; the registered object itself if there is exactly one; otherwise an interface offering, for every name, the handle of the last interface that has it. For a T that cannot be combined it returns null if there is none, that one if there is exactly one, and never anything not registered. Registering an interface puts it in the place of the one the robot itself had for that type, if any, and leaves the other types alone; registering a sub-robot adds its interfaces after those registered so far.", "quantifier": "every tree of interface managers built in an orderly way (each type once per manager, sub-managers complete when registered), with any lookups before", "why_tests_cant": "All trees.", "anchors": ["hardware_interface/include/hardware_interface/internal/interface_manager.h::get, registerInterface, registerInterfaceManager"]}
{"id": "C38", "title": "Combined interfaces stay up to date when registration is orderly", "statement": "A lookup that combines several interfaces of one type reflects the interfaces registered at that time, whatever lookups and registrations happened before, as long as each type is registered once per manager, sub-managers are complete before they are registered and handles are registered before their interface. Known exceptions (proved reachable): after a first lookup, a handle added to a part, an interface replaced by another, or an interface added below a sub-manager that already had one, never shows up.", "quantifier": "every sequence of registrations and lookups", "why_tests_cant": "Requires re-registration after a lookup.", "anchors": ["hardware_interface/include/hardware_interface/internal/interface_manager.h::get"]}
{"id": "C39", "title": "Interface and resource listings are complete", "statement": "getNames() lists every interface type registered with the manager or a sub-manager exactly once; getInterfaceResources(T) lists the resources of all interfaces of type T, one interface after the other. Known exception (proved reachable): handles registered after their interface are missing from getInterfaceResources.", "quantifier": "every tree of managers built in an orderly way", "why_tests_cant": "All trees; counterexample needs a handle registered after its interface.", "anchors": ["hardware_interface/include/hardware_interface/internal/interface_manager.h::getNames, getInterfaceResources"]}
{"id": "C40", "title": "Combined hardware forwards each claim to exactly the parts that own it", "statement": "For each part of a combined robot, the start (stop) list forwarded to that part contains a controller if and only if the controller reported no claim entries at all or claims at least one resource the part exposes under that interface; the forwarded claims are exactly those claimed resources that the part exposes under that interface; order is preserved.", "quantifier": "every list of controllers and every part", "why_tests_cant": "All claim/ownership configurations.", "anchors": ["combined_robot_hw/src/combined_robot_hw.cpp::filterControllerList"]}
{"id": "C41", "title": "Controllers without claim entries are reported to every part, those with only empty entries to none", "statement": "A controller whose claim list has no entry is reported to every part of a combined robot in prepareSwitch/doSwitch. Known exception (proved for every part): a controller that has claim entries, all of them without resources - which is what a controller using only read-only interfaces reports - is reported to no part.", "quantifier": "every controller that claims no resource, every part", "why_tests_cant": "Distinguishes an empty list of claim entries from entries with empty resource sets.", "anchors": ["combined_robot_hw/src/combined_robot_hw.cpp::filterControllerList", "controller_interface/include/controller_interface/controller.h::initRequest"]}
{"id": "C42", "title": "Combined prepareSwitch asks all parts and fails if one fails", "statement": "prepareSwitch of a combined robot returns true if and only if it returns true on every part with that part's filtered lists; parts are asked in order until the first refusal; doSwitch is forwarded to every part exactly once with the same filtered lists.", "quantifier": "every list of parts and every part behaviour", "why_tests_cant": "All part lists.", "anchors": ["combined_robot_hw/src/combined_robot_hw.cpp::prepareSwitch, doSwitch"]}
{"id": "C43", "title": "A refused switch leaves prepared exactly the parts asked before the refusing one", "statement": "If prepareSwitch of a combined robot returns false, the parts asked before the first refusing one have accepted and are not told that the switch will not happen; if the first part refuses, no part is prepared. Known exception to \"a refused switch leaves no part prepared\" (proved reachable).", "quantifier": "every list of parts", "why_tests_cant": "Requires a later part to refuse after an earlier one accepted.", "anchors": ["combined_robot_hw/src/combined_robot_hw.cpp::prepareSwitch"]}
{"id": "C44", "title": "Combined hardware always reports the switch as done", "statement": "The combined robot reports a switch as done whatever its parts report; its report is right exactly if all parts are done. Known exception to the expected delegation (proved for every list of parts): a part can be ongoing or failed while the combined robot reports done.", "quantifier": "every list of parts and every part state", "why_tests_cant": "Needs parts with slow or failing mode switches.", "anchors": ["combined_robot_hw/include/combined_robot_hw/combined_robot_hw.h", "hardware_interface/include/hardware_interface/robot_hw.h::switchResult"]}
{"id": "C45", "title": "Combined init loads parts in order and stops at the first failure", "statement": "Initialising a combined robot succeeds if and only if every listed part can be constructed and initialised; parts are loaded in the listed order, read() and write() visit every loaded part exactly once in that order, and nothing after a failing part is loaded.", "quantifier": "every parameter list and every part outcome", "why_tests_cant": "All lists and failure positions.", "anchors": ["combined_robot_hw/src/combined_robot_hw.cpp::init, loadRobotHW, read, write"]}
{"id": "C46", "title": "Position saturation keeps commands inside the position limits", "statement": "Starting from a previous command (or measured position) inside the limits, every command written by the saturating position limiter lies inside [min_position, max_position], for every history of enforceLimits and reset calls with finite non-negative periods. The limits are finite and ordered; the command may be any double that is not NaN, infinities included.", "quantifier": "every sequence of commands (all finite values, infinities) and positive periods", "why_tests_cant": "Unbounded command sequences and all double values.", "anchors": ["joint_limits_interface/include/joint_limits_interface/joint_limits_interface.h::PositionJointSaturationHandle::enforceLimits"]}
{"id": "C47", "title": "Position saturation limits the rate of change", "statement": "When velocity limits are given, consecutive written commands differ by at most max_velocity * period (as computed in doubles: the new command lies between previous - max_velocity*period and previous + max_velocity*period), for every history that starts inside the position limits.", "quantifier": "every sequence of commands and periods", "why_tests_cant": "Unbounded sequences.", "anchors": ["joint_limits_interface/include/joint_limits_interface/joint_limits_interface.h::PositionJointSaturationHandle::enforceLimits"]}
{"id": "C48", "title": "Position saturation respects limits from any starting point", "statement": "For every history with finite measured positions, wherever they are: every command written by the saturating position limiter is at most max_position; without velocity limits it lies inside the limits; with velocity limits it lies inside as soon as the reference is no more than max_velocity*period below min_position, and otherwise it is exactly reference + max_velocity*period. Known exceptions (proved reachable): starting further below, commands outside the limits are written; starting above, the command jumps back faster than the velocity limit.", "quantifier": "every measured start position", "why_tests_cant": "The two sides behave differently; one side violates the claim.", "anchors": ["joint_limits_interface/include/joint_limits_interface/joint_limits_interface.h::PositionJointSaturationHandle::enforceLimits"]}
{"id": "C49", "title": "Soft position limits never let the command leave the hard limits or exceed the velocity limit", "statement": "With gains, periods and limits such that k_position*period stays below one (in doubles: at most 1 - 2^-50 for periods up to one second, or at most 1/8), every command written by the soft position limiter, over every history starting inside the hard limits, is inside the hard limits, is at most max_velocity*period away from the reference, is inside the soft limits if the reference is, and equals the command given if that respects hard limits and velocity limit and the reference is far enough from both soft limits. Known exceptions (proved reachable): with k_position*period > 1 the command leaves the hard limits; with k_position*period at 1 rounding alone leaves the soft limits.", "quantifier": "every sequence of commands, positions and periods; doubles of magnitude at most 2^500 for limits and gains (and every rational in exact arithmetic)", "why_tests_cant": "Unbounded sequences and real-valued parameters.", "anchors": ["joint_limits_interface/include/joint_limits_interface/joint_limits_interface.h::PositionJointSoftLimitsHandle::enforceLimits"]}
{"id": "C50", "title": "Effort saturation never exceeds the effort limit and never pushes further out", "statement": "The written effort lies in [-max_effort, max_effort]; when the joint is strictly beyond a position limit or velocity limit the written effort does not push further beyond it; commands that already satisfy this are unchanged. Known exception (proved reachable): exactly at a limit the effort may push outwards.", "quantifier": "every command, position and velocity", "why_tests_cant": "All real inputs.", "anchors": ["joint_limits_interface/include/joint_limits_interface/joint_limits_interface.h::EffortJointSaturationHandle::enforceLimits"]}
{"id": "C51", "title": "Soft effort limits never exceed the effort limit", "statement": "The effort written by the soft effort limiter lies in [-max_effort, max_effort] for every input; when the joint is so far beyond a soft limit that k_position times the distance reaches max_velocity the effort points back or is zero; and when the measured velocity is at or beyond the velocity limit the effort does not accelerate further.", "quantifier": "every command, position, velocity, gains >= 0; with doubles: limits, gains and measured state of magnitude at most 2^1022, any command that is not NaN (and every rational in exact arithmetic)", "why_tests_cant": "All real inputs.", "anchors": ["joint_limits_interface/include/joint_limits_interface/joint_limits_interface.h::EffortJointSoftLimitsHandle::enforceLimits"]}
{"id": "C52", "title": "Velocity saturation bounds velocity and acceleration", "statement": "Written velocity commands lie in [-max_velocity, max_velocity] and, with acceleration limits, consecutive commands differ by at most max_acceleration * period, for every command sequence.", "quantifier": "every sequence of commands and periods", "why_tests_cant": "Unbounded sequences.", "anchors": ["joint_limits_interface/include/joint_limits_interface/joint_limits_interface.h::VelocityJointSaturationHandle::enforceLimits"]}
{"id": "C53", "title": "Soft velocity limits bound the velocity", "statement": "The velocity written by the soft velocity limiter never exceeds the velocity limit (with acceleration limits: when the measured velocity is within it); the command towards the upper soft position limit is bounded by k_position times the remaining distance, and so is the one towards the lower limit when there are no acceleration limits; with acceleration limits the command is at most measured velocity + max_acceleration*period. Known exception (proved reachable): with acceleration limits the bound at the lower soft limit is not kept.", "quantifier": "every command, position, velocity and period; with doubles: limits, gains and measured state of magnitude at most 2^1022, any command that is not NaN (and every rational in exact arithmetic)", "why_tests_cant": "All real inputs.", "anchors": ["joint_limits_interface/include/joint_limits_interface/joint_limits_interface.h::VelocityJointSoftLimitsHandle::enforceLimits"]}
{"id": "C54", "title": "Limiters are transparent inside the limits", "statement": "A command that already satisfies all bounds of a limiter is passed unchanged; applying a limiter again to the command it wrote, with the same measured state, writes the same command again (saturating position, velocity, effort limiters; soft effort and soft velocity limiters). Known exception (proved reachable): the soft position limiter moves on when called again while the reference is outside the soft limits.", "quantifier": "every command and state; the soft position limiter with limits and gains of magnitude at most 2^500", "why_tests_cant": "All real inputs.", "anchors": ["joint_limits_interface/include/joint_limits_interface/joint_limits_interface.h"]}
{"id": "C55", "title": "reset() forgets the command history", "statement": "After reset() the next command of a position limiter is limited relative to the measured position, not relative to the last command.", "quantifier": "every history before the reset; earlier calls none of which hit an assertion", "why_tests_cant": "All histories.", "anchors": ["joint_limits_interface/include/joint_limits_interface/joint_limits_interface.h::PositionJointSaturationHandle::reset, PositionJointSoftLimitsHandle::reset"]}
{"id": "C56", "title": "Not-a-number commands do not corrupt later commands", "statement": "A NaN command is forgotten: for both position limiters every later command is what it would be on a freshly reset limiter, and the velocity limiter without acceleration limits and the effort limiters keep no history. Every limiter passes the NaN itself on. Known exception (proved reachable): the velocity limiter with acceleration limits does not limit the first command after a NaN at all.", "quantifier": "every command sequence with NaNs in IEEE double arithmetic; earlier calls none of which hit an assertion", "why_tests_cant": "Needs NaN semantics of every comparison.", "anchors": ["joint_limits_interface/include/joint_limits_interface/joint_limits_interface.h"]}
{"id": "C57", "title": "enforceLimits on an interface limits every registered joint exactly once", "statement": "Calling enforceLimits on a limits interface applies the limiter to every registered joint exactly once, in name order; joints not registered keep their commands. A handle registered under a name already taken replaces the earlier one.", "quantifier": "every set of registered handles", "why_tests_cant": "All sets of handles.", "anchors": ["joint_limits_interface/include/joint_limits_interface/joint_limits_interface.h::JointLimitsInterface::enforceLimits"]}
{"id": "C58", "title": "Limits from the parameter server overwrite exactly what is specified", "statement": "getJointLimits (parameter server) changes exactly those limits whose specification is complete, clears those switched off, leaves all others unchanged, and returns whether the joint has a specification; soft limits are all or nothing provided the four parameters, where present, are numbers. Known exception (proved reachable): with a soft limit parameter of another type success is reported and old and new values are mixed.", "quantifier": "every parameter tree and every prior limits value", "why_tests_cant": "All parameter combinations.", "anchors": ["joint_limits_interface/include/joint_limits_interface/joint_limits_rosparam.h::getJointLimits, getSoftJointLimits"]}
{"id": "C59", "title": "Limits from the URDF overwrite exactly what is specified", "statement": "getJointLimits (URDF) returns false and changes nothing if the joint has no limits, otherwise sets position limits for revolute and prismatic joints and switches them off for all others, always sets velocity and effort limits, sets angle_wraparound for continuous joints, and leaves jerk limits and all other values unchanged. Known exception (proved reachable): an acceleration limit already held, of which a URDF says nothing, is switched off.", "quantifier": "every URDF joint and every prior limits value", "why_tests_cant": "All joint types and prior values.", "anchors": ["joint_limits_interface/include/joint_limits_interface/joint_limits_urdf.h::getJointLimits, getSoftJointLimits"]}
{"id": "C60", "title": "Simple transmission maps are mutually inverse", "statement": "For a simple transmission whose constructor did not throw, mapping actuator to joint and back, and joint to actuator and back, restores the values that were mapped, for position, velocity and effort, and no variable other than those handed to the two calls changes.", "quantifier": "all parameters and values (exact rational arithmetic), all data with valid, distinct pointers, all contents of the other variables", "why_tests_cant": "All real parameters.", "anchors": ["transmission_interface/include/transmission_interface/simple_transmission.h"]}
{"id": "C61", "title": "Differential transmission maps are mutually inverse", "statement": "For a differential transmission whose constructor did not throw, mapping actuator to joint and back, and joint to actuator and back, restores the values that were mapped, for position, velocity and effort, and no variable other than those handed to the two calls changes.", "quantifier": "all parameters and values (exact rational arithmetic), all data with valid, distinct pointers, all contents of the other variables", "why_tests_cant": "All real parameters.", "anchors": ["transmission_interface/include/transmission_interface/differential_transmission.h"]}
{"id": "C62", "title": "Four-bar-linkage transmission maps are mutually inverse", "statement": "For a four-bar-linkage transmission whose constructor did not throw, mapping actuator to joint and back, and joint to actuator and back, restores the values that were mapped, for position, velocity and effort, and no variable other than those handed to the two calls changes.", "quantifier": "all parameters and values (exact rational arithmetic), all data with valid, distinct pointers, all contents of the other variables", "why_tests_cant": "All real parameters.", "anchors": ["transmission_interface/include/transmission_interface/four_bar_linkage_transmission.h"]}
{"id": "C63", "title": "Transmissions conserve power", "statement": "Effort times velocity, summed over the actuators, equals the sum over the joints, for simple and differential transmissions, in both directions. Known exception (proved): four-bar linkages do not conserve power; the difference is given exactly as a function of actuator efforts and velocities, and equal reductions of one already halve the power.", "quantifier": "all admissible parameters and values (exact rational arithmetic)", "why_tests_cant": "An identity over all reals; violated by one transmission type.", "anchors": ["transmission_interface/include/transmission_interface/transmission.h", "transmission_interface/include/transmission_interface/simple_transmission.h", "transmission_interface/include/transmission_interface/differential_transmission.h", "transmission_interface/include/transmission_interface/four_bar_linkage_transmission.h"]}
{"id": "C64", "title": "Position and velocity maps are consistent", "statement": "The velocity map is the linear part of the position map: moving every actuator at constant velocity for a time dt changes each joint position by the mapped velocity times dt; likewise from joints to actuators.", "quantifier": "all three transmissions, all admissible parameters, positions, velocities, dt (exact rational arithmetic)", "why_tests_cant": "An identity over all reals.", "anchors": ["transmission_interface/include/transmission_interface/simple_transmission.h", "transmission_interface/include/transmission_interface/differential_transmission.h", "transmission_interface/include/transmission_interface/four_bar_linkage_transmission.h"]}
{"id": "C65", "title": "Constructed transmissions never divide by zero", "statement": "A transmission constructor throws exactly when a reduction is zero or a parameter vector has the wrong size; otherwise no map divides by zero or indexes outside the parameter vectors, whatever data it is given. Known exception with doubles (proved): a four-bar linkage whose product of first actuator and first joint reduction underflows to zero is accepted and divides by zero.", "quantifier": "all parameter vectors of all lengths, all data structures (missing, wrongly sized, null), all values; rationals, and doubles including NaN and infinities", "why_tests_cant": "All vector lengths and values.", "anchors": ["transmission_interface/include/transmission_interface/simple_transmission.h", "transmission_interface/include/transmission_interface/differential_transmission.h", "transmission_interface/include/transmission_interface/four_bar_linkage_transmission.h"]}
{"id": "C66", "title": "A constructed transmission handle can be propagated safely", "statement": "If a transmission handle constructor did not throw, propagate() ends normally exactly when the vectors that handle type needs are present on both sides (and there are as many torque sensors as actuators); otherwise it stops at a failing assertion before any invalid access or division by zero. Known exceptions (proved reachable): the constructor accepts handles that lack required vectors, have the wrong number of actuator torque sensors, or have absolute positions on the actuator side only.", "quantifier": "all transmissions, all eight handle types, all combinations of present, absent and wrongly sized data vectors, aliasing included; rationals and doubles; with doubles: transmissions without the underflow described in C65", "why_tests_cant": "All size combinations.", "anchors": ["transmission_interface/include/transmission_interface/transmission_interface.h::TransmissionHandle", "transmission_interface/include/transmission_interface/simple_transmission.h", "transmission_interface/include/transmission_interface/differential_transmission.h", "transmission_interface/include/transmission_interface/four_bar_linkage_transmission.h"]}
{"id": "C67", "title": "Propagation writes only the target side and touches nothing else", "statement": "Propagating a handle, or a whole interface, writes only the target variables of the maps that handle type runs, leaves every other variable unchanged, and each written value is the transmission's map of the source values before the call, independent of everything else; provided no variable is both read and written or written twice. The handles of an interface are those registered last under each name, in the order of the names.", "quantifier": "every memory content, handle type, set of handles with separate variables; rationals and doubles; with doubles: transmissions without the underflow described in C65", "why_tests_cant": "All memory contents.", "anchors": ["transmission_interface/include/transmission_interface/transmission_interface.h"]}
{"id": "C68", "title": "Parameters of a transmission are assigned by role, whatever the order of the description", "statement": "The transmission that is built from a description does not depend on the order in which the joints and the actuators are listed: if two descriptions differ only in that order, the same transmission is built from both (or building fails in the same way), and what is built has the reductions and offsets of the joints and actuators with the documented roles, in the order of the roles; and every description of a known type with the right roles and readable, valid numbers is built. Known exception (proved reachable): the variables of joints and actuators are connected in the order of the description and not by role, so that listing the actuators of a differential in another order changes the positions the robot's joints get.", "quantifier": "every description of a simple, differential or four-bar transmission and every permutation of its joints and of its actuators; every number type; every way to read numbers", "why_tests_cant": "The tests list joints and actuators in the order of their roles; a permutation theorem ranges over all descriptions, including invalid ones.", "anchors": ["transmission_interface/src/simple_transmission_loader.cpp", "transmission_interface/src/differential_transmission_loader.cpp", "transmission_interface/src/four_bar_linkage_transmission_loader.cpp", "transmission_interface/src/transmission_loader.cpp", "transmission_interface/src/joint_state_interface_provider.cpp"]}
{"id": "C69", "title": "A failing load of several transmissions leaves exactly the ones before the failing one", "statement": "When loading a list of transmission descriptions does not succeed, the list splits into a part before the first description that cannot be loaded and the rest: exactly the descriptions of the first part have been loaded (as by loading only them), and the failing one and the ones after it have had no effect. Known exception (proved reachable) to 'all or nothing': the transmissions of the first part stay registered although loading the list failed.", "quantifier": "every list of descriptions, every robot without joint or transmission interfaces of its own, every sequence of earlier loads", "why_tests_cant": "Ranges over the position and kind of the failure, over partially served interfaces and everything loaded before.", "anchors": ["transmission_interface/src/transmission_interface_loader.cpp::load"]}
{"id": "C70", "title": "The transmission parser returns exactly the complete descriptions, in document order", "statement": "Parsing fails, adding nothing, exactly if the text is not well-formed XML. Otherwise it appends to what it was given, in document order, one description for each transmission child of the root that is completely described (name, type, at least one joint and actuator; each joint named and with at least one non-empty hardware interface), skips the other ones, and each field is that of the element. So the descriptions satisfy what the loader asserts, and loading a document without complete description fails and changes nothing. Known exceptions (proved reachable): the name of the root element is not checked; a document with no transmission parses successfully; a document that has no element at all (e.g. only a comment) is dereferenced through a null pointer.", "quantifier": "every XML document, every list of descriptions given to the parser", "why_tests_cant": "Ranges over all documents: every combination of missing and repeated elements and attributes.", "anchors": ["transmission_interface/src/transmission_parser.cpp::parse", "transmission_interface/src/transmission_parser.cpp::parseJoints", "transmission_interface/src/transmission_parser.cpp::parseActuators", "transmission_interface/src/transmission_interface_loader.cpp::load"]}
{"id": "C71", "title": "Controller list filters return exactly the matching controllers", "statement": "filter_by_name, filter_by_type and filter_by_state return, in order, exactly the controllers whose attribute equals (or, on request, contains) the given string; filter_by_hardware_interface those with a resource set of an equal (or containing) interface; filter_by_resources, for a non-empty list of resources, those with a resource set of the given interface (or any) that contains any (or all) of the resources. Known exception (proved reachable): with an empty list of resources filter_by_resources raises UnboundLocalError exactly when some controller has a resource set of the interface, and otherwise returns nothing.", "quantifier": "every controller list and criterion", "why_tests_cant": "All lists, including empty criteria.", "anchors": ["controller_manager_msgs/src/controller_manager_msgs/utils.py::filter_by_name, filter_by_type, filter_by_state, filter_by_hardware_interface, filter_by_resources"]}
{"id": "C72", "title": "The spawner brings its controllers up and down again", "statement": "With nobody else calling the manager and no hardware failure: every named controller is loaded afterwards, unless a request to load it was refused although no controller had its name; the spawner appends the controllers it could load to the manager's list in the order given, all of them started or (start request refused, or --stopped) none of them, and touches nothing else; a refusal means a resource conflict or a hardware objection. Its shutdown handler removes its controllers and no others: all of them if its stop request is accepted or if none of them runs; the stop request is accepted if all of them run and nobody objects. Starting and killing the spawner leaves the manager as before. Known exception (proved reachable): if one of the spawner's controllers has been stopped in the meantime, its STRICT stop request is refused and the others stay loaded and running. With the default resource check, hardware that prepares every switch, and controllers each of which claims no resource twice, a refused start means that one of the loaded controllers shares a resource with another one of them or with a running controller.", "quantifier": "every controller manager history without abandoned requests, every list of names, every control-loop interleaving, every answer of the environment", "why_tests_cant": "Depends on what other clients did to those controllers; all states and name lists.", "anchors": ["controller_manager/scripts/spawner::main, shutdown", "controller_manager/src/controller_manager.cpp::switchController, unloadController"]}
{"id": "C73", "title": "Switching to a controller group leaves exactly that group running", "statement": "With nobody else calling the manager and no hardware failure, `controller_group switch`: if obeyed, the missing controllers of the group are loaded, afterwards every controller of the chosen group is running, no controller that belongs only to other groups is running, and controllers in no group are as before; if it gives up, a controller of the group was refused by the manager, and it has only loaded others of the group; if it is refused, it has only loaded the missing controllers of the group; its request always names exactly the controllers of the group that do not run and the running ones that are only in other groups, so that a refusal can only come from a resource conflict or the hardware. With the default resource check, hardware that prepares every switch, and controllers each of which claims no resource twice, a refusal means that a controller of the group shares a resource with another one of the group or with a running one that was not to be stopped. `controller_group spawn` concerns only the chosen group, and loads all of it but what the manager refuses to load. Known exception (proved): the help text of spawn says that it loads all controllers of all groups.", "quantifier": "every group definition (with overlaps and duplicates), every order in which Python enumerates a set, every manager history without abandoned requests, every control-loop interleaving", "why_tests_cant": "All group overlaps and states.", "anchors": ["controller_manager/scripts/controller_group::_switch_group, _spawn_group, _read_group, _get_loaded_controllers"]}
{"id": "C74", "title": "Controller configurations are discovered exactly", "statement": "get_rosparam_controller_names(ns) never fails and returns, sorted, exactly the names n without '/' for which the parameter ns/n/type exists, ns being taken as a global namespace with one '/' at both ends whether or not they are written; no name twice.", "quantifier": "every set of parameters and every namespace not starting with '~'", "why_tests_cant": "All parameter names, nested namespaces.", "anchors": ["controller_manager_msgs/src/controller_manager_msgs/utils.py::get_rosparam_controller_names"]}
{"id": "C75", "title": "Controller manager discovery returns exactly the live managers", "statement": "get_controller_managers returns a sorted list containing every namespace that exposes the full service API, whatever the initial guess; every returned namespace is advertised by a currently listed service and has the full API or was guessed; asked again in the same situation with its own result it returns the same; an unreachable master gives the empty list. The k-th result of a ControllerManagerLister has exactly the namespaces that had the full API at some call up to the k-th and were advertised at every call since. Nothing is listed twice if no two services show the same namespace. Known exceptions (proved reachable): two services such as /foo/list_controllers and /foo/list_controllers_of_type list /foo twice; a manager whose own namespace contains /list_controllers is missed; a manager that lost part of its API stays listed.", "quantifier": "every set of services, every answer about service types, every initial guess, every sequence of calls", "why_tests_cant": "All service sets and guesses.", "anchors": ["controller_manager_msgs/src/controller_manager_msgs/utils.py::get_controller_managers, is_controller_manager, _sloppy_get_controller_managers"]}
{"id": "C76", "title": "Callbacks only reach loaded controllers", "statement": "Every life-cycle or update callback is made on a controller that is loaded at that moment, in every execution in which no switch call leaves its wait loop because ROS shut down inside the loop body. Known exception (proved reachable): such a call leaves its start and stop requests behind; if the controller is then unloaded the next cycle calls it after its destruction.", "quantifier": "all histories of service calls and control cycles, all hardware answers, all moments", "why_tests_cant": "a use after free needs a particular sequence of shutdown, unload and cycle; tests exercise a handful", "anchors": ["controller_manager/src/controller_manager.cpp: switchController 616-630, unloadController 367-433, startControllers 150-182", "controller_manager/include/controller_manager/controller_manager.h: start_request_, stop_request_"]}
{"id": "C77", "title": "The deadline ends every request", "statement": "A control cycle whose time is past the request's timeout ends the request, whatever the hardware answers and whether or not start_asap is set.", "quantifier": "all histories, all accepted requests with a positive timeout, all hardware answers; histories in which no earlier switch call was cut short by the node shutting down (what may happen after that: C76)", "why_tests_cant": "the hardware answers at every cycle are universally quantified", "anchors": ["controller_manager/src/controller_manager.cpp: startControllers 150-182, startControllersAsap 184-226"]}
{"id": "C78", "title": "list_controller_types lists what the loaders offer", "statement": "The list_controller_types reply contains, for every registered loader in registration order, each class it declares together with the loader's base class, and nothing else.", "quantifier": "all histories, all sets of loaders", "why_tests_cant": "ranges over all loader registrations", "anchors": ["controller_manager/src/controller_manager.cpp: listControllerTypesSrv 695-719, registerControllerLoader 837-840"]}
{"id": "C79", "title": "Each accepted request switches a controller at most once", "statement": "While one accepted request is pending (reset_controllers not requested), a controller is stopped at most once and started at most once on behalf of it, if the start list names no controller twice. Known exception (proved reachable, any number of cycles in a row): with BEST_EFFORT and start_asap a controller that is not running and named in both lists is stopped and started again in every cycle as long as another controller of the request waits.", "quantifier": "all requests, all hardware answer sequences; histories in which no earlier switch call was cut short by the node shutting down (what may happen after that: C76)", "why_tests_cant": "needs the combination of overlapping lists, best effort, start_asap and slow hardware", "anchors": ["controller_manager/src/controller_manager.cpp: manageSwitch 115-136, stopControllers 138-148, startControllersAsap 184-226"]}
{"id": "C80", "title": "Request lists are not modified while the control loop walks them", "statement": "While the control loop works through the start and stop requests, the calling thread does not modify them, provided no switch request ends by wall clock timeout. Known exception (proved reachable): on a wall clock timeout the caller clears the lists while the control loop may be walking them.", "quantifier": "every interleaving of atomic steps of the control loop and of load/unload/switch calls", "why_tests_cant": "Data race freedom over all schedules.", "anchors": ["controller_manager/src/controller_manager.cpp::switchController, manageSwitch, stopControllers, startControllers"]}
{"id": "C81", "title": "A joint following the soft velocity limiter stays inside the soft limits", "statement": "A joint that starts inside the soft position limits and moves in each period by the velocity the soft velocity limiter wrote times the period stays inside the soft limits for ever, whatever is commanded and measured, provided k_position*period stays below one and there are no acceleration limits.", "quantifier": "every sequence of commands, measured velocities and periods, in exact arithmetic and in doubles; doubles of magnitude at most 2^500 for limits and gains", "why_tests_cant": "Unbounded closed-loop executions over real-valued inputs.", "anchors": ["joint_limits_interface/include/joint_limits_interface/joint_limits_interface.h::VelocityJointSoftLimitsHandle::enforceLimits"]}
{"id": "C82", "title": "Each transmission map needs only its own vectors", "statement": "As documented, a map of positions, velocities, efforts, absolute positions or torque sensors depends only on the vectors of that quantity; the other vectors of the data structures may be empty or hold null pointers. Known exception (proved): a differential's map of absolute positions reads the position vector in its assertions (invalid access if that is empty) and does not check the first absolute position pointer.", "quantifier": "all transmissions, maps, data structures, values", "why_tests_cant": "All combinations of present and absent vectors.", "anchors": ["transmission_interface/include/transmission_interface/transmission.h", "transmission_interface/include/transmission_interface/simple_transmission.h", "transmission_interface/include/transmission_interface/differential_transmission.h", "transmission_interface/include/transmission_interface/four_bar_linkage_transmission.h"]}
{"id": "C83", "title": "Transmission maps compute the documented formulas", "statement": "Every map stores in each target variable the value of the formula tabulated in the documentation of the transmission class. (Three misprinted cells of the differential's table are read with the sign and index the other rows imply.)", "quantifier": "all admissible parameters and values (exact rational arithmetic)", "why_tests_cant": "An identity over all reals, ten maps per transmission.", "anchors": ["transmission_interface/include/transmission_interface/simple_transmission.h", "transmission_interface/include/transmission_interface/differential_transmission.h", "transmission_interface/include/transmission_interface/four_bar_linkage_transmission.h"]}
{"id": "C84", "title": "Round trips through a simple transmission lose almost nothing with doubles", "statement": "With IEEE doubles, a velocity or effort mapped through a simple transmission and back is finite and within a relative error of 3*2^-53 of the original, provided neither it nor the value on the other side over- or underflows. Without that proviso everything can be lost (proved).", "quantifier": "every finite non-zero reduction, every double in range, both directions", "why_tests_cant": "All doubles.", "anchors": ["transmission_interface/include/transmission_interface/simple_transmission.h"]}
{"id": "C85", "title": "A transmission that cannot be loaded leaves no trace", "statement": "On a robot that has no joint interfaces and transmission interfaces of its own, whatever was loaded before: loading a description succeeds exactly if its parameters are valid, all its joints list the same hardware interfaces, and at least one of them is known and the robot has all the actuators it needs. If loading does not succeed, nothing has changed. No exception leaves the call, a complete description fails no assertion, and behaviour is undefined only if a number element has no text. Known exceptions (proved reachable): if the robot has its own joint state interface, loading a transmission for a command interface throws, with joints already added; an empty number element passes a null pointer to a conversion.", "quantifier": "every description, every sequence of earlier loads, every set of actuators, every number type", "why_tests_cant": "Ranges over all combinations of known and unknown interfaces, missing actuators and states left by earlier loads.", "anchors": ["transmission_interface/src/transmission_interface_loader.cpp::load", "transmission_interface/include/transmission_interface/transmission_interface_loader.h", "transmission_interface/src/joint_state_interface_provider.cpp", "transmission_interface/src/position_joint_interface_provider.cpp", "transmission_interface/src/transmission_loader.cpp"]}
{"id": "C86", "title": "What has been loaded can be propagated, and transmissions do not disturb each other", "statement": "After any sequence of loads, successful or not, propagating any of the loader's transmission interfaces ends normally for all values of the variables: no failing assertion, no invalid access, no division by zero (for doubles unless a product of reductions of a four-bar linkage is rounded to zero). If moreover the transmissions share no joint (no actuator) and the robot's actuators have variables of their own, only the joints' (the actuators') variables of that interface change, and each transmission writes exactly what it would when propagated alone. Known exception (proved reachable): the flags in the loader's raw joint data can be cleared by the user; then a state interface fails an assertion.", "quantifier": "every sequence of descriptions, every robot without interfaces of its own, every interface, all values of all variables, every number type", "why_tests_cant": "Ranges over all sequences of loads and all memory contents; aliasing between transmissions is invisible in tests of one transmission.", "anchors": ["transmission_interface/src/transmission_interface_loader.cpp", "transmission_interface/src/joint_state_interface_provider.cpp", "transmission_interface/include/transmission_interface/transmission_interface.h"]}
{"id": "C87", "title": "Loaded transmissions connect the described actuators and joints of the robot", "statement": "Every handle in a transmission interface has the name and the transmission of a loaded description, and connects the variables of the actuators and the joints named by that description as the robot's own interfaces show them; command handles' joints give the same joint state as the joint state interface. After successfully loading descriptions with different names, there are handles under the name of each in exactly those transmission interfaces that its served hardware interfaces ask for. Known exception (proved reachable): of two descriptions with the same name both load, but the state handle is the first one's and the command handle the second one's.", "quantifier": "every list of descriptions, every robot without interfaces of its own, every interface, every number type", "why_tests_cant": "Ranges over all combinations of transmissions, interfaces and partially missing actuators.", "anchors": ["transmission_interface/src/joint_state_interface_provider.cpp", "transmission_interface/src/position_joint_interface_provider.cpp", "transmission_interface/src/velocity_joint_interface_provider.cpp", "transmission_interface/src/effort_joint_interface_provider.cpp", "transmission_interface/src/bidirectional_position_joint_interface_provider.cpp", "transmission_interface/include/transmission_interface/transmission_interface_loader.h"]}
{"id": "C88", "title": "Reloading the libraries with --restore restores the controllers", "statement": "With nobody else calling the manager and no hardware failure, if reload-libraries --restore reports success, the manager holds, in the same order, all former controllers except those that the manager refused to load again, and exactly those of them that were running run again (if the start request is accepted; a refusal means a conflict or hardware objection). Known exception (proved reachable): if the reload is refused, the script still sends the start request, and the running controllers are started a second time.", "quantifier": "every manager history without abandoned requests, every control-loop interleaving, every outcome of the loads", "why_tests_cant": "All sets of loaded and running controllers and all partial failures.", "anchors": ["controller_manager/src/controller_manager/controller_manager_interface.py::reload_libraries", "controller_manager/src/controller_manager.cpp::reloadControllerLibrariesSrv"]}
{"id": "C89", "title": "controller_manager spawn and kill concern exactly the named controllers", "statement": "With nobody else calling the manager and no hardware failure: spawn loads and starts named controllers only, a named controller that is not loaded afterwards was refused by the manager, and a named controller that is loaded afterwards but not running had its start refused for a conflict or by the hardware; kill removes named controllers only, keeps the order of the others, and a named controller that is still loaded had its stop refused for a conflict or by the hardware. With the default resource check, hardware that prepares every switch, and controllers each of which claims no resource twice: a spawned controller that does not run afterwards could not be loaded or shares a resource with a controller that was running when its start was requested, and kill leaves exactly the controllers that were not named.", "quantifier": "every list of names (with duplicates and unknown names), every manager history without abandoned requests, every control-loop interleaving", "why_tests_cant": "All name lists and manager states.", "anchors": ["controller_manager/scripts/controller_manager", "controller_manager/src/controller_manager/controller_manager_interface.py::load_controller, unload_controller, start_controller, stop_controller"]}
{"id": "C90", "title": "The unspawner inhibits controllers and brings back what it found", "statement": "With nobody else calling the manager and no hardware failure: unless all its stop requests are refused for a conflict or by the hardware, none of the inhibited controllers runs and the others are untouched; when the unspawner ends, the manager is exactly as it was found, unless the restart is refused for a conflict or by the hardware. Known exception (proved reachable): if the stop request is refused, the controllers count as inhibited nevertheless, and are started a second time in the end. With the default resource check, hardware that prepares every switch, and controllers each of which claims no resource twice, the stop is never refused.", "quantifier": "every list of names, every number of timer events, every order in which Python enumerates a set, every manager history without abandoned requests", "why_tests_cant": "All manager states, numbers of timer events and refusals.", "anchors": ["controller_manager/scripts/unspawner::main, stop_controllers, restart_controllers"]}
{"id": "C91", "title": "The exact course of a switching cycle", "statement": "In every control cycle while an accepted request is pending (reset_controllers not requested) exactly the following happens, in this order: every running controller is updated once with the cycle's time and period, in load order; doSwitch is called with the controllers that really start and stop, in the first such cycle only; every named, running controller of the stop list gets stopping() once, in the order of the stop list; and the controllers of the start list get, in the order of the start list, starting() if the hardware reports done, aborting() if it reports an error or the deadline has passed, waiting() otherwise - all the same answer without start_asap, each its own with start_asap, where those that run already are left alone. All callbacks get the time of the cycle.", "quantifier": "every history, every accepted request (with start_asap: one whose start list names no controller twice), every cycle while it is pending, every behaviour of the hardware; histories in which no earlier switch call was cut short by the node shutting down (what may happen after that: C76)", "why_tests_cant": "Tests look at a few orders of a few controllers; the claim fixes the full event sequence for every request and every hardware behaviour.", "anchors": ["controller_manager/src/controller_manager.cpp: update 66-90, manageSwitch 115-136, stopControllers 138-148, startControllers 150-182, startControllersAsap 184-227"]}
{"id": "C92", "title": "How long a switch request waits", "statement": "A caller of switchController whose request was accepted waits as long as the control loop has not finished the request; it gives up with false exactly when the timeout is not zero and the wall clock has advanced by the timeout plus one second since the request was handed over, and then another request can be made; with timeout zero it never gives up; once the control loop has finished, the reply is true whatever the clock says.", "quantifier": "every history, every accepted request, every clock value; histories in which no earlier switch call was cut short by the node shutting down (what may happen after that: C76)", "why_tests_cant": "Depends on clock values and scheduling at the boundary of the timeout.", "anchors": ["controller_manager/src/controller_manager.cpp: switchController 610-638"]}
{"id": "C93", "title": "A handle constructor accepts exactly complete storage", "statement": "Every constructor with arguments of the joint and actuator state handles, the joint and actuator command handles, and the position-velocity, position-velocity-acceleration and position-velocity-torque-gains handles succeeds if and only if every storage pointer given is non-null. Otherwise it throws an exception that names the handle and the first null pointer in argument order, and nothing else changes. Known exception (proved reachable): force-torque and IMU sensor handles accept null storage.", "quantifier": "every constructor, every name, every combination of null and non-null pointers, every program state", "why_tests_cant": "Tests try some null combinations of some of the classes; the claim covers all combinations and the order of the checks.", "anchors": ["hardware_interface/include/hardware_interface/joint_state_interface.h::JointStateHandle", "hardware_interface/include/hardware_interface/actuator_state_interface.h::ActuatorStateHandle", "hardware_interface/include/hardware_interface/joint_command_interface.h::JointHandle", "hardware_interface/include/hardware_interface/actuator_command_interface.h::ActuatorHandle", "hardware_interface/include/hardware_interface/posvel_command_interface.h::PosVelJointHandle", "hardware_interface/include/hardware_interface/posvelacc_command_interface.h::PosVelAccJointHandle", "hardware_interface/include/hardware_interface/position_velocity_torque_gains_command_interface.h::PositionVelocityTorqueGainsJointHandle", "hardware_interface/include/hardware_interface/force_torque_sensor_interface.h::ForceTorqueSensorHandle", "hardware_interface/include/hardware_interface/imu_sensor_interface.h::ImuSensorHandle"]}
{"id": "C94", "title": "No access through a null pointer", "statement": "A program that makes its handles with the constructors that take storage never fails an assertion or dereferences a null pointer, whatever handles it makes and whichever members it calls; a reading the handle does not have ends in an exception. Known exception (proved reachable): a handle made without arguments fails on first use, and a command handle made from a default state handle is accepted, takes commands, and fails only when its position is read.", "quantifier": "every program of any length over the handle classes", "why_tests_cant": "Safety over all programs, not over single calls.", "anchors": ["hardware_interface/include/hardware_interface/joint_state_interface.h::getPosition, getAbsolutePosition, getTorqueSensor", "hardware_interface/include/hardware_interface/joint_command_interface.h::JointHandle, setCommand"]}
{"id": "C95", "title": "Handles are views of storage", "statement": "Whatever handles exist and however their cells overlap, every reading returns the value written last to its cell, by the hardware or through any handle; after any program each cell holds the value written last to it, or its first value if none was. Reading changes nothing.", "quantifier": "every program of any length, every initial storage, every pattern of sharing of cells between handles", "why_tests_cant": "Aliasing between handles ranges over arbitrary programs; tests use one handle with separate cells.", "anchors": ["hardware_interface/include/hardware_interface/joint_state_interface.h::getPosition, getVelocity, getEffort", "hardware_interface/include/hardware_interface/joint_command_interface.h::setCommand, getCommand", "hardware_interface/include/hardware_interface/posvel_command_interface.h::setCommand", "hardware_interface/include/hardware_interface/posvelacc_command_interface.h::setCommand", "hardware_interface/include/hardware_interface/position_velocity_torque_gains_command_interface.h::setCommand"]}
{"id": "C96", "title": "A combined command arrives complete", "statement": "Setting a combined command (position and velocity, with acceleration, or with effort and gains) changes exactly the cells of that command; when these cells are distinct every one of them can be read back as the value given for it, through this handle or any other handle of the same cell. Known exception (proved reachable): when the same cell is given twice, the later value of the same call replaces the earlier.", "quantifier": "every reachable program state, every handle, every list of values", "why_tests_cant": "Ranges over all storage layouts and all handles that see the same cells.", "anchors": ["hardware_interface/include/hardware_interface/posvel_command_interface.h::setCommand", "hardware_interface/include/hardware_interface/posvelacc_command_interface.h::setCommand", "hardware_interface/include/hardware_interface/position_velocity_torque_gains_command_interface.h::setCommand"]}
{"id": "C97", "title": "Joint modes survive the round trip and have distinct names", "statement": "A joint mode handle is refused exactly when its storage is null; otherwise a mode that is set is read back unchanged and no other storage changes. Two different modes of the enumeration never have the same name, and no value outside it has the name of one inside.", "quantifier": "every name, storage and mode, including values outside the enumeration", "why_tests_cant": "The claim is for all pairs of modes and all storage contents.", "anchors": ["hardware_interface/include/hardware_interface/joint_mode_interface.h::JointModeHandle, setMode, getMode, getModeName"]}
{"id": "C98", "title": "Which interfaces protect their resources", "statement": "An interface of the package records a claim exactly when it commands joints and a handle of that name was obtained from it since the claims were last cleared. So two controllers that obtain the same joint from joint command interfaces are reported as conflicting. Known exception (proved): interfaces that command actuators record no claims, so controllers commanding the same actuator are never reported.", "quantifier": "every interface class of the package, every sequence of registrations and handle requests, every set of controllers", "why_tests_cant": "Combines the claim policy of every interface class with arbitrary histories and controller sets.", "anchors": ["hardware_interface/include/hardware_interface/joint_command_interface.h::JointCommandInterface", "hardware_interface/include/hardware_interface/actuator_command_interface.h::ActuatorCommandInterface", "hardware_interface/include/hardware_interface/internal/hardware_resource_manager.h::getHandle", "hardware_interface/include/hardware_interface/robot_hw.h::checkForConflict"]}
{"id": "C99", "title": "Every limiter writes the permitted command nearest to the one given", "statement": "For each of the six limiters there is a window of permitted commands, computed from the limits, the gains, the period and the reference or measured state as documented: position saturation [max(ref - max_velocity*period, min_position), min(ref + max_velocity*period, max_position)]; soft position, the positions reached with velocities -k_position*(ref - soft limit) cut to the velocity limit, inside the hard limits; effort saturation [-max_effort, max_effort] with the outward side replaced by 0 beyond a position or velocity limit; soft effort, -k_velocity*(velocity - soft velocity bound) cut to the effort limit; velocity saturation, the velocity limit intersected with previous command +- max_acceleration*period; soft velocity, the soft velocity bounds intersected with measured velocity +- max_acceleration*period. enforceLimits changes nothing but the command, leaves a command inside the window as it is, and replaces any other by the nearer end of the window (the upper end if the window is empty).", "quantifier": "every limits, gains, history, measured state, command that is not NaN and period; doubles and exact numbers; with doubles: for the soft limiters values below overflow (2^500 for the position, 2^1022 for the other two)", "why_tests_cant": "All real inputs and all histories; tests sample a few points of a piecewise function with many pieces.", "anchors": ["joint_limits_interface/include/joint_limits_interface/joint_limits_interface.h::PositionJointSaturationHandle::enforceLimits", "joint_limits_interface/include/joint_limits_interface/joint_limits_interface.h::PositionJointSoftLimitsHandle::enforceLimits", "joint_limits_interface/include/joint_limits_interface/joint_limits_interface.h::EffortJointSaturationHandle::enforceLimits", "joint_limits_interface/include/joint_limits_interface/joint_limits_interface.h::EffortJointSoftLimitsHandle::enforceLimits", "joint_limits_interface/include/joint_limits_interface/joint_limits_interface.h::VelocityJointSaturationHandle::enforceLimits", "joint_limits_interface/include/joint_limits_interface/joint_limits_interface.h::VelocityJointSoftLimitsHandle::enforceLimits"]}
{"id": "C100", "title": "When a limiter refuses", "statement": "A limiter constructor throws exactly when a limit its class needs is not specified: a velocity limit for soft position, effort, soft effort and velocity saturation limiters, an effort limit for the two effort limiters; the other two never throw. enforceLimits aborts (failed assertion) exactly for a period that is not positive, in the soft position limiter always and in the velocity saturation limiter only if there are acceleration limits.", "quantifier": "every limits, soft limits, handle state, joint state and period", "why_tests_cant": "All combinations of specified limits and all periods, NaN included.", "anchors": ["joint_limits_interface/include/joint_limits_interface/joint_limits_interface.h::PositionJointSoftLimitsHandle", "joint_limits_interface/include/joint_limits_interface/joint_limits_interface.h::EffortJointSaturationHandle", "joint_limits_interface/include/joint_limits_interface/joint_limits_interface.h::EffortJointSoftLimitsHandle", "joint_limits_interface/include/joint_limits_interface/joint_limits_interface.h::VelocityJointSaturationHandle"]}
{"id": "C101", "title": "What a transmission handle accepts and holds", "statement": "The constructor of a transmission handle accepts exactly: a transmission, with at least one of the six position, velocity and effort vectors given, every given vector of the size the transmission wants on its side, and no null pointer in any vector; the handle then has the name, the transmission and the data it was given. Known exception (proved reachable): the number of torque sensors on the actuator side is not checked, so a handle that cannot be propagated is accepted.", "quantifier": "every name, transmission (or none) and pair of data structures with vectors of any size holding any pointers", "why_tests_cant": "All combinations of ten vectors of any size.", "anchors": ["transmission_interface/include/transmission_interface/transmission_interface.h::TransmissionHandle", "transmission_interface/include/transmission_interface/transmission_interface.h::hasValidPointers"]}
{"id": "C102", "title": "The list of managers in the graphical plugin follows the system and keeps the selection", "statement": "After each look for controller managers the plugin's combo box holds exactly the managers found. The manager that was selected stays selected if it is among them, even if its place in the list changes, and no change is signalled; if it is no longer found, nothing is selected and one change, to the empty name, is signalled. If nothing was selected, nothing becomes selected. When a saved session is restored, the saved manager is selected if it is among those found; otherwise the selection is as after a look for managers.", "quantifier": "all sequences of timer ticks, user selections and menu operations, all answers of the ROS master, all contents and selections of the combo box", "why_tests_cant": "The update replaces the items under blocked signals in a stateful widget; it matters for every pair of old and new lists (reordered, duplicated, empty) and every selected index.", "anchors": ["rqt_controller_manager/src/rqt_controller_manager/update_combo.py: update_combo, _is_permutation", "rqt_controller_manager/src/rqt_controller_manager/controller_manager.py: _update_cm_list, restore_settings"]}
{"id": "C103", "title": "Menu actions reach the manager whose row was clicked", "statement": "At any time the plugin's service proxies belong to the manager shown as selected (none if none is), under that manager's service names. As long as no refresh of the rows has raised an exception, an action chosen in the context menu is carried out by the manager from which the row was read, also if the list was refreshed, or the manager vanished, while the menu was open; if the manager is no longer selected, no call is made. Known exception (proved reachable): if the refresh raises when another manager is selected (the parameter server does not answer, or a parameter has just been removed), the rows of the old manager stay on display, and actions on them are carried out by the new manager.", "quantifier": "all sequences of timer ticks, selections, clicks and menu choices, all answers of master, parameter server and managers, including exceptions", "why_tests_cant": "Rows, selection and connections are updated by different events (two timers, signals, a nested menu loop); their consistency is a statement about all interleavings.", "anchors": ["rqt_controller_manager/src/rqt_controller_manager/controller_manager.py: _on_cm_change, _set_cm_services, _update_controllers, _on_ctrl_menu"]}
{"id": "C104", "title": "The rows of the graphical plugin: loaded controllers, then configured ones", "statement": "A refresh shows the controllers that the selected manager reports, in its order, followed by one row, in alphabetical order, for each controller configured in the namespace above the manager's (a parameter <namespace>/<name>/type exists) that the manager does not report; such a row has the state uninitialized and the type given by the parameter. Refreshes happen when the timer expires and when another manager is selected; with no manager selected the list becomes empty. A refresh raises exactly if the parameters cannot be listed or the type of such a controller cannot be read. Known exception (proved reachable): if the manager does not answer, its running controllers appear as uninitialized.", "quantifier": "all manager names, all parameter names and values, all answers of the manager including failures", "why_tests_cant": "The rows combine three sources that may change between the queries; names and namespaces are arbitrary strings.", "anchors": ["rqt_controller_manager/src/rqt_controller_manager/controller_manager.py: _list_controllers, _resolve_controllers_ns, _append_ns, _rosparam_controller_type", "controller_manager_msgs/src/controller_manager_msgs/utils.py: ControllerLister, get_rosparam_controller_names"]}
{"id": "C105", "title": "The entries of the context menu do what they say", "statement": "The menu offers Stop and Stop-and-Unload for running controllers, Start and Unload for stopped and initialized ones, Load and Load-and-Start for configured ones, and nothing for other states. A click on a row opens the menu for the controller in it. A chosen entry is always passed on to the selected manager; executed while nobody else calls the manager, has the effect its text says on the controller named in the row, even if the state shown was out of date: a stop or start happens or is refused because the controller was not running (not loaded, already running) or by the resource check or the hardware; Stop-and-Unload removes the controller unless the stop was objected to, and never unloads a running one; Load-and-Start leaves it running, or loaded if the start was objected to, or unloaded if the manager refuses to load it. No other controller is affected.", "quantifier": "all sessions of the plugin, all histories of the manager, all environments during the execution (control cycles at any time, conflicts, refusals)", "why_tests_cant": "The state on which the menu was built may be arbitrarily old; the outcome depends on every manager state and environment.", "anchors": ["rqt_controller_manager/src/rqt_controller_manager/controller_manager.py: _on_ctrl_menu, _load_controller, _unload_controller, _start_controller, _stop_controller"]}
{"id": "C106", "title": "States the graphical plugin can display", "statement": "A controller reported by a manager has an icon and menu entries in the plugin exactly if it is neither waiting for the hardware nor aborted. Known exception to \"every reported controller is displayed\" (proved reachable): after a start that the hardware reports as failed, the controller is reported as aborted; drawing its row raises KeyError, and its menu is empty.", "quantifier": "all histories of the manager, all controllers it reports", "why_tests_cant": "Needs all states that a manager can report after any history, not those of typical runs.", "anchors": ["rqt_controller_manager/src/rqt_controller_manager/controller_manager.py: __init__ (_icons), ControllerTable.data, _on_ctrl_menu", "controller_manager/src/controller_manager.cpp: listControllersSrv"]}
{"id": "C107", "title": "Loaded joints have variables of their own and appear exactly where described", "statement": "After any sequence of transmission loads on a robot that starts with actuator interfaces only, the joint state interface contains exactly the joints of the transmissions that could be loaded, and each joint command interface exactly those joints whose transmission asks for that command and whose actuators the robot can command. No two joints share a variable, no joint uses one variable for two purposes (position, velocity, effort, absolute position, torque, position/velocity/effort command), none of these variables belongs to an actuator, and a command handle reads the joint state from the variables of the state interface. Propagating one transmission interface changes only joint variables of that interface's purpose (towards joints: states or that one command), or only actuator variables (towards actuators); in particular propagating states never changes a command and vice versa.", "quantifier": "all arithmetic, all actuator interfaces, all sequences of descriptions (failing ones included), all joints, purposes, memories, transmission interfaces", "why_tests_cant": "The existing loader tests look at a handful of robot descriptions and check that values arrive; they cannot exclude that some description makes two joints or a state and a command share storage.", "anchors": ["transmission_interface/include/transmission_interface/transmission_interface_loader.h: RawJointData, RawJointDataMap", "transmission_interface/src/joint_state_interface_provider.cpp: updateJointInterfaces", "transmission_interface/src/position_joint_interface_provider.cpp: updateJointInterfaces, getJointCommandData", "transmission_interface/include/transmission_interface/transmission_interface.h: propagate"]}
{"id": "C108", "title": "Propagation writes target variables only, whatever it is given", "statement": "When the propagate() of a transmission interface returns, every variable that has changed is one that the target side of one of its handles points to, in a quantity this kind of interface propagates. This holds for arbitrary handles and memory: aliased variables, vectors of wrong size, null pointers and unconstructed transmissions included.", "quantifier": "all arithmetic (doubles included), all eight kinds of interfaces, all handles and memories", "why_tests_cant": "A test compares a few variables before and after; a stray write to something not compared, or one that needs a particular aliasing, goes unnoticed.", "anchors": ["transmission_interface/include/transmission_interface/transmission_interface.h: TransmissionInterface::propagate, ActuatorToJointStateHandle::propagate", "transmission_interface/include/transmission_interface/simple_transmission.h", "transmission_interface/include/transmission_interface/differential_transmission.h", "transmission_interface/include/transmission_interface/four_bar_linkage_transmission.h"]}
{"id": "C109", "title": "Pointer accessors agree with the values; sensors hand out what they were given", "statement": "For every handle a program has made, the pointer accessors for position, velocity and effort return the cells the value accessors read; hasAbsolutePosition and hasTorqueSensor are true exactly when the handle was given that cell, the pointer accessors for them return that cell then and throw otherwise; the command pointer of a command handle is the cell setCommand writes and never null if no handle was made without arguments. Force-torque and IMU handles return exactly the name, frame and pointers they were made from, each in its own accessor.", "quantifier": "every program of any length making and using handles, every handle in it, every initial storage; every argument of the sensor constructors", "why_tests_cant": "a test checks the accessors of a few handles with a few pointers; that they match the storage for handles copied into handles in every order of every program is a statement about all programs", "anchors": ["hardware_interface/include/hardware_interface/joint_state_interface.h: JointStateHandle::getPositionPtr, getAbsolutePositionPtr, getTorqueSensorPtr, hasAbsolutePosition, hasTorqueSensor", "hardware_interface/include/hardware_interface/actuator_state_interface.h: ActuatorStateHandle", "hardware_interface/include/hardware_interface/joint_command_interface.h: JointHandle::getCommandPtr", "hardware_interface/include/hardware_interface/imu_sensor_interface.h: ImuSensorHandle", "hardware_interface/include/hardware_interface/force_torque_sensor_interface.h: ForceTorqueSensorHandle"]}
{"id": "C110", "title": "Parts of a robot switch only what they agreed to, and all of them switch", "statement": "In every history of a controller manager on a combined robot: a part is told doSwitch only if its last prepareSwitch or doSwitch call was a prepareSwitch with exactly the same two lists, which it answered with true. When a request is accepted, every part has been asked, in order, with exactly the controllers and claims that concern it; when a part refuses, the parts before it have been asked (and have agreed), the parts after it have not. Whenever the combined robot performs a switch, every part does, in order, with its share.", "quantifier": "all histories of service calls and control cycles (no shutdown while a caller waits), all robots, parts, controllers and answers", "why_tests_cant": "A test drives one part with one request. That no sequence of refused, timed out or abandoned requests and reloads ever makes a part switch what it did not last agree to is a statement about all histories.", "anchors": ["combined_robot_hw/src/combined_robot_hw.cpp: CombinedRobotHW::prepareSwitch, doSwitch, filterControllerList", "controller_manager/src/controller_manager.cpp: switchController, manageSwitch, reloadControllerLibraries"]}
{"id": "C111", "title": "On a combined robot every accepted switch completes in the next cycle", "statement": "On a combined robot (or a RobotHW that does not override switchResult) the first control cycle after an accepted request updates the running controllers, tells all parts to switch, stops the running controllers named for stop and starts those named for start, in this order, and nothing else; after it the named controllers are started or stopped, all others unchanged, and the caller is told true. No controller ever receives waiting() or aborting(). Known exception to what the switchResult documentation promises (proved reachable): a controller is started although a part reports ERROR or ONGOING.", "quantifier": "all histories (no shutdown while a caller waits), all requests, all parts and all states the parts would report", "why_tests_cant": "The absence of waiting and aborting in any history and the exact event sequence of the cycle for any number of controllers and parts are universally quantified; a test sees a few sequences.", "anchors": ["combined_robot_hw/src/combined_robot_hw.cpp: CombinedRobotHW (no switchResult)", "hardware_interface/include/hardware_interface/robot_hw.h: RobotHW::switchResult", "controller_manager/src/controller_manager.cpp: update, manageSwitch, startControllers, startControllersAsap"]}
{"id": "C112", "title": "Controllers that command the same resource never run together, end to end", "statement": "At no time in any history of a controller manager on a robot do two controllers run whose init functions asked claiming interfaces of the robot for the same resource. (From the getHandle calls in the controllers' init functions through the interface managers, the recorded claims and the conflict check to the callbacks.)", "quantifier": "all histories (no shutdown while a caller waits), all robots built by registrations, all controllers (single and multi-interface, with any init functions), all points of the trace", "why_tests_cant": "Needs every combination of controllers, interface trees, combined interfaces and every interleaving of requests; a unit test fixes the claims by hand and checks one request.", "anchors": ["controller_interface/include/controller_interface/controller.h: Controller::initRequest", "controller_interface/include/controller_interface/multi_interface_controller.h: initRequest", "hardware_interface/include/hardware_interface/robot_hw.h: checkForConflict", "controller_manager/src/controller_manager.cpp: switchController, loadController"]}
{"id": "C113", "title": "A strict switch request on a robot is accepted exactly when", "statement": "On an idle manager a STRICT request is accepted if and only if every named controller is loaded, those to stop run and those to start do not, no two controllers that would run afterwards command the same resource, none of them claims a resource name through two interfaces, and every part agrees to its share of the lists. Otherwise the reply is false.", "quantifier": "all histories (no shutdown while a caller waits), all robots, all requests, all answers of the parts", "why_tests_cant": "An if-and-only-if over all robots and histories; tests show some accepted and some refused requests.", "anchors": ["controller_manager/src/controller_manager.cpp: switchController", "hardware_interface/include/hardware_interface/robot_hw.h: checkForConflict", "combined_robot_hw/src/combined_robot_hw.cpp: prepareSwitch"]}
{"id": "C114", "title": "Every commanded resource is reported to a part that has it", "statement": "On a combined robot loaded from parts, whenever a switch is performed, for every controller in it and every resource the controller commands, some part that provides this resource through a claiming interface is told in doSwitch that this controller claims it. Conversely a part is told, in prepareSwitch and doSwitch, exactly those claims of the lists given to the robot that concern resources it provides.", "quantifier": "all sets of parts, all histories (no shutdown while a caller waits), all controllers and resources", "why_tests_cant": "A test checks the filtered lists for one robot; that no resource gets lost between the combined interfaces and the filter is a statement about all interface trees and controllers.", "anchors": ["combined_robot_hw/src/combined_robot_hw.cpp: filterControllerList, loadRobotHW", "hardware_interface/include/hardware_interface/internal/interface_manager.h: InterfaceManager::get, getInterfaceResources, getNames"]}
{"id": "C115", "title": "A controller loads exactly when the robot has what it needs", "statement": "On an idle manager a load request succeeds if and only if the name is new, its node handle can be made, the type parameter is set and a loader builds the type, the robot has the required interfaces, every resource the init functions ask for (and whose absence they do not catch) exists there, and both init functions return true. Earlier failed loads, claims and combined interfaces have no influence. The new controller is then listed last, initialized, and its claims are exactly the resources it commands.", "quantifier": "all histories, robots built by registrations, controllers with any init functions, sets of loaders with distinct class names", "why_tests_cant": "That no earlier request (a failed init that left claims behind, a cached combined interface) can change the outcome is a statement about all histories.", "anchors": ["controller_manager/src/controller_manager.cpp: loadController", "controller_interface/include/controller_interface/controller.h: Controller::initRequest", "controller_interface/include/controller_interface/multi_interface_controller.h: initRequest", "hardware_interface/include/hardware_interface/internal/interface_manager.h: InterfaceManager::get"]}
{"id": "C116", "title": "Joints created by transmissions are usable, but the robot does not list them", "statement": "Loading transmissions on a robot without joint interfaces of its own never fails at the level of the robot's interfaces; afterwards the robot has exactly the joint interfaces asked for, each with exactly the joints asked for, and its other interfaces are unchanged. Known exception (proved reachable): these joints are never among the resources the robot lists for the interface, because the list is taken when the empty interface is registered. Therefore a part of a combined robot whose joints come from transmissions is not told of controllers that claim them: prepareSwitch and doSwitch of the part are called with empty lists although the manager starts the controller.", "quantifier": "all robots built by registrations, all sequences of joints and interfaces asked for by transmissions; all controllers whose claims are on such interfaces", "why_tests_cant": "Tests load one fixed description and look joints up by name; the listing is only consulted by combined robots, in another package.", "anchors": ["transmission_interface/src/joint_state_interface_provider.cpp: updateJointInterfaces", "transmission_interface/src/position_joint_interface_provider.cpp: updateJointInterfaces", "hardware_interface/include/hardware_interface/internal/interface_manager.h: registerInterface, getInterfaceResources", "combined_robot_hw/src/combined_robot_hw.cpp: filterControllerList"]}
{"id": "C117", "title": "Transmissions live as long as the loader", "statement": "Every transmission used by a registered handle is kept by the loader, whatever was loaded and whichever loads failed; kept transmissions are never dropped; a successful load adds the described transmission once for every hardware interface the robot serves, and nothing else.", "quantifier": "all robots with actuator interfaces, all sequences of loads of any descriptions, all transmission interfaces", "why_tests_cant": "A handle refers to its transmission without owning it; a missing reference is a use after free that a test run need not notice.", "anchors": ["transmission_interface/include/transmission_interface/transmission_interface_loader.h: TransmissionLoaderData", "transmission_interface/include/transmission_interface/transmission_interface.h: TransmissionHandle", "transmission_interface/src/transmission_interface_loader.cpp: load"]}
{"id": "C118", "title": "Joints show what the flags of their data say", "statement": "Whatever flags were set in the raw joint data before a load and whatever its outcome: a joint state that the load adds has an absolute position exactly if the data say so, a torque sensor exactly if the data say so, and shows the variables of the data; joints already there and existing data are left alone.", "quantifier": "all loader states whose unregistered joint state interface is empty, all descriptions, all flags, all outcomes", "why_tests_cant": "The flags default to true and no test sets them; four combinations times all histories of loads.", "anchors": ["transmission_interface/src/joint_state_interface_provider.cpp: updateJointInterfaces", "transmission_interface/include/transmission_interface/transmission_interface_loader.h: RawJointData"]}
{"id": "C119", "title": "A robot description loads exactly when each of its transmissions does", "statement": "Loading a document with a root element succeeds if and only if it has at least one complete transmission element and each of them can be loaded on its own (valid parameters, equal hardware interfaces of all joints, one of them known with all its actuators on the robot), independently of what was loaded before; the transmissions are then loaded in document order. Otherwise exactly those before the first that cannot be loaded have been loaded. A malformed document is refused without effect. No exception or assertion escapes, and behaviour is undefined only for a number element without text. Known exception (proved reachable): a document without any element is not refused but dereferenced as if it had one.", "quantifier": "all documents, all robots with actuator interfaces, all earlier loads", "why_tests_cant": "An equivalence over all documents and all earlier loads.", "anchors": ["transmission_interface/src/transmission_interface_loader.cpp: load", "transmission_interface/src/transmission_parser.cpp: parse"]}
{"id": "C120", "title": "A control cycle uses the controller list that was current when it began", "statement": "A control cycle goes through exactly the list of controllers that was current when it read which list is current: the result of all loads and unloads completed before, and none that complete between that read and the announcement that the list is in use.", "quantifier": "all interleavings of control cycles with loads, unloads and switches while ROS is up and the very first cycle is not interrupted between reading and announcing", "why_tests_cant": "The window is a few instructions wide; only some of the interleavings can be provoked.", "anchors": ["controller_manager/src/controller_manager.cpp: update, loadController, unloadController"]}
{"id": "C121", "title": "A spawner shut down at any moment takes down what it knows to have loaded", "statement": "With nobody else calling the manager and no hardware failure, for every interleaving of the requests of the spawner's main thread and of its shutdown handler: while controllers are being loaded, the manager holds, besides what it held before, exactly the controllers on the spawner's list and at most one more (request served, reply not yet processed). If the shutdown begins while controllers are being loaded (all names distinct), nothing is started, what was there before is untouched, and when the handler has finished none of the controllers that were on the list when the shutdown began is left. If it begins when all requests have been answered, the manager is as before the spawner, unless the stop request met a conflict or a hardware objection. Without shutdown the main thread does what C72 says. Known exceptions (proved reachable): a controller whose load request is in progress when the shutdown begins, or is sent afterwards, stays loaded; if the start request is served after the handler's stop request, all controllers stay loaded and running.", "quantifier": "every schedule of the two threads, every moment of the shutdown, every list of names and every state of the manager", "why_tests_cant": "The outcome depends on the instant at which a signal or shutdown request arrives relative to requests in flight; tests exercise a few instants at most.", "anchors": ["controller_manager/scripts/spawner: shutdown, main"]}
{"id": "C122", "title": "The spawner sends no request before the services are there and the topic said True", "statement": "With a positive timeout, the spawner goes on to load controllers if and only if all three services were found (earlier rounds may only have failed while simulated time had no clock) and, with --wait-for, \"True\" is the last message heard at some look after the first message, with no shutdown noticed before; with any arguments it sends no request unless the services were found and, with --wait-for, \"True\" was heard. It then handles the controllers of its arguments, a yaml file standing for its top level keys in order, with the effect of C72. The services are those of the given namespace, with or without a final slash. Known exception (proved for all such executions): with --no-timeout or --timeout <= 0 together with --wait-for it dies of a TypeError unless a message was heard before its first look.", "quantifier": "all arguments, all sequences of service waits, all sequences of topic messages, clock readings and shutdown flags", "why_tests_cant": "Start-up order of nodes and message timing are unbounded; a test fixes one order.", "anchors": ["controller_manager/scripts/spawner: parse_args, main"]}
{"id": "C123", "title": "In the documented read/limit/write loop the limits hold at the actuators", "statement": "A robot that works as both packages' documentation shows (read: propagate actuator states to joints; write: enforce the limits of all joints, then propagate joint position commands to actuators), with position limits on every commanded joint, however often and in whatever order its transmissions and joints are registered: if the actuators start where every joint is inside its limits, then in every cycle, whatever numbers the controllers command, whenever the limit handles are reset, and as long as the hardware moves every joint only between where it was and where it is sent, read and write succeed, the actuator commands are those of joint positions inside the limits (and of the joint commands left in place), and the actuators stay where every joint is inside its limits. With soft limits the same, and in addition the soft limits are never left if the start is inside them. Known exception (proved): for reducers it is enough that each actuator moves between its position and its command, for a differential it is not: a joint may leave its limits on the way although start and target are inside.", "quantifier": "all transmissions (simple, differential, four-bar) with non-zero reductions and rational parameters, any number of them and of joints, all limits with min <= max, all command sequences, resets, periods and hardware motions without overshoot, runs of any length; exact arithmetic", "why_tests_cant": "It combines an unbounded history inside the limit handles with arbitrary transmissions and arbitrary motions of the hardware; tests run each package alone for a few cycles.", "anchors": ["joint_limits_interface/mainpage.dox: read/write", "transmission_interface/mainpage.dox: MyRobot", "joint_limits_interface/include/joint_limits_interface/joint_limits_interface.h: PositionJointSaturationHandle, PositionJointSoftLimitsHandle, JointLimitsInterface::enforceLimits", "transmission_interface/include/transmission_interface/transmission_interface.h: ActuatorToJointStateHandle, JointToActuatorPositionHandle"]}
{"id": "C124", "title": "Whatever the interleaving, control cycles and service calls take effect one at a time", "statement": "While the control loop runs update() and any caller loads, unloads, switches or lists controllers at the same time, every execution, interleaved at the level of single accesses to shared data, looks as if each cycle and each call had taken effect at one moment between its call and its return, in one sequence of the sequential manager: same calls into controllers and hardware in each cycle, same replies, same creations and destructions, same list and states whenever no call is in progress; and no container is modified while the other thread iterates over it. This covers a switch request handed over in the middle of a cycle, several loads and unloads during one cycle or several cycles during one load, and registration of a loader at any time. Known exceptions (each proved to break it): the lock holder advancing between the first cycle's read of the list index and its publication, ROS shutting down, the wall clock timeout of a switch, and the lock holder looking at a controller's state between its stop and restart in a reset cycle.", "quantifier": "all interleavings of any length of the control loop's and the lock holder's accesses, all operations with any arguments, all answers of hardware and user code, all loaders", "why_tests_cant": "The number of interleavings is unbounded and a test runs only those the scheduler happens to produce; that no explanation by a sequence exists or that one always exists is not observable from one run.", "anchors": ["controller_manager/src/controller_manager.cpp: ControllerManager::update, manageSwitch, stopControllers, startControllers, startControllersAsap, loadController, unloadController, switchController, listControllersSrv, listControllerTypesSrv, registerControllerLoader", "controller_manager/include/controller_manager/controller_manager.h: controllers_lists_, current_controllers_list_, used_by_realtime_, switch_params_"]}
{"id": "C125", "title": "What the control loop and the service calls share without a lock", "statement": "At every moment of every such execution, of all the data members and controller states that the control loop and a service call use, the only ones that one of them is about to write while the other is about to access it are: the index of the current list, the index of the list in use, the flag that a switch is requested, and, during a reset cycle, the state of the controller being reset, which a call that examines controllers may read. The lists of controllers, the request lists, the switch parameters and the hardware request lists are never in that situation. (So making these few variables atomic is enough; they are plain variables. Each of the four is proved to be raced on in some execution. Known exception, proved reachable: registering a loader takes no lock and writes the list of loaders while a call reads it.)", "quantifier": "all interleavings of any length of the control loop's and the lock holder's accesses (ROS stays up, no wall clock timeout, first cycle undisturbed), all operations with any arguments, all memory locations", "why_tests_cant": "A race detector sees only the interleavings of one run; absence of a race on the lists in all interleavings is not observable by running.", "anchors": ["controller_manager/src/controller_manager.cpp: ControllerManager::update, manageSwitch, stopControllers, startControllers, startControllersAsap, loadController, unloadController, switchController, listControllersSrv, listControllerTypesSrv, registerControllerLoader", "controller_manager/include/controller_manager/controller_manager.h: controllers_lists_, current_controllers_list_, used_by_realtime_, switch_params_, start_request_, stop_request_, controller_loaders_"]}
{"id": "C126", "title": "update() never waits for a service call", "statement": "Inside update() the control loop can always make its next access, whatever any service call is doing and wherever it has stopped; and between call and return it makes at most three accesses per controller in the list it uses, one per controller to be stopped or started, and five more, however many steps service calls make meanwhile. In particular, if the thread of a service call stops for good while holding the lock, the cycle returns all the same.", "quantifier": "all executions (first part: all of them; bound: ROS stays up, no wall clock timeout, first cycle undisturbed), all moments, all cycles, all numbers of controllers and requests", "why_tests_cant": "Worst-case blocking depends on the scheduler; a test cannot show that no interleaving makes the cycle wait or lengthens it.", "anchors": ["controller_manager/src/controller_manager.cpp: ControllerManager::update, manageSwitch, stopControllers, startControllers, startControllersAsap, loadController, unloadController, switchController, listControllersSrv, listControllerTypesSrv, registerControllerLoader", "controller_manager/include/controller_manager/controller_manager.h: controllers_lists_, current_controllers_list_, used_by_realtime_, switch_params_, start_request_, stop_request_, controller_loaders_"]}
{"id": "C127", "title": "Service calls make progress and wait only for the control loop", "statement": "Each of load, unload, switch, list controllers and list types is accepted whenever no other of them is in progress. A call in progress can always make its next step. It goes round a wait loop only in two situations: a new list has been made current and the control loop is still using the former one, which the next cycle to begin ends; or a switch has been handed over and the control loop has not completed it. It never waits before it starts to build a new list. Apart from those rounds it returns within eight steps and one for each entry of the two controller lists, whatever the control loop does meanwhile.", "quantifier": "all executions of any length (ROS stays up, no wall clock timeout, first cycle undisturbed), all moments, all calls with any arguments, all numbers of controllers", "why_tests_cant": "That no interleaving blocks a call for good, and how many steps it takes at most, cannot be observed from finitely many runs.", "anchors": ["controller_manager/src/controller_manager.cpp: ControllerManager::loadController, unloadController, switchController, listControllersSrv, listControllerTypesSrv, update", "controller_manager/include/controller_manager/controller_manager.h: controllers_lists_, current_controllers_list_, used_by_realtime_, switch_params_"]}
{"id": "C128", "title": "The listing services report the controllers of the robot, what they command and whether they run", "statement": "On an idle manager list_controllers answers one row per loaded controller, in load order. A row carries the controller's name and type, and its claimed resources are exactly the resources the controller obtained for commanding from this robot when it was initialised. The state column is 'running' exactly while the controller runs, and initialized / stopped / waiting / aborted exactly in those phases. list_controller_types answers exactly the classes of the loaders, each with the base class of its loader, including loaders registered later. Neither listing changes any later reply or effect.", "quantifier": "all histories of calls and control cycles, robots built by registrations, sets of loaders and controllers with any init functions", "why_tests_cant": "That the reported claims are those of the initialisation, whatever was loaded, unloaded, switched or reloaded since, and that asking never disturbs anything, are statements about all histories.", "anchors": ["controller_manager/src/controller_manager.cpp: listControllersSrv", "controller_manager/src/controller_manager.cpp: listControllerTypesSrv", "controller_interface/include/controller_interface/controller.h: Controller::initRequest"]}
{"id": "C129", "title": "Every transmission map is accurate with doubles", "statement": "With IEEE doubles, every map of every transmission type (effort, velocity, position, absolute position, torque sensor towards the joints; the first three towards the actuators) succeeds on ordinary values, writes only its outputs, and each output is finite and differs from the exact affine value by at most 2^-49 times the sum of the magnitudes of the terms that are added up, plus 2^-700. Ordinary: reductions with magnitude between 2^-64 and 2^64, offsets and inputs (zero included) of magnitude at most 2^200.", "quantifier": "every constructed simple, differential and four-bar-linkage transmission with ordinary parameters, every quantity, every memory with ordinary inputs, all distinct variables", "why_tests_cant": "All doubles and all parameter combinations; tests compare a few values with a tolerance.", "anchors": ["transmission_interface/include/transmission_interface/simple_transmission.h", "transmission_interface/include/transmission_interface/differential_transmission.h", "transmission_interface/include/transmission_interface/four_bar_linkage_transmission.h"]}
{"id": "C130", "title": "Round trips through every transmission lose little with doubles", "statement": "With IEEE doubles and ordinary parameters and values (as in C129), a position, velocity or effort mapped to the other side and back through any transmission type is finite and within 2^-48 times a weight, plus 2^-390, of the original. The weight is the sum of the magnitudes of the terms in the two maps; for actuator velocities through a differential it is |x| + |a0/a1| |y|. The round trip is not exact (proved: 1/49*49).", "quantifier": "every constructed transmission with ordinary parameters, position, velocity and effort, both directions, every memory with ordinary values", "why_tests_cant": "All doubles and all parameter combinations.", "anchors": ["transmission_interface/include/transmission_interface/simple_transmission.h", "transmission_interface/include/transmission_interface/differential_transmission.h", "transmission_interface/include/transmission_interface/four_bar_linkage_transmission.h"]}
{"id": "C131", "title": "Limiters lead a joint back inside its limits", "statement": "A joint commanded (or measured) outside its limits is led back, whatever the commands are. Soft position limits: with gain k, velocity limit v and n calls with periods of at least p, the written command is within eps of the soft range once the initial distance is at most eps + n*p*min(k*eps, v); from where k*distance <= v the distance shrinks at least by the factor (1-k*p) per call; so any eps > 0 is reached after finitely many calls. The same holds for the position of a joint that does what the soft velocity limiter commands (no acceleration limits). Plain position limits: the upper limit holds at once; from below the command is inside or has advanced by at least n*p*v. With doubles a call never leads further out. Known exception (proved reachable): with doubles the way back can stop short of the soft limit and stay there for every number of calls, the step being smaller than half a unit in the last place.", "quantifier": "all limits and soft limits as in C49, all earlier histories that hit no assertion, all numbers of calls, all commands that are not NaN, all periods of at least p with k*period <= 1 (soft limits); rates in exact arithmetic, \"never further out\" also for doubles of moderate size", "why_tests_cant": "The number of calls is not bounded and the commands, periods and limits are arbitrary; a test follows one trajectory.", "anchors": ["joint_limits_interface/include/joint_limits_interface/joint_limits_interface.h: PositionJointSoftLimitsHandle::enforceLimits, PositionJointSaturationHandle::enforceLimits, VelocityJointSoftLimitsHandle::enforceLimits"]}
{"id": "C132", "title": "The tool controller_manager does what its command word says and reports truthfully", "statement": "With nobody else calling the manager and no hardware failure: load, unload, start and stop print exactly one line per name in the order given, and the line announces success exactly for the controllers that were loaded, removed, started or stopped; no other controller changes. A controller announced as loaded was not there before and is there now, one announced as unloaded was there and is gone, one announced as started was loaded but not running and runs now, one announced as stopped ran and does not any more. A name without success is explained: the manager refused to load it, it was not there, or in the wrong state, or its switch was refused for a conflict or by the hardware. spawn prints the lines of load and then those of start, kill those of stop and then those of unload, and their success lines are true of the final state. list prints one line per loaded controller in load order with its state and each of its claimed interfaces once, and changes nothing. 'Successfully reloaded libraries' means no controller is left (before a restore). An unknown word prints the usage text, sends no request and exits with 1; without any word the status is 0. Known exceptions (proved reachable or always true): the exit status of every command is 0 even if all requests failed, and 'Controllers restored to original state' is printed although a controller that ran does not run.", "quantifier": "every command line (names repeated or unknown), every manager history without abandoned requests, every control-loop interleaving and every answer of loaders, resource check and hardware preparation; for the usage text any other clients at all", "why_tests_cant": "The messages are only printed, no test looks at them; the claim is about all name lists in all states of the manager.", "anchors": ["controller_manager/scripts/controller_manager", "controller_manager/src/controller_manager/controller_manager_interface.py::list_controller_types, reload_libraries, list_controllers, load_controller, unload_controller, start_stop_controllers"]}
{"id": "C133", "title": "controller_group says truly what it has done", "statement": "With nobody else calling the manager and no hardware failure. `controller_group list` calls nothing and shows the number of groups and every group once, in alphabetical order, each with its controllers as given. `controller_group switch`: every 'Loaded' line names a controller that was loaded by it, the lines about started and stopped controllers name exactly the controllers of the group that did not run and the running ones that are only in other groups, an error about loading names a controller of the group that the manager refused, and an error about switching names the request that was refused for a conflict or by the hardware; if no error is printed (lines about states aside) the group runs and controllers only in other groups do not; if one is printed, nothing was started or stopped and only the controllers reported as loaded were added. `controller_group spawn` does and prints what `controller_manager spawn` does for the controllers of the group, each once. Known exception (proved reachable): switch reports as an error, in the words of an unknown state, each controller that is loaded and has never been started.", "quantifier": "every set of groups (with overlaps, duplicates and unknown controllers), every order in which Python enumerates a set, every manager history without abandoned requests, every control-loop interleaving", "why_tests_cant": "All group definitions, manager states and interleavings with the control loop; a test sees a few outputs.", "anchors": ["controller_manager/scripts/controller_group::_list_group, _spawn_group, _switch_group, _get_loaded_controllers, _main", "controller_manager/src/controller_manager/controller_manager_interface.py::load_controller, start_stop_controllers"]}
{"id": "C134", "title": "The command line tools send no other requests than their names promise, whatever happens", "statement": "In every environment (any other clients, any replies, exceptions at any moment): controller_manager spawn sends loads for the names in order and then starts for the names in order, and nothing else; kill sends stops and then unloads; the spawner sends loads in order and then, unless --stopped, one request to start exactly the controllers whose loads were granted, and on shutdown one request to stop those and then unloads in the opposite order; the unspawner sends, after a listing, a request to stop exactly those of its controllers that the listing shows as running, and in the end one request to start exactly the controllers named in its answered stop requests, so it stops and starts none but its own, and only what it has seen running; controller_group switch sends one listing, loads of missing controllers of the group, and at most one switch request, after all loads were granted, which starts exactly the controllers of the group that the listing does not show as running and stops exactly the running ones that are only in other groups; reload-libraries --restore sends a listing, the reload, loads of all listed controllers and one request to start those listed as running. A tool interrupted by an exception has sent a beginning of this.", "quantifier": "every list of names, group definition and order in which Python enumerates a set; every behaviour of the manager and of other clients; exceptions at any point", "why_tests_cant": "The replies and the moments of exceptions range over everything that other clients and the robot can cause.", "anchors": ["controller_manager/scripts/controller_manager", "controller_manager/scripts/spawner::main, shutdown", "controller_manager/scripts/unspawner::main", "controller_manager/scripts/controller_group::_switch_group", "controller_manager/src/controller_manager/controller_manager_interface.py"]}
{"id": "C135", "title": "Velocity and effort limits hold at the actuators too", "statement": "A robot whose write enforces the limits of all joints and then propagates joint velocity (or effort) commands to the actuators: after any number of writes, whatever happens to positions, velocities and commands in between, the next write succeeds, changes command variables only, and the actuators are sent, by the documented formulas, exactly the joint commands left in place. With velocity limits each of these is within the maximum velocity and, with acceleration limits, within max_acceleration * period of the one written before (of zero at first). With effort limits each is within the maximum effort and never pushes further a joint that is outside its position or velocity limits. A command that respects all of this is left alone. With soft velocity limits the velocity towards a soft position limit is at most the gain times the distance (or the joint is sent back at full speed), and with soft effort limits a joint that is too fast or too far beyond a soft limit is not pushed further. In both cases it is the command nearest to the one asked within the window of C99.", "quantifier": "all transmissions (simple, differential, four-bar) with non-zero reductions and rational parameters, any number of them and of joints in any order of registration, all limits with non-negative bounds, all histories of writes with arbitrary positions, velocities, commanded numbers and positive periods between and before them; exact arithmetic", "why_tests_cant": "The acceleration limit depends on an unbounded history inside the limit handles, and the effect at the actuators on arbitrary transmissions; tests run each package alone with single handles.", "anchors": ["joint_limits_interface/include/joint_limits_interface/joint_limits_interface.h: VelocityJointSaturationHandle, VelocityJointSoftLimitsHandle, EffortJointSaturationHandle, EffortJointSoftLimitsHandle, JointLimitsInterface::enforceLimits", "transmission_interface/include/transmission_interface/transmission_interface.h: JointToActuatorVelocityHandle, JointToActuatorEffortHandle, TransmissionInterface::propagate", "joint_limits_interface/mainpage.dox: write"]}
{"id": "C136", "title": "Actuators that follow limited velocity commands keep the joints inside the soft limits", "statement": "A robot that in each cycle reads (actuator states to joints), lets controllers command joint velocities, enforces soft velocity limits without acceleration limits on all joints and propagates the velocities to the actuators: if the joints start inside their soft position limits and the actuators of each transmission then move with the velocities they are sent for the period or a part of it, then in every cycle read and write succeed, the joint velocities of the documented formulas are delivered, and every joint is inside its soft limits, during and after the motion, whatever numbers the controllers command. Known exception (proved reachable): with acceleration limits a joint that moves fast towards its lower soft limit leaves it although every actuator does what it is told.", "quantifier": "all transmissions (simple, differential, four-bar) with non-zero reductions and rational parameters, any number of them and of joints, all soft limits and gains with k_position * period <= 1, all command sequences, periods and partial motions, runs of any length; exact arithmetic", "why_tests_cant": "It follows the joints through the transmissions and back over runs of any length and for all commands, periods and parameters; tests check single calls of single handles.", "anchors": ["joint_limits_interface/include/joint_limits_interface/joint_limits_interface.h: VelocityJointSoftLimitsHandle::enforceLimits, JointLimitsInterface::enforceLimits", "transmission_interface/include/transmission_interface/transmission_interface.h: ActuatorToJointStateHandle, JointToActuatorVelocityHandle", "joint_limits_interface/mainpage.dox: read/write", "transmission_interface/mainpage.dox: MyRobot"]}
