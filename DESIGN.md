# ros_control: formal model and proofs (Rocq/Coq 8.16.1)

What is modelled, how each property of `properties.jsonl` is stated and proved, and what is trusted.
(Generated by `tools/design.py` from `tools/design_head.md` and MANIFEST.json; edit those.)

## Layout (rocq/theories)

Files come in groups: `*Model.v` transcribes code (no proofs; every definition cites the lines of `/repo` it
models and names its simplifications), `*Spec.v` is the specification vocabulary, written without the model's
helpers, `*Proofs.v` and the like are lemmas, and `Props*.v` holds the property theorems, each followed
by `Print Assumptions` and by an `Example` showing that a non-trivial case meets the hypotheses.

| group | model of | files |
|---|---|---|
| maps | `std::map<std::string, _>`, `std::set` as sorted association lists | SMap, SMapProofs, HwTypes |
| controller manager | controller_base.h, robot_hw.h (conflict check), controller_manager.{h,cpp} as a step machine: one operation = one service call (or the part up to its wait loop), one evaluation of the wait loop, or one control cycle | Lifecycle, ConflictModel, CMModel; CMSpec; ConflictProofs, CMInv, CMTrace, CMCycle, CMSwitch, CMLife, CMSession, CMExcl, CMHooks, CMLoad, CMRest, CMFinal; PropsCM; CMSeqSpec; CMSeq, CMOnce, CMDo; PropsSeq |
| threads | controller_manager.cpp as interleaved atomic accesses (double buffer, waits, request vectors), direct C++ callers | RaceModel, RaceSpec, RaceProofs, PropsRace; ConcModel, ConcSpec, ConcProofs, PropsConc |
| hardware interfaces | resource_manager.h, hardware_resource_manager.h, interface_manager.h, controller.h, multi_interface_controller.h, robothw_interfaces.h | HwModel; HwSpec; HwProofs, HwMgr, HwBuilt, HwInit, HwClaims; PropsHw |
| handles | the handle classes of joint_state, actuator_state, joint_command, actuator_command, posvel, posvelacc, position_velocity_torque_gains, joint_mode, force_torque, imu headers as programs over shared storage; claim policy of every interface class | HandleModel; HandleSpec; HandleProofs; PropsHandle |
| combined robot | combined_robot_hw.{h,cpp} | CombModel, CombSpec, CombProofs, PropsComb |
| whole robot | controller manager, controllers, interfaces, conflict check and parts together: the operations of CMModel with claims made by HwModel, checked by ConflictModel and forwarded by CombModel | SysModel; SysSpec; SysProofs, SysInv, SysMain, SysRest, SysLoad; PropsSys |
| joint limits | joint_limits_interface.h, joint_limits.h, joint_limits_rosparam.h, joint_limits_urdf.h | LimModel; LimSpec, LimNearSpec, LimBackSpec; LimLaws, LimExact, LimDouble (arithmetic), LimProofs, LimRest, LimGain, LimDGain, LimMisc, LimLoop, LimNear, LimBack; PropsLim, PropsNear, PropsBack |
| transmissions | simple/differential/four_bar_linkage_transmission.h, transmission.h, transmission_interface.h | TransModel; TransSpec; TransProofs, TransHandle, TransExact, TransDouble, TransRound, TransRows, TransMake, TransFrame, RowSpec; PropsTrans, PropsMake, PropsRound |
| loading transmissions | transmission_parser.cpp, transmission_loader.cpp, the three transmission loaders, the interface providers, transmission_interface_loader.{h,cpp} | ParseModel, LoadModel; LoadSpec; ParseProofs, LoadProofs, LoadMain, LoadSep, LoadVars, LoadKept; PropsLoad |
| control loop | the read/limit/write loop of both mainpage.dox files, on the limit handles and transmission interfaces above | LoopModel; LoopSpec, SendSpec, FollowSpec; LoopProofs, LoopLimits, SendProofs, FollowProofs; PropsLoop, PropsSend, PropsFollow |
| interleaved manager | controller_manager.cpp: the two threads, one access per step, with the full state of the sequential manager | FineModel; FineSpec (atomic object, histories); FineBase, FineRel, FineLoop, FineManage, FineLock, FineSwitch, FineMain; PropsFine; FineAccess (which members each step reads and writes), FineFrame, FineWait; PropsFineRace; FineProgress; PropsFineProgress |
| joints of a robot | updateJointInterfaces of the interface providers, on the interface managers of the hardware model | JointHwModel; JointHwSpec; JointHwProofs; PropsJoint |
| command line | controller_manager_interface.py, scripts controller_manager, spawner, unspawner, controller_group | ScriptModel, SpawnModel (spawner's start-up and threads), CliModel and GroupModel (command words and messages); ScriptSpec, CliSpec, GroupSpec, TalkSpec; ScriptProofs, ScriptMain, ScriptConflict, ScriptRun, SpawnProofs, CliProofs, GroupProofs, TalkProofs; PropsScript, PropsSpawn, PropsCli, PropsGroup, PropsTalk |
| Python helpers | controller_manager_msgs/utils.py | UtilsModel; UtilsSpec; UtilsProofs; PropsUtils |
| graphical plugin | rqt_controller_manager: update_combo.py; controller_manager.py without drawing, as a machine driven by timers and user input | RqtModel; RqtSpec; RqtProofs, RqtMenu; PropsRqt |

## Method

* **Manager**: `step : cm -> op -> cm * list event * answer`; a history is a list of operations.  Everything the
  environment decides (times, hardware answers, prepareSwitch, conflict checks other than the default one, controller
  initialisation, plugin construction, `ros::ok()`) is a payload of the operations, so a theorem about all histories covers all
  behaviours of that code.  Properties are statements about the event trace (callbacks and hook calls), the answers and the
  reported list; the invariants are proved by induction over the history.
* **Threads**: the same code at the granularity of single accesses to the shared variables; a theorem ranges over all
  interleavings of the control loop with one lock holder (the lock holders exclude each other).
* **Whole robot**: `sys_step` runs the manager model with the answers computed by the hardware models; every history of it projects to a history
  of the manager (proved), so the manager theorems apply, and an invariant ties loaded controllers to the init functions they ran.
* **Hardware interfaces, combined robot, parser, Python**: functions over finite maps, trees, strings; characterised
  exactly (iff) by small inductive or first-order specifications.
* **Limits and transmissions**: written once over a dictionary of floating point operations.  The instance `exact` uses
  rational numbers with NaN (axiom free); the instance `double` is IEEE 754 binary64 from Flocq, with NaN, infinities, signed zeros and
  rounding.  Range properties are proved for doubles; algebraic ones (inverse maps, power) for exact numbers, with the
  rounding error bounded where stated (C84).
* **Loader**: an explicit memory, so that aliasing, null pointers and invalid accesses are outcomes of the model.
* **Scripts**: programs over service calls, executed against the manager model; `executes alone` means nobody else calls the manager,
  the hardware reports no failure and no call raises; control cycles happen at any time.
* **Refuted claims**: where the code violates what its documentation or a user would expect, the statement in
  `properties.jsonl` says so ("Known exception (proved reachable)"), a theorem with suffix `_refuted` gives a concrete witness, and the
  positive theorem states the boundary under which the property holds.

## Properties and theorems

| id | property | file | status | theorems |
|---|---|---|---|---|
| C01 | A controller is updated only while it runs | PropsCM.v | proved | `C01_updated_only_while_running` |
| C02 | Each cycle updates exactly the running controllers, once, in load order | PropsCM.v | proved | `C02_cycle_updates_running` |
| C03 | A switch happens in one time step when the hardware is ready | PropsCM.v | proved | `C03_switch_in_one_step` |
| C04 | Resource exclusivity of the running controllers | PropsCM.v | proved | `C04_running_controllers_exclusive`, `C04_any_sound_check` |
| C05 | A refused switch request changes nothing | PropsCM.v | proved | `C05_refused_changes_nothing` |
| C06 | STRICT requests are accepted exactly when everything in them can be done | PropsCM.v | proved | `C06_strict_acceptance` |
| C07 | BEST_EFFORT requests are accepted exactly when no hard conflict exists, and unusable names are ignored | PropsCM.v | proved | `C07_best_effort_acceptance` |
| C08 | starting() and stopping() alternate | PropsCM.v | proved | `C08_callbacks_alternate`, `C08_best_effort_refuted`, `C08_duplicate_name_refuted` |
| C09 | Hardware switching hooks follow the prepare-then-do protocol | PropsCM.v | proved | `C09_hook_protocol`, `C09_hooks_before_callbacks` |
| C10 | Lists given to the hardware hooks are disjoint and accurate | PropsCM.v, PropsSeq.v | proved | `C10_hook_lists`, `C10_do_lists` |
| C11 | Stops precede starts | PropsCM.v | proved | `C11_stops_precede_starts` |
| C12 | A failed or timed out hardware switch starts nothing | PropsCM.v | proved | `C12_failed_switch_aborts`, `C12_nothing_starts_without_done`, `C15_start_asap` |
| C13 | switchController's return value tells whether the controllers were switched | PropsCM.v | proved | `C13_true_reply`, `C13_true_on_error_refuted`, `C13_true_on_shutdown_refuted` |
| C14 | While the hardware is switching, pending controllers wait | PropsCM.v | proved | `C14_waiting_while_ongoing`, `C02_cycle_updates_running` |
| C15 | start_asap starts each controller as soon as its own resources are ready | PropsCM.v | proved | `C15_start_asap` |
| C16 | A request that timed out on the wall clock leaves nothing behind | PropsCM.v | proved | `C16_wall_timeout`, `C16_late_do_switch_refuted` |
| C17 | Loaded names are unique and listed in load order | PropsCM.v | proved | `C17_names_and_order` |
| C18 | Loading adds exactly one controller or nothing | PropsCM.v | proved | `C18_load_exact` |
| C19 | Unloading removes exactly the named, not running controller | PropsCM.v | proved | `C19_unload_exact` |
| C20 | The first registered loader that offers a type constructs it | PropsCM.v | proved | `C20_loader_priority` |
| C21 | Reloading libraries is refused while controllers are loaded, and force_kill leaves the manager empty | PropsCM.v | proved | `C21_reload_refused`, `C21_reload_empty`, `C21_reload_forced`, `C21_never_asserts` |
| C22 | list_controllers reports the true state | PropsCM.v | proved | `C22_list_controllers` |
| C23 | reset_controllers restarts every running controller and changes nothing else | PropsCM.v | proved | `C23_reset_controllers` |
| C24 | The real-time thread never iterates a list that is being modified | PropsRace.v | proved | `C24_iterated_list_is_never_modified`, `C24_committed_lists_are_complete` |
| C25 | List safety at the very first control cycle (known exception) | PropsRace.v | proved | `C25_first_cycle_refuted`, `C24_iterated_list_is_never_modified` |
| C26 | Loads do not wait forever for a live control loop | PropsRace.v | proved | `C26_waits_end` |
| C27 | List safety and shutdown (known exception) | PropsRace.v | proved | `C27_shutdown_refuted`, `C24_iterated_list_is_never_modified` |
| C28 | A controller is never destroyed while it is running | PropsCM.v, PropsRace.v | proved | `C28_not_destroyed_while_running`, `C28_destroyed_only_when_stopped`, `C28_reset_cycle_refuted` |
| C29 | Overlapping switch requests (known exception) | PropsConc.v | proved | `C29_other_callers_harmless_when_idle`, `C29_overlapping_call_cancels_request`, `C29_overlapping_call_refuted` |
| C30 | Named resource registry behaves as a map | PropsHw.v | proved | `C30_get_is_last_registered`, `C30_throws_iff_absent`, `C30_names` |
| C31 | Combining registries keeps every resource, later registries win | PropsHw.v | proved | `C31_concat`, `C31_names` |
| C32 | Getting a handle claims exactly that resource, and only on claiming interfaces | PropsHw.v | proved | `C32_claims`, `C32_get_handle` |
| C33 | Conflict detection is exact for distinct controllers | PropsHw.v | proved | `C33_conflict_exact`, `C33_two_controllers` |
| C34 | A single controller is in conflict exactly when it claims a resource twice | PropsHw.v | proved | `C34_single_controller`, `C34_single_controller_refuted` |
| C35 | Reported claims are exactly those made in the controller's own initialisation | PropsHw.v | proved | `C35_reported_claims`, `C35_success_iff`, `C35_false_iff`, `C35_missing_interface`, `C35_initialized_iff` |
| C36 | Multi-interface controllers see and claim only what they asked for | PropsHw.v | proved | `C36_multi_interface`, `C36_success_iff`, `C36_false_iff` |
| C37 | Interface lookup returns the registered interface or a combination of all of them | PropsHw.v | proved | `C37_lookup`, `C37_lookup_union`, `C37_lookup_single`, `C37_registered`, `C37_sub_manager` |
| C38 | Combined interfaces stay up to date when registration is orderly | PropsHw.v | proved | `C38_stays_up_to_date`, `C38_late_handle_refuted`, `C38_replaced_refuted`, `C38_nested_refuted` |
| C39 | Interface and resource listings are complete | PropsHw.v | proved | `C39_names`, `C39_resources`, `C39_late_handle_refuted` |
| C40 | Combined hardware forwards each claim to exactly the parts that own it | PropsComb.v | proved | `C40_forwarded_list`, `C40_claim_reaches_owner`, `C40_some_part_owns` |
| C41 | Controllers without claim entries are reported to every part, those with only empty entries to none | PropsComb.v | proved | `C41_without_entries`, `C41_empty_entries_refuted` |
| C42 | Combined prepareSwitch asks all parts and fails if one fails | PropsComb.v | proved | `C42_prepare_iff`, `C42_do_switch_all`, `C42_do_matches_prepare` |
| C43 | A refused switch leaves prepared exactly the parts asked before the refusing one | PropsComb.v | proved | `C43_left_prepared`, `C43_first_refuses`, `C43_unprepared_refuted` |
| C44 | Combined hardware always reports the switch as done | PropsComb.v | proved | `C44_report_right_iff`, `C44_delegation_refuted` |
| C45 | Combined init loads parts in order and stops at the first failure | PropsComb.v | proved | `C45_init_iff`, `C45_loaded_in_order`, `C45_read_write_all`, `C45_combined_is_built` |
| C46 | Position saturation keeps commands inside the position limits | PropsLim.v | proved | `C46_inside_limits`, `C46_inside_limits_exact` |
| C47 | Position saturation limits the rate of change | PropsLim.v | proved | `C47_velocity_respected`, `C47_velocity_respected_exact` |
| C48 | Position saturation respects limits from any starting point | PropsLim.v | proved | `C48_any_start`, `C48_any_start_exact`, `C48_refuted`, `C48_velocity_refuted` |
| C49 | Soft position limits never let the command leave the hard limits or exceed the velocity limit | PropsLim.v | proved | `C49_soft_position`, `C49_soft_position_exact`, `C49_stays_in_soft_limits`, `C49_gain_refuted`, `C49_rounding_refuted` |
| C50 | Effort saturation never exceeds the effort limit and never pushes further out | PropsLim.v | proved | `C50_effort`, `C50_effort_exact`, `C50_at_limit_refuted` |
| C51 | Soft effort limits never exceed the effort limit | PropsLim.v | proved | `C51_soft_effort`, `C51_soft_effort_exact` |
| C52 | Velocity saturation bounds velocity and acceleration | PropsLim.v | proved | `C52_velocity`, `C52_velocity_exact` |
| C53 | Soft velocity limits bound the velocity | PropsLim.v, PropsNear.v | proved | `C53_soft_velocity`, `C53_soft_velocity_exact`, `C53_lower_refuted`, `C53_velocity_limit` |
| C54 | Limiters are transparent inside the limits | PropsLim.v | proved | `C54_position_unchanged`, `C54_position_twice`, `C54_velocity_twice`, `C54_effort_twice`, `C54_soft_effort_twice`, `C54_soft_velocity_twice`, `C50_effort`, `C52_velocity`, `C49_soft_position`, `C54_soft_position_refuted` |
| C55 | reset() forgets the command history | PropsLim.v | proved | `C55_saturation_reset`, `C55_soft_reset` |
| C56 | Not-a-number commands do not corrupt later commands | PropsLim.v | proved | `C56_saturation_nan`, `C56_soft_nan`, `C56_velocity_nan`, `C56_nan_passes`, `C56_after_nan_unlimited`, `C56_velocity_refuted` |
| C57 | enforceLimits on an interface limits every registered joint exactly once | PropsLim.v, PropsNear.v | proved | `C57_every_joint_once`, `C57_succeeds`, `C57_reset`, `C57_name_order`, `C57_one_handle`, `C57_last_registered` |
| C58 | Limits from the parameter server overwrite exactly what is specified | PropsLim.v | proved | `C58_limits`, `C58_nothing_there`, `C58_soft`, `C58_soft_mixed_refuted` |
| C59 | Limits from the URDF overwrite exactly what is specified | PropsLim.v | proved | `C59_limits`, `C59_no_limits`, `C59_soft`, `C59_acceleration_refuted` |
| C60 | Simple transmission maps are mutually inverse | PropsTrans.v | proved | `C60_simple_inverse` |
| C61 | Differential transmission maps are mutually inverse | PropsTrans.v | proved | `C61_differential_inverse` |
| C62 | Four-bar-linkage transmission maps are mutually inverse | PropsTrans.v | proved | `C62_four_bar_inverse` |
| C63 | Transmissions conserve power | PropsTrans.v | proved | `C63_power_conserved`, `C63_power_four_bar`, `C63_power_four_bar_refuted` |
| C64 | Position and velocity maps are consistent | PropsTrans.v | proved | `C64_position_velocity` |
| C65 | Constructed transmissions never divide by zero | PropsTrans.v | proved | `C65_constructors`, `C65_no_division_by_zero`, `C65_no_division_by_zero_double`, `C65_four_bar_double_refuted` |
| C66 | A constructed transmission handle can be propagated safely | PropsTrans.v | proved | `C66_propagate_outcome`, `C66_propagate_refuted`, `doubling_exact`, `doubling_double` |
| C67 | Propagation writes only the target side and touches nothing else | PropsTrans.v | proved | `C67_propagate_frame`, `C67_interface_frame`, `doubling_exact`, `doubling_double`, `C67_registered` |
| C68 | Parameters of a transmission are assigned by role, whatever the order of the description | PropsLoad.v | proved | `C68_order_irrelevant`, `C68_by_role`, `C68_order_matters_refuted` |
| C69 | A failing load of several transmissions leaves exactly the ones before the failing one | PropsLoad.v | proved | `C69_prefix`, `C69_failed_load`, `C69_all_or_nothing_refuted` |
| C70 | The transmission parser returns exactly the complete descriptions, in document order | PropsLoad.v | proved | `C70_parse`, `C70_descriptions_unique`, `C70_complete`, `C70_nothing_found`, `C70_any_root_refuted` |
| C71 | Controller list filters return exactly the matching controllers | PropsUtils.v | proved | `C71_attributes`, `C71_hardware_interface`, `C71_resources`, `C71_no_resources_refuted`, `C71_no_resources` |
| C72 | The spawner brings its controllers up and down again | PropsScript.v | proved | `C72_spawner`, `C72_shutdown`, `C72_shutdown_complete`, `C72_round_trip`, `C72_partly_running_refuted`, `C72_spawner_conflict` |
| C73 | Switching to a controller group leaves exactly that group running | PropsScript.v | proved | `C73_switch_group`, `C73_spawn_group`, `C73_spawn_loads_all_refuted`, `C73_switch_conflict` |
| C74 | Controller configurations are discovered exactly | PropsUtils.v | proved | `C74_names`, `C74_prefix` |
| C75 | Controller manager discovery returns exactly the live managers | PropsUtils.v | proved | `C75_complete`, `C75_sound`, `C75_ordered`, `C75_no_duplicates`, `C75_stable`, `C75_unreachable`, `C75_lister`, `C75_duplicates_refuted`, `C75_nested_refuted`, `C75_stale_refuted` |
| C76 | Callbacks only reach loaded controllers | PropsCM.v | proved | `C76_callbacks_only_on_loaded`, `C76_abandoned_request_refuted` |
| C77 | The deadline ends every request | PropsCM.v | proved | `C77_deadline_ends_request` |
| C78 | list_controller_types lists what the loaders offer | PropsCM.v | proved | `C78_list_types` |
| C79 | Each accepted request switches a controller at most once | PropsSeq.v | proved | `C79_at_most_once`, `C79_both_lists`, `C79_stop_start_every_cycle_refuted` |
| C80 | Request lists are not modified while the control loop walks them | PropsRace.v | proved | `C80_requests_not_modified_while_walked`, `C80_wall_timeout_refuted` |
| C81 | A joint following the soft velocity limiter stays inside the soft limits | PropsLim.v | proved | `C81_follows_inside`, `C81_follows_inside_exact` |
| C82 | Each transmission map needs only its own vectors | PropsTrans.v | proved | `C82_own_vectors`, `C82_differential_absolute_refuted` |
| C83 | Transmission maps compute the documented formulas | PropsMake.v, PropsTrans.v | proved | `C83_joint_formulas`, `C83_actuator_formulas`, `C83_simple_parameters`, `C83_differential_parameters`, `C83_four_bar_parameters` |
| C84 | Round trips through a simple transmission lose almost nothing with doubles | PropsTrans.v | proved | `C84_simple_round_trip_double`, `C84_underflow_refuted` |
| C85 | A transmission that cannot be loaded leaves no trace | PropsLoad.v | proved | `C85_load`, `C85_own_interface_refuted`, `C85_textless_refuted` |
| C86 | What has been loaded can be propagated, and transmissions do not disturb each other | PropsLoad.v | proved | `C86_propagate`, `C86_propagate_exact`, `C86_separate`, `C86_flags_refuted` |
| C87 | Loaded transmissions connect the described actuators and joints of the robot | PropsLoad.v | proved | `C87_only_described`, `C87_all_described`, `C87_same_name_refuted` |
| C88 | Reloading the libraries with --restore restores the controllers | PropsScript.v | proved | `C88_restore`, `C88_restore_all`, `C88_refused_reload_refuted` |
| C89 | controller_manager spawn and kill concern exactly the named controllers | PropsScript.v | proved | `C89_spawn`, `C89_kill`, `C89_spawn_conflict`, `C89_kill_complete` |
| C90 | The unspawner inhibits controllers and brings back what it found | PropsScript.v | proved | `C90_inhibits`, `C90_round_trip`, `C90_refused_stop_refuted`, `C90_inhibits_complete` |
| C91 | The exact course of a switching cycle | PropsSeq.v | proved | `C91_exact_cycle` |
| C92 | How long a switch request waits | PropsSeq.v | proved | `C92_wait_loop` |
| C93 | A handle constructor accepts exactly complete storage | PropsHandle.v | proved | `C93_null_refused`, `C93_sensors_unchecked_refuted` |
| C94 | No access through a null pointer | PropsHandle.v | proved | `C94_no_null_access`, `C94_default_state_handle_refuted` |
| C95 | Handles are views of storage | PropsHandle.v | proved | `C95_program_meaning`, `C95_last_write` |
| C96 | A combined command arrives complete | PropsHandle.v | proved | `C96_command_round_trip`, `C96_shared_cell_refuted` |
| C97 | Joint modes survive the round trip and have distinct names | PropsHandle.v | proved | `C97_mode_round_trip`, `C97_mode_names` |
| C98 | Which interfaces protect their resources | PropsHandle.v | proved | `C98_who_claims`, `C98_joint_conflict`, `C98_actuators_unprotected_refuted` |
| C99 | Every limiter writes the permitted command nearest to the one given | PropsNear.v | proved | `C99_position`, `C99_soft_position`, `C99_effort`, `C99_soft_effort`, `C99_velocity`, `C99_soft_velocity`, `C99_position_exact`, `C99_soft_position_exact`, `C99_effort_exact`, `C99_soft_effort_exact`, `C99_velocity_exact`, `C99_soft_velocity_exact`, `C99_nearest_unique` |
| C100 | When a limiter refuses | PropsNear.v | proved | `C100_constructors`, `C100_soft_position_period`, `C100_velocity_period` |
| C101 | What a transmission handle accepts and holds | PropsMake.v | proved | `C101_accepts`, `C101_holds`, `C101_torque_sensors_refuted` |
| C102 | The list of managers in the graphical plugin follows the system and keeps the selection | PropsRqt.v | proved | `C102_update_combo`, `C102_managers`, `C102_restored` |
| C103 | Menu actions reach the manager whose row was clicked | PropsRqt.v | proved | `C103_connected`, `C103_services`, `C103_right_manager`, `C103_stale_rows_refuted` |
| C104 | The rows of the graphical plugin: loaded controllers, then configured ones | PropsRqt.v | proved | `C104_rows`, `C104_refresh`, `C104_selected`, `C104_raises`, `C104_unreachable_refuted` |
| C105 | The entries of the context menu do what they say | PropsRqt.v | proved | `C105_menu`, `C105_click`, `C105_obeyed`, `C105_entries` |
| C106 | States the graphical plugin can display | PropsRqt.v | proved | `C106_icons`, `C106_no_icon_refuted` |
| C107 | Loaded joints have variables of their own and appear exactly where described | PropsLoad.v | proved | `C107_joints`, `C107_own_variables`, `C107_effects` |
| C108 | Propagation writes target variables only, whatever it is given | PropsLoad.v | proved | `C108_frame` |
| C109 | Pointer accessors agree with the values; sensors hand out what they were given | PropsHandle.v | proved | `C109_pointers`, `C109_sensors` |
| C110 | Parts of a robot switch only what they agreed to, and all of them switch | PropsSys.v | proved | `C110_part_protocol`, `C110_every_part_switches`, `C110_every_part_asked`, `C110_accepted` |
| C111 | On a combined robot every accepted switch completes in the next cycle | PropsSys.v | proved | `C111_one_cycle`, `C111_exact_course`, `C111_never_waits`, `C111_part_not_ready_refuted` |
| C112 | Controllers that command the same resource never run together, end to end | PropsSys.v | proved | `C112_running_exclusive`, `C112_one_request` |
| C113 | A strict switch request on a robot is accepted exactly when | PropsSys.v | proved | `C113_accepted_iff` |
| C114 | Every commanded resource is reported to a part that has it | PropsSys.v | proved | `C114_owner_told`, `C114_only_own` |
| C115 | A controller loads exactly when the robot has what it needs | PropsSys.v | proved | `C115_load_iff`, `C115_load_effect` |
| C116 | Joints created by transmissions are usable, but the robot does not list them | PropsJoint.v | proved | `C116_joints_there`, `C116_not_listed_refuted`, `C116_not_told_refuted`, `C116_switched_unseen_refuted` |
| C117 | Transmissions live as long as the loader | PropsLoad.v | proved | `C117_kept`, `C117_exact`, `C117_not_dropped` |
| C118 | Joints show what the flags of their data say | PropsLoad.v | proved | `C118_flags` |
| C119 | A robot description loads exactly when each of its transmissions does | PropsLoad.v | proved | `C119_document`, `C119_malformed`, `C119_no_root_refuted` |
| C120 | A control cycle uses the controller list that was current when it began | PropsRace.v | proved | `C120_current_list` |
| C121 | A spawner shut down at any moment takes down what it knows to have loaded | PropsSpawn.v | proved | `C121_list`, `C121_while_loading`, `C121_after_starting`, `C121_left_behind_refuted`, `C121_start_overtakes_refuted`, `C121_without_shutdown` |
| C122 | The spawner sends no request before the services are there and the topic said True | PropsSpawn.v | proved | `C122_waits`, `C122_no_request_before`, `C122_controllers`, `C122_no_timeout_refuted`, `C122_services` |
| C123 | In the documented read/limit/write loop the limits hold at the actuators | PropsLoop.v | proved | `C123_saturation`, `C123_soft`, `C123_reducer_moves`, `C123_differential_moves_refuted` |
| C124 | Whatever the interleaving, control cycles and service calls take effect one at a time | PropsFine.v | proved | `C124_takes_effect_at_one_moment`, `C124_no_undefined_behaviour`, `C124_one_sequence`, `C124_first_cycle_refuted`, `C124_shutdown_refuted`, `C124_wall_timeout_refuted`, `C124_reset_cycle_refuted` |
| C125 | What the control loop and the service calls share without a lock | PropsFineRace.v | proved | `C125_raced_locations`, `C125_loop_writes`, `C125_lock_writes`, `C125_loop_reads`, `C125_lock_reads`, `C125_list_index_refuted`, `C125_used_index_refuted`, `C125_switch_flag_refuted`, `C125_state_refuted`, `C125_loaders_refuted` |
| C126 | update() never waits for a service call | PropsFineRace.v | proved | `C126_never_waits`, `C126_bounded`, `C126_other_thread_stopped` |
| C127 | Service calls make progress and wait only for the control loop | PropsFineProgress.v | proved | `C127_accepted`, `C127_never_stuck`, `C127_waits_only_for`, `C127_waiting`, `C127_released_by_next_cycle`, `C127_bounded` |
| C128 | The listing services report the controllers of the robot, what they command and whether they run | PropsSys.v | proved | `C128_list_controllers`, `C128_list_types`, `C128_change_nothing` |
| C129 | Every transmission map is accurate with doubles | PropsRound.v | proved | `C129_to_joint_accurate`, `C129_to_actuator_accurate` |
| C130 | Round trips through every transmission lose little with doubles | PropsRound.v | proved | `C130_actuator_round_trip`, `C130_joint_round_trip`, `C130_differential_velocity_bound`, `C130_exact_refuted` |
| C131 | Limiters lead a joint back inside its limits | PropsBack.v | proved | `C131_soft_position`, `C131_soft_position_returns`, `C131_soft_velocity`, `C131_position`, `C131_never_further_out`, `C131_never_further_out_exact`, `C131_stall_refuted` |
| C132 | The tool controller_manager does what its command word says and reports truthfully | PropsCli.v | proved | `C132_load`, `C132_unload`, `C132_start`, `C132_stop`, `C132_spawn`, `C132_kill`, `C132_list`, `C132_reload`, `C132_restored_refuted`, `C132_usage`, `C132_types`, `C132_exit_status` |
| C133 | controller_group says truly what it has done | PropsGroup.v | proved | `C133_list`, `C133_switch`, `C133_no_bad_news`, `C133_bad_news`, `C133_unknown_states`, `C133_initialized_refuted`, `C133_spawn` |
| C134 | The command line tools send no other requests than their names promise, whatever happens | PropsTalk.v | proved | `C134_real`, `C134_spawn`, `C134_kill`, `C134_spawner`, `C134_shutdown`, `C134_unspawner`, `C134_unspawner_own`, `C134_group_switch`, `C134_restore` |
| C135 | Velocity and effort limits hold at the actuators too | PropsSend.v | proved | `C135_velocity`, `C135_velocity_soft`, `C135_effort`, `C135_effort_soft` |
| C136 | Actuators that follow limited velocity commands keep the joints inside the soft limits | PropsFollow.v | proved | `C136_velocity_soft`, `C136_acceleration_refuted` |

## Findings (defects and surprises of the code, each a theorem)

* Controller manager: a BEST_EFFORT request naming a running controller for start restarts it without stopping() (C08); a name given
  twice is started twice (C08); the call returns true on hardware error and on shutdown (C13); after a wall clock timeout
  before the first cycle doSwitch is still called (C16); a request abandoned at shutdown leaves dangling pointers to controllers (C76);
  BEST_EFFORT + start_asap stops and starts a controller named in both lists in
  every cycle, for any number of cycles (C79).
* Threads: list modified under iteration at the first cycle (C25) and at shutdown (C27); running controller destroyed by an unload during a
  reset cycle (C28); a second direct caller cancels a waiting request, whose caller is told "true" (C29); request vectors cleared while
  walked, on wall clock timeout (C80).
* Hardware interfaces: a single controller can conflict with itself (C34); stale combined interfaces, three ways (C38); handles
  registered after their interface are missing in the listing (C39).
* Handles: sensor handles accept null storage (C93); a command handle built from a default state handle is accepted and fails only when read
  (C94); actuator command interfaces record no claims, so two controllers on one actuator never conflict (C98).
* Combined robot: controllers that claim nothing through read-only interfaces are reported to no part (C41); no roll-back of prepareSwitch (C43);
  switchResult not delegated (C44), so controllers start while a part reports ONGOING or ERROR (C111).
* Limits: C48 (commands outside the limits when starting outside; velocity limit exceeded), C49 (gain above one, rounding), C50
  (pushing outwards exactly at the limit), C53, C54, C56 (first command after NaN unlimited), C58, C59, C131 (the way back to a soft limit stops short of it because of rounding).
* Transmissions: four-bar linkage does not conserve power (C63); accepted four-bar linkages can divide by zero after underflow (C65); handle
  constructor checks the absolute positions twice and the torque sensors never (C66); differential absolute-position map asserts on the wrong
  vector (C82); three misprints in the documentation of differential_transmission.h (lines 59, 71, 81; C83).  Through a differential, joints can leave their limits between two
  positions inside them if the actuators are not synchronised (C123).
* Loader: order dependence and partial loads (C68, C69, C70, C85-C87); joints created by transmissions are missing in the resource listing, so a part of a
  combined robot is not told of controllers that claim them (C116).
* Scripts: spawner leaves controllers running or loaded when its requests are refused (C72); help text of `controller_group spawn` (C73); `controller_group switch` reports loaded, never started controllers as being in an unknown state (C133);
  refused reload / refused stop followed by a second starting() of running controllers (C88, C90);
  a spawner shut down while loading or starting leaves controllers behind, even running ones (C121); `--no-timeout` with `--wait-for` raises a
  TypeError in Python 3 (spawner:170 compares with None; C122); the tool `controller_manager` exits with 0 whatever fails, and prints "Controllers
  restored to original state" also if they are not (C132).
* Python helpers: filter_by_resources with an empty list raises UnboundLocalError (C71); discovery lists duplicates, misses nested and keeps
  stale managers (C75).
* Graphical plugin: rows of one manager with the service proxies of another after a failed refresh, so that actions go to the wrong manager (C103); a manager that
  does not answer is shown with all its controllers uninitialized (C104); waiting and aborted controllers raise KeyError when drawn and have no menu (C106).

## Trusted base

* Coq's kernel (8.16.1) including `vm_compute`; the Coq standard library and Flocq (definitions and proved lemmas; axioms below).
* The transcription of the C++/Python code into the `*Model.v` files: the theorems are about the model.
* C++ semantics assumed: sequential consistency in the thread models (the C++ variables are plain, so the interleavings modelled are the best case; a
  data race found there is one in C++ too; C125 names all raced variables, so with those made atomic sequential consistency would be what C++ guarantees); for doubles IEEE 754 binary64 with round-to-nearest, no `-ffast-math`, no contraction to FMA, no x87
  extended precision; `std::min/max` as in the standard; `ros::Duration::toSec()` is the given double.
* External libraries, from their documentation: `ros::NodeHandle::getParam/hasParam`, `ros::ok`, pluginlib, TinyXML (the parser works on
  element trees; writing an element to text and parsing it again is the identity), `std::stod` (an oracle), urdf, rosgraph `make_global_ns`,
  `rosparam.list_params`, rosservice; QComboBox and QMenu of Qt (selection, signals, modality).
* Assertions are outcomes of their own; with NDEBUG an `Assertion` outcome is an invalid access.

### Axioms

Every other theorem named in MANIFEST.json is *closed under the global context* (no axiom at all).  These 52 theorems are about IEEE 754 doubles through Flocq and the standard library's reals; `Print Assumptions` lists for each of them exactly these four axioms of the Coq standard library:

* `ClassicalDedekindReals.sig_forall_dec`
* `ClassicalDedekindReals.sig_not_dec`
* `Classical_Prop.classic`
* `FunctionalExtensionality.functional_extensionality_dep`

The theorems: `C46_inside_limits`, `C47_velocity_respected`, `C48_any_start`, `C48_refuted`, `C48_velocity_refuted`, `C49_soft_position`, `C49_stays_in_soft_limits`, `C49_gain_refuted`, `C49_rounding_refuted`, `C50_effort`, `C50_at_limit_refuted`, `C51_soft_effort`, `C52_velocity`, `C53_soft_velocity`, `C53_lower_refuted`, `C53_velocity_limit`, `C54_position_unchanged`, `C54_position_twice`, `C54_velocity_twice`, `C54_effort_twice`, `C54_soft_effort_twice`, `C54_soft_velocity_twice`, `C54_soft_position_refuted`, `C55_saturation_reset`, `C55_soft_reset`, `C56_saturation_nan`, `C56_soft_nan`, `C56_velocity_nan`, `C56_nan_passes`, `C56_after_nan_unlimited`, `C56_velocity_refuted`, `C65_no_division_by_zero_double`, `C65_four_bar_double_refuted`, `doubling_double`, `C81_follows_inside`, `C84_simple_round_trip_double`, `C84_underflow_refuted`, `C99_position`, `C99_soft_position`, `C99_effort`, `C99_soft_effort`, `C99_velocity`, `C99_soft_velocity`, `C99_nearest_unique`, `C129_to_joint_accurate`, `C129_to_actuator_accurate`, `C130_actuator_round_trip`, `C130_joint_round_trip`, `C130_differential_velocity_bound`, `C130_exact_refuted`, `C131_never_further_out`, `C131_stall_refuted`.

No theorem uses an axiom of any other library; nothing is assumed by this development itself.  (The build also loads, without any theorem
depending on them, the sealed constants of `Coq.Reals.Rdefinitions` and `Coq.ssr.ssrunder`, which are implementation details of these libraries'
module types.)

## Modelled simplifications

* The control loop of LoopModel.v is the one shown in the documentation; reading and motion of the hardware are covered for position commands (C123) and, with ideal actuators, for velocity commands (C136), the write also for effort commands (C135); its theorems use exact arithmetic.
* Manager model: load, unload, listings and the two ends of a switch are atomic with respect to control cycles. This is justified by the refinement theorem C124 (FineModel.v interleaves single accesses), and fails at the edges named by C25, C27, C28, C80;
  times are integers (nanoseconds); log output, diagnostics and the services' ROS transport are not modelled; callbacks cannot change the manager's own data.
* Interface managers form a tree (a manager registered with two parents, or with itself, is not modelled); type names stand for C++ types.  C38's
  positive theorem assumes orderly registration (`built`), which is spelled out in its statement.
* Initialisation bodies of controllers are arbitrary sequences of getHandle calls with arbitrary results; they do not register interfaces.
* Whole robot: the init functions of a `Controller<T>` use the interface they are given and no other; the copy of a part's manager kept in the list of parts
  has the registrations but not the combined interfaces cached later (filterControllerList does not read those).
* Transmission loader: no nested interface managers on the robot; third-party transmission types are not modelled.
* Scripts: sleeping, printing and argument parsing are left out (printing and command words of the tool controller_manager are in, C132), and waiting for services except in the spawner (C122); a call may raise at any time (then
  nothing is claimed).  rospy sets its shutdown flag before it runs the hook, in any thread (C121).

## Not modelled

The drawing of rqt_controller_manager (widgets, info popup, header menu), the test packages, demangling, controller and robot plugins themselves.
