{
 "claims": [
  {
   "property": "C01",
   "status": "proved",
   "theorems": [
    "C01_updated_only_while_running"
   ],
   "note": ""
  },
  {
   "property": "C02",
   "status": "proved",
   "theorems": [
    "C02_cycle_updates_running"
   ],
   "note": ""
  },
  {
   "property": "C03",
   "status": "proved",
   "theorems": [
    "C03_switch_in_one_step"
   ],
   "note": "Histories in which no earlier call left the wait loop through ros::ok() turning false inside the loop body (no_abandoned), see C76."
  },
  {
   "property": "C04",
   "status": "proved",
   "theorems": [
    "C04_running_controllers_exclusive",
    "C04_any_sound_check"
   ],
   "note": "At every prefix of the trace. Under no_abandoned."
  },
  {
   "property": "C05",
   "status": "proved",
   "theorems": [
    "C05_refused_changes_nothing"
   ],
   "note": "Later cycles: as long as no new request is made. Under no_abandoned."
  },
  {
   "property": "C06",
   "status": "proved",
   "theorems": [
    "C06_strict_acceptance"
   ],
   "note": ""
  },
  {
   "property": "C07",
   "status": "proved",
   "theorems": [
    "C07_best_effort_acceptance"
   ],
   "note": ""
  },
  {
   "property": "C08",
   "status": "proved",
   "theorems": [
    "C08_callbacks_alternate",
    "C08_best_effort_refuted",
    "C08_duplicate_name_refuted"
   ],
   "note": "Unconditional form refuted; the statement carries the exact exceptions."
  },
  {
   "property": "C09",
   "status": "proved",
   "theorems": [
    "C09_hook_protocol",
    "C09_hooks_before_callbacks"
   ],
   "note": "The clause about callbacks excludes reset cycles, whose restarts belong to no request."
  },
  {
   "property": "C10",
   "status": "proved",
   "theorems": [
    "C10_hook_lists",
    "C10_do_lists"
   ],
   "note": ""
  },
  {
   "property": "C11",
   "status": "proved",
   "theorems": [
    "C11_stops_precede_starts"
   ],
   "note": "Cycles without reset; with reset the restarts come first (C23)."
  },
  {
   "property": "C12",
   "status": "proved",
   "theorems": [
    "C12_failed_switch_aborts",
    "C12_nothing_starts_without_done",
    "C15_start_asap"
   ],
   "note": "start_asap case: C15."
  },
  {
   "property": "C13",
   "status": "proved",
   "theorems": [
    "C13_true_reply",
    "C13_true_on_error_refuted",
    "C13_true_on_shutdown_refuted"
   ],
   "note": "Unconditional form refuted."
  },
  {
   "property": "C14",
   "status": "proved",
   "theorems": [
    "C14_waiting_while_ongoing",
    "C02_cycle_updates_running"
   ],
   "note": ""
  },
  {
   "property": "C15",
   "status": "proved",
   "theorems": [
    "C15_start_asap"
   ],
   "note": ""
  },
  {
   "property": "C16",
   "status": "proved",
   "theorems": [
    "C16_wall_timeout",
    "C16_late_do_switch_refuted"
   ],
   "note": "Unconditional form refuted."
  },
  {
   "property": "C17",
   "status": "proved",
   "theorems": [
    "C17_names_and_order"
   ],
   "note": ""
  },
  {
   "property": "C18",
   "status": "proved",
   "theorems": [
    "C18_load_exact"
   ],
   "note": "Loaders declare no class twice."
  },
  {
   "property": "C19",
   "status": "proved",
   "theorems": [
    "C19_unload_exact"
   ],
   "note": ""
  },
  {
   "property": "C20",
   "status": "proved",
   "theorems": [
    "C20_loader_priority"
   ],
   "note": ""
  },
  {
   "property": "C21",
   "status": "proved",
   "theorems": [
    "C21_reload_refused",
    "C21_reload_empty",
    "C21_reload_forced",
    "C21_never_asserts"
   ],
   "note": ""
  },
  {
   "property": "C22",
   "status": "proved",
   "theorems": [
    "C22_list_controllers"
   ],
   "note": ""
  },
  {
   "property": "C23",
   "status": "proved",
   "theorems": [
    "C23_reset_controllers"
   ],
   "note": ""
  },
  {
   "property": "C24",
   "status": "proved",
   "theorems": [
    "C24_iterated_list_is_never_modified",
    "C24_committed_lists_are_complete"
   ],
   "note": "Sequential consistency is assumed (the C++ variables are not atomic)."
  },
  {
   "property": "C25",
   "status": "proved",
   "theorems": [
    "C25_first_cycle_refuted",
    "C24_iterated_list_is_never_modified"
   ],
   "note": "Unconditional form refuted by a witness schedule; the hypothesis under which it holds is in C24."
  },
  {
   "property": "C26",
   "status": "proved",
   "theorems": [
    "C26_waits_end"
   ],
   "note": ""
  },
  {
   "property": "C27",
   "status": "proved",
   "theorems": [
    "C27_shutdown_refuted",
    "C24_iterated_list_is_never_modified"
   ],
   "note": "Unconditional form refuted by a witness schedule; the hypothesis under which it holds is in C24."
  },
  {
   "property": "C28",
   "status": "proved",
   "theorems": [
    "C28_not_destroyed_while_running",
    "C28_destroyed_only_when_stopped",
    "C28_reset_cycle_refuted"
   ],
   "note": "Unconditional form refuted by a witness schedule with a reset cycle."
  },
  {
   "property": "C29",
   "status": "proved",
   "theorems": [
    "C29_other_callers_harmless_when_idle",
    "C29_overlapping_call_cancels_request",
    "C29_overlapping_call_refuted"
   ],
   "note": "Unconditional form refuted: the parameters are reset before the lock is taken."
  },
  {
   "property": "C30",
   "status": "proved",
   "theorems": [
    "C30_get_is_last_registered",
    "C30_throws_iff_absent",
    "C30_names"
   ],
   "note": ""
  },
  {
   "property": "C31",
   "status": "proved",
   "theorems": [
    "C31_concat",
    "C31_names"
   ],
   "note": ""
  },
  {
   "property": "C32",
   "status": "proved",
   "theorems": [
    "C32_claims",
    "C32_get_handle"
   ],
   "note": ""
  },
  {
   "property": "C33",
   "status": "proved",
   "theorems": [
    "C33_conflict_exact",
    "C33_two_controllers"
   ],
   "note": ""
  },
  {
   "property": "C34",
   "status": "proved",
   "theorems": [
    "C34_single_controller",
    "C34_single_controller_refuted"
   ],
   "note": "Documented form (never in conflict) refuted."
  },
  {
   "property": "C35",
   "status": "proved",
   "theorems": [
    "C35_reported_claims",
    "C35_success_iff",
    "C35_false_iff",
    "C35_missing_interface",
    "C35_initialized_iff"
   ],
   "note": "init bodies are sequences of getHandle calls; both init overloads are modelled"
  },
  {
   "property": "C36",
   "status": "proved",
   "theorems": [
    "C36_multi_interface",
    "C36_success_iff",
    "C36_false_iff"
   ],
   "note": ""
  },
  {
   "property": "C37",
   "status": "proved",
   "theorems": [
    "C37_lookup",
    "C37_lookup_union",
    "C37_lookup_single",
    "C37_registered",
    "C37_sub_manager"
   ],
   "note": ""
  },
  {
   "property": "C38",
   "status": "proved",
   "theorems": [
    "C38_stays_up_to_date",
    "C38_late_handle_refuted",
    "C38_replaced_refuted",
    "C38_nested_refuted"
   ],
   "note": "Unconditional form refuted."
  },
  {
   "property": "C39",
   "status": "proved",
   "theorems": [
    "C39_names",
    "C39_resources",
    "C39_late_handle_refuted"
   ],
   "note": "Unconditional form refuted for late handles."
  },
  {
   "property": "C40",
   "status": "proved",
   "theorems": [
    "C40_forwarded_list",
    "C40_claim_reaches_owner",
    "C40_some_part_owns"
   ],
   "note": ""
  },
  {
   "property": "C41",
   "status": "proved",
   "theorems": [
    "C41_without_entries",
    "C41_empty_entries_refuted"
   ],
   "note": "Unconditional form refuted."
  },
  {
   "property": "C42",
   "status": "proved",
   "theorems": [
    "C42_prepare_iff",
    "C42_do_switch_all",
    "C42_do_matches_prepare"
   ],
   "note": ""
  },
  {
   "property": "C43",
   "status": "proved",
   "theorems": [
    "C43_left_prepared",
    "C43_first_refuses",
    "C43_unprepared_refuted"
   ],
   "note": "Unconditional form refuted."
  },
  {
   "property": "C44",
   "status": "proved",
   "theorems": [
    "C44_report_right_iff",
    "C44_delegation_refuted"
   ],
   "note": "Delegation refuted: the method is not overridden."
  },
  {
   "property": "C45",
   "status": "proved",
   "theorems": [
    "C45_init_iff",
    "C45_loaded_in_order",
    "C45_read_write_all",
    "C45_combined_is_built"
   ],
   "note": ""
  },
  {
   "property": "C46",
   "status": "proved",
   "theorems": [
    "C46_inside_limits",
    "C46_inside_limits_exact"
   ],
   "note": "Doubles and exact rationals."
  },
  {
   "property": "C47",
   "status": "proved",
   "theorems": [
    "C47_velocity_respected",
    "C47_velocity_respected_exact"
   ],
   "note": "Doubles and exact rationals."
  },
  {
   "property": "C48",
   "status": "proved",
   "theorems": [
    "C48_any_start",
    "C48_any_start_exact",
    "C48_refuted",
    "C48_velocity_refuted"
   ],
   "note": "Unconditional form refuted (both exceptions have witnesses)."
  },
  {
   "property": "C49",
   "status": "proved",
   "theorems": [
    "C49_soft_position",
    "C49_soft_position_exact",
    "C49_stays_in_soft_limits",
    "C49_gain_refuted",
    "C49_rounding_refuted"
   ],
   "note": "Unconditional form refuted: needs k_position*period below one."
  },
  {
   "property": "C50",
   "status": "proved",
   "theorems": [
    "C50_effort",
    "C50_effort_exact",
    "C50_at_limit_refuted"
   ],
   "note": "Strictly beyond the limit; the form \"at or beyond\" is refuted."
  },
  {
   "property": "C51",
   "status": "proved",
   "theorems": [
    "C51_soft_effort",
    "C51_soft_effort_exact"
   ],
   "note": ""
  },
  {
   "property": "C52",
   "status": "proved",
   "theorems": [
    "C52_velocity",
    "C52_velocity_exact"
   ],
   "note": ""
  },
  {
   "property": "C53",
   "status": "proved",
   "theorems": [
    "C53_soft_velocity",
    "C53_soft_velocity_exact",
    "C53_lower_refuted",
    "C53_velocity_limit"
   ],
   "note": "Unconditional form refuted at the lower soft limit with acceleration limits."
  },
  {
   "property": "C54",
   "status": "proved",
   "theorems": [
    "C54_position_unchanged",
    "C54_position_twice",
    "C54_velocity_twice",
    "C54_effort_twice",
    "C54_soft_effort_twice",
    "C54_soft_velocity_twice",
    "C50_effort",
    "C52_velocity",
    "C49_soft_position",
    "C54_soft_position_refuted"
   ],
   "note": "Soft position limiter: repeated enforcement refuted."
  },
  {
   "property": "C55",
   "status": "proved",
   "theorems": [
    "C55_saturation_reset",
    "C55_soft_reset"
   ],
   "note": ""
  },
  {
   "property": "C56",
   "status": "proved",
   "theorems": [
    "C56_saturation_nan",
    "C56_soft_nan",
    "C56_velocity_nan",
    "C56_nan_passes",
    "C56_after_nan_unlimited",
    "C56_velocity_refuted"
   ],
   "note": "Unconditional form refuted for the velocity limiter with acceleration limits."
  },
  {
   "property": "C57",
   "status": "proved",
   "theorems": [
    "C57_every_joint_once",
    "C57_succeeds",
    "C57_reset",
    "C57_name_order",
    "C57_one_handle",
    "C57_last_registered"
   ],
   "note": "Handles pointing to different joints."
  },
  {
   "property": "C58",
   "status": "proved",
   "theorems": [
    "C58_limits",
    "C58_nothing_there",
    "C58_soft",
    "C58_soft_mixed_refuted"
   ],
   "note": "All-or-nothing soft limits refuted for parameters of the wrong type."
  },
  {
   "property": "C59",
   "status": "proved",
   "theorems": [
    "C59_limits",
    "C59_no_limits",
    "C59_soft",
    "C59_acceleration_refuted"
   ],
   "note": "Unconditional form refuted for the acceleration flag."
  },
  {
   "property": "C60",
   "status": "proved",
   "theorems": [
    "C60_simple_inverse"
   ],
   "note": "Exact rational arithmetic, on a memory model with pointers."
  },
  {
   "property": "C61",
   "status": "proved",
   "theorems": [
    "C61_differential_inverse"
   ],
   "note": "Exact rational arithmetic."
  },
  {
   "property": "C62",
   "status": "proved",
   "theorems": [
    "C62_four_bar_inverse"
   ],
   "note": "Exact rational arithmetic."
  },
  {
   "property": "C63",
   "status": "proved",
   "theorems": [
    "C63_power_conserved",
    "C63_power_four_bar",
    "C63_power_four_bar_refuted"
   ],
   "note": "Unconditional form refuted for four-bar linkages; the difference is characterised exactly."
  },
  {
   "property": "C64",
   "status": "proved",
   "theorems": [
    "C64_position_velocity"
   ],
   "note": "Both directions, all three transmissions, exact arithmetic."
  },
  {
   "property": "C65",
   "status": "proved",
   "theorems": [
    "C65_constructors",
    "C65_no_division_by_zero",
    "C65_no_division_by_zero_double",
    "C65_four_bar_double_refuted"
   ],
   "note": "Unconditional form refuted for four-bar linkages with doubles (underflow)."
  },
  {
   "property": "C66",
   "status": "proved",
   "theorems": [
    "C66_propagate_outcome",
    "C66_propagate_refuted",
    "doubling_exact",
    "doubling_double"
   ],
   "note": "Unconditional form refuted; exact characterisation of the outcome. Stated for any arithmetic with doubling, which rationals and doubles have."
  },
  {
   "property": "C67",
   "status": "proved",
   "theorems": [
    "C67_propagate_frame",
    "C67_interface_frame",
    "doubling_exact",
    "doubling_double",
    "C67_registered"
   ],
   "note": "Needs separate variables; an example shows that sharing breaks it."
  },
  {
   "property": "C68",
   "status": "proved",
   "theorems": [
    "C68_order_irrelevant",
    "C68_by_role",
    "C68_order_matters_refuted"
   ],
   "note": "The full form (order does not matter to the robot) is refuted: C68_order_matters_refuted gives two listings of one differential that yield different joint positions."
  },
  {
   "property": "C69",
   "status": "proved",
   "theorems": [
    "C69_prefix",
    "C69_failed_load",
    "C69_all_or_nothing_refuted"
   ],
   "note": "Atomicity of the whole list is refuted (C69_all_or_nothing_refuted)."
  },
  {
   "property": "C70",
   "status": "proved",
   "theorems": [
    "C70_parse",
    "C70_descriptions_unique",
    "C70_complete",
    "C70_nothing_found",
    "C70_any_root_refuted"
   ],
   "note": "The parts 'fails if not a robot description' and 'fails if without transmission' of the first form are refuted, as is safety for a document without root element (C70_any_root_refuted). TinyXML is trusted: the model starts from the tree."
  },
  {
   "property": "C71",
   "status": "proved",
   "theorems": [
    "C71_attributes",
    "C71_hardware_interface",
    "C71_resources",
    "C71_no_resources_refuted",
    "C71_no_resources"
   ],
   "note": "Exception refuted by C71_no_resources_refuted, delimited exactly by C71_no_resources."
  },
  {
   "property": "C72",
   "status": "proved",
   "theorems": [
    "C72_spawner",
    "C72_shutdown",
    "C72_shutdown_complete",
    "C72_round_trip",
    "C72_partly_running_refuted",
    "C72_spawner_conflict"
   ],
   "note": "Executions in which nobody else calls the manager meanwhile and no call raises an exception. C72_partly_running_refuted: the exception in the statement."
  },
  {
   "property": "C73",
   "status": "proved",
   "theorems": [
    "C73_switch_group",
    "C73_spawn_group",
    "C73_spawn_loads_all_refuted",
    "C73_switch_conflict"
   ],
   "note": "Executions in which nobody else calls the manager meanwhile and no call raises an exception."
  },
  {
   "property": "C74",
   "status": "proved",
   "theorems": [
    "C74_names",
    "C74_prefix"
   ],
   "note": "rosparam.list_params and make_global_ns modelled from their documentation (trusted)."
  },
  {
   "property": "C75",
   "status": "proved",
   "theorems": [
    "C75_complete",
    "C75_sound",
    "C75_ordered",
    "C75_no_duplicates",
    "C75_stable",
    "C75_unreachable",
    "C75_lister",
    "C75_duplicates_refuted",
    "C75_nested_refuted",
    "C75_stale_refuted"
   ],
   "note": "Exceptions are the _refuted theorems."
  },
  {
   "property": "C76",
   "status": "proved",
   "theorems": [
    "C76_callbacks_only_on_loaded",
    "C76_abandoned_request_refuted"
   ],
   "note": "Unconditional form refuted."
  },
  {
   "property": "C77",
   "status": "proved",
   "theorems": [
    "C77_deadline_ends_request"
   ],
   "note": ""
  },
  {
   "property": "C78",
   "status": "proved",
   "theorems": [
    "C78_list_types"
   ],
   "note": ""
  },
  {
   "property": "C79",
   "status": "proved",
   "theorems": [
    "C79_at_most_once",
    "C79_both_lists",
    "C79_stop_start_every_cycle_refuted"
   ],
   "note": "Positive part by an invariant over the pending cycles; the exception is characterised exactly and shown to occur in n cycles for every n."
  },
  {
   "property": "C80",
   "status": "proved",
   "theorems": [
    "C80_requests_not_modified_while_walked",
    "C80_wall_timeout_refuted"
   ],
   "note": "Unconditional form refuted by a witness schedule."
  },
  {
   "property": "C81",
   "status": "proved",
   "theorems": [
    "C81_follows_inside",
    "C81_follows_inside_exact"
   ],
   "note": ""
  },
  {
   "property": "C82",
   "status": "proved",
   "theorems": [
    "C82_own_vectors",
    "C82_differential_absolute_refuted"
   ],
   "note": "Unconditional form refuted for differential absolute positions."
  },
  {
   "property": "C83",
   "status": "proved",
   "theorems": [
    "C83_joint_formulas",
    "C83_actuator_formulas",
    "C83_simple_parameters",
    "C83_differential_parameters",
    "C83_four_bar_parameters"
   ],
   "note": "Exact rational arithmetic; three misprints of the documentation corrected, see DESIGN.md."
  },
  {
   "property": "C84",
   "status": "proved",
   "theorems": [
    "C84_simple_round_trip_double",
    "C84_underflow_refuted"
   ],
   "note": "IEEE doubles via Flocq."
  },
  {
   "property": "C85",
   "status": "proved",
   "theorems": [
    "C85_load",
    "C85_own_interface_refuted",
    "C85_textless_refuted"
   ],
   "note": ""
  },
  {
   "property": "C86",
   "status": "proved",
   "theorems": [
    "C86_propagate",
    "C86_propagate_exact",
    "C86_separate",
    "C86_flags_refuted"
   ],
   "note": ""
  },
  {
   "property": "C87",
   "status": "proved",
   "theorems": [
    "C87_only_described",
    "C87_all_described",
    "C87_same_name_refuted"
   ],
   "note": ""
  },
  {
   "property": "C88",
   "status": "proved",
   "theorems": [
    "C88_restore",
    "C88_restore_all",
    "C88_refused_reload_refuted"
   ],
   "note": ""
  },
  {
   "property": "C89",
   "status": "proved",
   "theorems": [
    "C89_spawn",
    "C89_kill",
    "C89_spawn_conflict",
    "C89_kill_complete"
   ],
   "note": ""
  },
  {
   "property": "C90",
   "status": "proved",
   "theorems": [
    "C90_inhibits",
    "C90_round_trip",
    "C90_refused_stop_refuted",
    "C90_inhibits_complete"
   ],
   "note": ""
  },
  {
   "property": "C91",
   "status": "proved",
   "theorems": [
    "C91_exact_cycle"
   ],
   "note": "With start_asap the start list must not name a controller twice."
  },
  {
   "property": "C92",
   "status": "proved",
   "theorems": [
    "C92_wait_loop"
   ],
   "note": "ros::ok() stays true; see C13 for shutdown."
  },
  {
   "property": "C93",
   "status": "proved",
   "theorems": [
    "C93_null_refused",
    "C93_sensors_unchecked_refuted"
   ],
   "note": ""
  },
  {
   "property": "C94",
   "status": "proved",
   "theorems": [
    "C94_no_null_access",
    "C94_default_state_handle_refuted"
   ],
   "note": ""
  },
  {
   "property": "C95",
   "status": "proved",
   "theorems": [
    "C95_program_meaning",
    "C95_last_write"
   ],
   "note": ""
  },
  {
   "property": "C96",
   "status": "proved",
   "theorems": [
    "C96_command_round_trip",
    "C96_shared_cell_refuted"
   ],
   "note": ""
  },
  {
   "property": "C97",
   "status": "proved",
   "theorems": [
    "C97_mode_round_trip",
    "C97_mode_names"
   ],
   "note": ""
  },
  {
   "property": "C98",
   "status": "proved",
   "theorems": [
    "C98_who_claims",
    "C98_joint_conflict",
    "C98_actuators_unprotected_refuted"
   ],
   "note": ""
  },
  {
   "property": "C99",
   "status": "proved",
   "theorems": [
    "C99_position",
    "C99_soft_position",
    "C99_effort",
    "C99_soft_effort",
    "C99_velocity",
    "C99_soft_velocity",
    "C99_position_exact",
    "C99_soft_position_exact",
    "C99_effort_exact",
    "C99_soft_effort_exact",
    "C99_velocity_exact",
    "C99_soft_velocity_exact",
    "C99_nearest_unique"
   ],
   "note": "Six limiters, for IEEE doubles and for exact rationals; the window is specified relationally in LimNearSpec.v, independently of the limiters."
  },
  {
   "property": "C100",
   "status": "proved",
   "theorems": [
    "C100_constructors",
    "C100_soft_position_period",
    "C100_velocity_period"
   ],
   "note": "Assertions are modelled as enabled (no NDEBUG)."
  },
  {
   "property": "C101",
   "status": "proved",
   "theorems": [
    "C101_accepts",
    "C101_holds",
    "C101_torque_sensors_refuted"
   ],
   "note": ""
  },
  {
   "property": "C102",
   "status": "proved",
   "theorems": [
    "C102_update_combo",
    "C102_managers",
    "C102_restored"
   ],
   "note": "Stated for the box alone and for all sessions of the plugin."
  },
  {
   "property": "C103",
   "status": "proved",
   "theorems": [
    "C103_connected",
    "C103_services",
    "C103_right_manager",
    "C103_stale_rows_refuted"
   ],
   "note": "For all sessions; the exception is a witness session."
  },
  {
   "property": "C104",
   "status": "proved",
   "theorems": [
    "C104_rows",
    "C104_refresh",
    "C104_selected",
    "C104_raises",
    "C104_unreachable_refuted"
   ],
   "note": ""
  },
  {
   "property": "C105",
   "status": "proved",
   "theorems": [
    "C105_menu",
    "C105_click",
    "C105_obeyed",
    "C105_entries"
   ],
   "note": "Effects on the manager model of CMModel.v."
  },
  {
   "property": "C106",
   "status": "proved",
   "theorems": [
    "C106_icons",
    "C106_no_icon_refuted"
   ],
   "note": ""
  },
  {
   "property": "C107",
   "status": "proved",
   "theorems": [
    "C107_joints",
    "C107_own_variables",
    "C107_effects"
   ],
   "note": "For robots without joint or transmission interfaces of their own (the loader only ever creates its own). C107_effects needs the actuator variables to be disjoint from the storage the loader allocates (below)."
  },
  {
   "property": "C108",
   "status": "proved",
   "theorems": [
    "C108_frame"
   ],
   "note": "Any darith, so for doubles too; nothing is said about calls that fail an assertion."
  },
  {
   "property": "C109",
   "status": "proved",
   "theorems": [
    "C109_pointers",
    "C109_sensors"
   ],
   "note": ""
  },
  {
   "property": "C110",
   "status": "proved",
   "theorems": [
    "C110_part_protocol",
    "C110_every_part_switches",
    "C110_every_part_asked",
    "C110_accepted"
   ],
   "note": "Whole-robot model (SysModel.v): manager, interfaces, conflict check and parts together."
  },
  {
   "property": "C111",
   "status": "proved",
   "theorems": [
    "C111_one_cycle",
    "C111_exact_course",
    "C111_never_waits",
    "C111_part_not_ready_refuted"
   ],
   "note": "Exact event list of the cycle, proved from the manager theorem C91."
  },
  {
   "property": "C112",
   "status": "proved",
   "theorems": [
    "C112_running_exclusive",
    "C112_one_request"
   ],
   "note": "Composition of C04, C35/C36 and C37 by an invariant over histories."
  },
  {
   "property": "C113",
   "status": "proved",
   "theorems": [
    "C113_accepted_iff"
   ],
   "note": ""
  },
  {
   "property": "C114",
   "status": "proved",
   "theorems": [
    "C114_owner_told",
    "C114_only_own"
   ],
   "note": ""
  },
  {
   "property": "C115",
   "status": "proved",
   "theorems": [
    "C115_load_iff",
    "C115_load_effect"
   ],
   "note": "Hypothesis `typed`: handles are asked of resource managers only (C++ types enforce this)."
  },
  {
   "property": "C116",
   "status": "proved",
   "theorems": [
    "C116_joints_there",
    "C116_not_listed_refuted",
    "C116_not_told_refuted",
    "C116_switched_unseen_refuted"
   ],
   "note": "Positive part and exception, the latter for all robots and with a whole-robot witness."
  },
  {
   "property": "C117",
   "status": "proved",
   "theorems": [
    "C117_kept",
    "C117_exact",
    "C117_not_dropped"
   ],
   "note": "Transmissions are values in the model: two with equal parameters are not told apart."
  },
  {
   "property": "C118",
   "status": "proved",
   "theorems": [
    "C118_flags"
   ],
   "note": "See C86_flags_refuted for what propagation does with such joints."
  },
  {
   "property": "C119",
   "status": "proved",
   "theorems": [
    "C119_document",
    "C119_malformed",
    "C119_no_root_refuted"
   ],
   "note": "Positive theorem is an equivalence; documents are element trees, text to tree is TinyXML."
  },
  {
   "property": "C120",
   "status": "proved",
   "theorems": [
    "C120_current_list"
   ],
   "note": "C24 adds that the list is not modified and is visited completely; C25 and C27 show why the hypotheses are needed."
  },
  {
   "property": "C121",
   "status": "proved",
   "theorems": [
    "C121_list",
    "C121_while_loading",
    "C121_after_starting",
    "C121_left_behind_refuted",
    "C121_start_overtakes_refuted",
    "C121_without_shutdown"
   ],
   "note": "All interleavings of main thread and shutdown handler against the manager model; two exceptions as witnesses."
  },
  {
   "property": "C122",
   "status": "proved",
   "theorems": [
    "C122_waits",
    "C122_no_request_before",
    "C122_controllers",
    "C122_no_timeout_refuted",
    "C122_services"
   ],
   "note": "Exact condition for going on; TypeError exception universally quantified."
  },
  {
   "property": "C123",
   "status": "proved",
   "theorems": [
    "C123_saturation",
    "C123_soft",
    "C123_reducer_moves",
    "C123_differential_moves_refuted"
   ],
   "note": "exact arithmetic; the loop is the one of the documentation, restricted to position commands"
  },
  {
   "property": "C124",
   "status": "proved",
   "theorems": [
    "C124_takes_effect_at_one_moment",
    "C124_no_undefined_behaviour",
    "C124_one_sequence",
    "C124_first_cycle_refuted",
    "C124_shutdown_refuted",
    "C124_wall_timeout_refuted",
    "C124_reset_cycle_refuted"
   ],
   "note": "Refinement: simulation relation between the two-thread model (one access per step) and an atomic object built on the sequential manager model of C01-C23. reload_controller_libraries is left out (it is a sequence of the calls covered). Sequential consistency assumed."
  },
  {
   "property": "C125",
   "status": "proved",
   "theorems": [
    "C125_raced_locations",
    "C125_loop_writes",
    "C125_lock_writes",
    "C125_loop_reads",
    "C125_lock_reads",
    "C125_list_index_refuted",
    "C125_used_index_refuted",
    "C125_switch_flag_refuted",
    "C125_state_refuted",
    "C125_loaders_refuted"
   ],
   "note": "C125_loop_writes/_lock_writes/_loop_reads/_lock_reads show that the access sets used in C125_raced_locations are right: a step of the model changes only what it is listed as writing, and depends only on what it is listed as accessing. The _refuted theorems are the witnesses that each location is raced on."
  },
  {
   "property": "C126",
   "status": "proved",
   "theorems": [
    "C126_never_waits",
    "C126_bounded",
    "C126_other_thread_stopped"
   ],
   "note": "The time that one access takes (user callbacks, hardware calls, logging) is outside the model. In startControllersAsap the search through the current list counts as one access (simplification of FineModel.v)."
  },
  {
   "property": "C127",
   "status": "proved",
   "theorems": [
    "C127_accepted",
    "C127_never_stuck",
    "C127_waits_only_for",
    "C127_waiting",
    "C127_released_by_next_cycle",
    "C127_bounded"
   ],
   "note": "One step of the model may be a whole loop over user code (initialising a controller, checking a switch request). When the control loop completes a switch is the subject of the sequential properties on switching."
  },
  {
   "property": "C128",
   "status": "proved",
   "theorems": [
    "C128_list_controllers",
    "C128_list_types",
    "C128_change_nothing"
   ],
   "note": "Listing on a whole robot (SysModel). Found by a mutant that swapped the two services."
  },
  {
   "property": "C129",
   "status": "proved",
   "theorems": [
    "C129_to_joint_accurate",
    "C129_to_actuator_accurate"
   ],
   "note": "Doubles as in Flocq; depends on the four standard library axioms of the reals."
  },
  {
   "property": "C130",
   "status": "proved",
   "theorems": [
    "C130_actuator_round_trip",
    "C130_joint_round_trip",
    "C130_differential_velocity_bound",
    "C130_exact_refuted"
   ],
   "note": "Doubles as in Flocq; depends on the four standard library axioms of the reals. C130_exact_refuted: the round trip is not exact."
  },
  {
   "property": "C131",
   "status": "proved",
   "theorems": [
    "C131_soft_position",
    "C131_soft_position_returns",
    "C131_soft_velocity",
    "C131_position",
    "C131_never_further_out",
    "C131_never_further_out_exact",
    "C131_stall_refuted"
   ],
   "note": "Rates are in exact arithmetic; for doubles monotonicity and the stall are proved."
  },
  {
   "property": "C132",
   "status": "proved",
   "theorems": [
    "C132_load",
    "C132_unload",
    "C132_start",
    "C132_stop",
    "C132_spawn",
    "C132_kill",
    "C132_list",
    "C132_reload",
    "C132_restored_refuted",
    "C132_usage",
    "C132_types",
    "C132_exit_status"
   ],
   "note": "Lines are represented by what they say, not by their wording. The reply of list_controller_types is a parameter (C78 says what it is)."
  },
  {
   "property": "C133",
   "status": "proved",
   "theorems": [
    "C133_list",
    "C133_switch",
    "C133_no_bad_news",
    "C133_bad_news",
    "C133_unknown_states",
    "C133_initialized_refuted",
    "C133_spawn"
   ],
   "note": "Known exception proved as C133_initialized_refuted. argparse itself is not modelled."
  },
  {
   "property": "C134",
   "status": "proved",
   "theorems": [
    "C134_real",
    "C134_spawn",
    "C134_kill",
    "C134_spawner",
    "C134_shutdown",
    "C134_unspawner",
    "C134_unspawner_own",
    "C134_group_switch",
    "C134_restore"
   ],
   "note": "C134_real relates conversations to executions with the manager model in any environment. The spawner's two threads are in C121."
  },
  {
   "property": "C135",
   "status": "proved",
   "theorems": [
    "C135_velocity",
    "C135_velocity_soft",
    "C135_effort",
    "C135_effort_soft"
   ],
   "note": "exact arithmetic; the write of the documentation with velocity or effort interfaces; for soft velocity limits with acceleration limits the measured velocity is assumed to be within the maximum"
  },
  {
   "property": "C136",
   "status": "proved",
   "theorems": [
    "C136_velocity_soft",
    "C136_acceleration_refuted"
   ],
   "note": "exact arithmetic; the hardware is ideal: actuators follow their commands; the limiter is given the period of the motion that follows"
  }
 ]
}