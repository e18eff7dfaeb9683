{
 "claims": [
  {
   "property": "C01",
   "status": "proved",
   "theorems": [
    "C01_construction",
    "C01_construction_defined",
    "C01_construction_undefined"
   ],
   "note": ""
  },
  {
   "property": "C02",
   "status": "proved",
   "theorems": [
    "C02_is",
    "C02_parent_is",
    "C02_is_state",
    "C02_active_places_exist",
    "C02_is_uninitialised",
    "C02_own_parent_refuted"
   ],
   "note": ""
  },
  {
   "property": "C03",
   "status": "proved",
   "theorems": [
    "C03_rows_tried",
    "C03_list_exists",
    "C03_list_unique",
    "C03_sound",
    "C03_complete"
   ],
   "note": ""
  },
  {
   "property": "C04",
   "status": "proved",
   "theorems": [
    "C04_kinds",
    "C04_last_declared_first",
    "C04_inner_first_refuted"
   ],
   "note": ""
  },
  {
   "property": "C05",
   "status": "proved",
   "theorems": [
    "C05_first_enabled",
    "C05_refusals_ask_all",
    "C05_decides",
    "C05_one_choice"
   ],
   "note": ""
  },
  {
   "property": "C06",
   "status": "proved",
   "theorems": [
    "C06_unhandled"
   ],
   "note": ""
  },
  {
   "property": "C07",
   "status": "proved",
   "theorems": [
    "C07_refused"
   ],
   "note": ""
  },
  {
   "property": "C08",
   "status": "proved",
   "theorems": [
    "C08_answer"
   ],
   "note": ""
  },
  {
   "property": "C09",
   "status": "proved",
   "theorems": [
    "C09_calls"
   ],
   "note": ""
  },
  {
   "property": "C10",
   "status": "proved",
   "theorems": [
    "C10_internal",
    "C10_no_entry_refuted"
   ],
   "note": "on_entry/on_exit of the state itself are never called; C10_no_entry_refuted records that on_entry of the initial state of a composite is."
  },
  {
   "property": "C11",
   "status": "proved",
   "theorems": [
    "C11_throws"
   ],
   "note": ""
  },
  {
   "property": "C12",
   "status": "proved",
   "theorems": [
    "C12_guard_throws"
   ],
   "note": ""
  },
  {
   "property": "C13",
   "status": "proved",
   "theorems": [
    "C13_target",
    "C13_fired"
   ],
   "note": ""
  },
  {
   "property": "C14",
   "status": "proved",
   "theorems": [
    "C14_composite_source"
   ],
   "note": ""
  },
  {
   "property": "C15",
   "status": "proved",
   "theorems": [
    "C15_named_source",
    "C15_leaf_source"
   ],
   "note": ""
  },
  {
   "property": "C16",
   "status": "proved",
   "theorems": [
    "C16_single_region",
    "C16_regions",
    "C16_table",
    "C16_starts",
    "C16_calls",
    "C16_during"
   ],
   "note": ""
  },
  {
   "property": "C17",
   "status": "partial",
   "theorems": [
    "C17_completion_partial",
    "C17_completion_pure_partial",
    "C17_internal_refuted"
   ],
   "note": "Proved for machines with an anonymous row in an ordinary table. If all anonymous rows are in internal tables they are never taken and the statement is false: C17_internal_refuted."
  },
  {
   "property": "C18",
   "status": "proved",
   "theorems": [
    "C18_terminates",
    "C18_sessions_terminate",
    "C18_total",
    "C18_never_returns",
    "C18_runs_forever"
   ],
   "note": ""
  },
  {
   "property": "C19",
   "status": "proved",
   "theorems": [
    "C19_defer",
    "C40_defer"
   ],
   "note": "C40_defer is the general case, where regions in front of the deferring one have candidates."
  },
  {
   "property": "C20",
   "status": "proved",
   "theorems": [
    "C20_recall"
   ],
   "note": ""
  },
  {
   "property": "C21",
   "status": "proved",
   "theorems": [
    "C21_calls"
   ],
   "note": ""
  },
  {
   "property": "C22",
   "status": "proved",
   "theorems": [
    "C22_fifo"
   ],
   "note": ""
  },
  {
   "property": "C23",
   "status": "proved",
   "theorems": [
    "C23_in_order",
    "C23_isolated"
   ],
   "note": ""
  },
  {
   "property": "C24",
   "status": "proved",
   "theorems": [
    "C24_safe",
    "C24_safe_calls",
    "C24_check",
    "C24_places",
    "C24_objects_needed_refuted",
    "C24_anonymous_needed_refuted"
   ],
   "note": "C24_safe is the property; the *_needed_refuted theorems show that the conditions cannot be dropped."
  },
  {
   "property": "C25",
   "status": "proved",
   "theorems": [
    "C25_uninitialised_refuted"
   ],
   "note": "Refutation by witness: the machine of reproducer/should_enter_substate_with_multiple_regions.cpp, one event later."
  },
  {
   "property": "C26",
   "status": "proved",
   "theorems": [
    "C26_set",
    "C26_set_then_is",
    "C26_set_then_is_region"
   ],
   "note": ""
  },
  {
   "property": "C27",
   "status": "proved",
   "theorems": [
    "C27_out_of_range"
   ],
   "note": ""
  },
  {
   "property": "C28",
   "status": "proved",
   "theorems": [
    "C28_set_dependency",
    "C28_newest_first",
    "C28_chosen_dependency",
    "C28_old_dependency_gone_refuted"
   ],
   "note": ""
  },
  {
   "property": "C29",
   "status": "proved",
   "theorems": [
    "C29_each_region_once",
    "C29_constructor_diverges"
   ],
   "note": ""
  },
  {
   "property": "C30",
   "status": "proved",
   "theorems": [
    "C30_index_of_place",
    "C30_index_injective",
    "C30_index_onto",
    "C30_index_absent",
    "C30_index_range"
   ],
   "note": ""
  },
  {
   "property": "C31",
   "status": "partial",
   "theorems": [
    "C31_rows",
    "C31_anonymous_rows",
    "C31_equal_rows",
    "C31_references",
    "C31_spelling",
    "C31_behaviour_partial",
    "C31_initial_target_refuted",
    "C31_internal_twice_refuted"
   ],
   "note": "Row equivalence is proved in full. Behavioural equivalence is proved under one_spelling (within one table, an initial state, or any state of a class with internal rows, is written in one way). Without it the statement is false: C31_initial_target_refuted, C31_internal_twice_refuted."
  },
  {
   "property": "C32",
   "status": "proved",
   "theorems": [
    "C32_chain",
    "C32_chain_one",
    "C32_calls"
   ],
   "note": ""
  },
  {
   "property": "C33",
   "status": "proved",
   "theorems": [
    "C33_order",
    "C33_answers",
    "C33_visit",
    "C33_visit_empty"
   ],
   "note": ""
  },
  {
   "property": "C34",
   "status": "proved",
   "theorems": [
    "C34_stages",
    "C34_reuse",
    "C34_create",
    "C34_dead_reuse",
    "C34_dead_guard"
   ],
   "note": ""
  },
  {
   "property": "C35",
   "status": "proved",
   "theorems": [
    "C35_guards",
    "C35_every_call"
   ],
   "note": ""
  },
  {
   "property": "C36",
   "status": "proved",
   "theorems": [
    "C36_copies",
    "C36_without_purity_refuted"
   ],
   "note": ""
  },
  {
   "property": "C37",
   "status": "proved",
   "theorems": [
    "C37_acceptance"
   ],
   "note": ""
  },
  {
   "property": "C38",
   "status": "proved",
   "theorems": [
    "C38_exit_called",
    "C38_always_exit_refuted"
   ],
   "note": ""
  },
  {
   "property": "C39",
   "status": "proved",
   "theorems": [
    "C39_stop",
    "C39_completion_refuted",
    "C39_rest"
   ],
   "note": ""
  },
  {
   "property": "C40",
   "status": "proved",
   "theorems": [
    "C40_defer",
    "C40_false_means_unchanged_refuted"
   ],
   "note": ""
  },
  {
   "property": "C41",
   "status": "proved",
   "theorems": [
    "C41_internal_rows_merged",
    "C41_all_internal_rows_kept_refuted"
   ],
   "note": ""
  },
  {
   "property": "C42",
   "status": "proved",
   "theorems": [
    "C42_single_owner",
    "C42_no_leak",
    "C42_move_assign",
    "C42_undisciplined_refuted"
   ],
   "note": "disciplined excludes reset(p.get()) and other reuse of a raw pointer that is still owned; C42_undisciplined_refuted shows why."
  },
  {
   "property": "C43",
   "status": "partial",
   "theorems": [
    "C43_target",
    "C43_source",
    "C43_effects",
    "C43_candidates_partial",
    "C43_candidates_refuted",
    "C43_exchange"
   ],
   "note": "Targets, sources and effects: proved for every row. Equality of candidates: proved under one_spelling, false without it (C43_candidates_refuted). Consistent exchange of wrappers: proved for every program without conditions (C43_exchange)."
  },
  {
   "property": "C44",
   "status": "partial",
   "theorems": [
    "C44_invariant_partial",
    "C44_history_refuted"
   ],
   "note": "C44_invariant_partial proves everything except that history entries of regions from 1 on are places of their own parent. That part is false: C44_history_refuted. The code attributes the place of every region to the parent of region 0."
  },
  {
   "property": "C45",
   "status": "proved",
   "theorems": [
    "C45_call",
    "C45_session",
    "C45_more",
    "C45_rules",
    "C45_rules_one"
   ],
   "note": ""
  },
  {
   "property": "C46",
   "status": "proved",
   "theorems": [
    "C46_semantics",
    "C46_events",
    "C46_anonymous",
    "C46_history",
    "C46_deferred"
   ],
   "note": ""
  },
  {
   "property": "C47",
   "status": "proved",
   "theorems": [
    "C47_status",
    "C47_status_determines",
    "C47_status_uninitialised"
   ],
   "note": ""
  },
  {
   "property": "C48",
   "status": "proved",
   "theorems": [
    "C48_is_wraps",
    "C48_set_wraps",
    "C48_is",
    "C48_set"
   ],
   "note": ""
  },
  {
   "property": "C49",
   "status": "proved",
   "theorems": [
    "C49_complete",
    "C49_same_results",
    "C49_runs_forever"
   ],
   "note": ""
  },
  {
   "property": "C50",
   "status": "proved",
   "theorems": [
    "C50_promises",
    "C50_check",
    "C50_needed_refuted"
   ],
   "note": "C50_needed_refuted shows that the condition is needed: the machine of the test custom_targets.cpp reaches a null dereference when its events come in another order."
  },
  {
   "property": "C51",
   "status": "proved",
   "theorems": [
    "C51_conservative",
    "C51_budget"
   ],
   "note": ""
  },
  {
   "property": "C52",
   "status": "proved",
   "theorems": [
    "C52_safe",
    "C52_guards_needed_refuted",
    "C52_events_needed_refuted"
   ],
   "note": "C52_safe is the property; the *_needed_refuted theorems show that both provisos are needed."
  },
  {
   "property": "C53",
   "status": "proved",
   "theorems": [
    "C53_last",
    "C53_completion_refuted",
    "C53_source_refuted",
    "C53_bounded_refuted"
   ],
   "note": "C53_last is the part that holds; the refuted theorems are the negative half of the statement."
  },
  {
   "property": "C54",
   "status": "proved",
   "theorems": [
    "C54_exact",
    "C54_needed",
    "C54_check",
    "C54_weaker"
   ],
   "note": "C54_exact is the equivalence; C54_check the decision procedure; C54_needed and C54_weaker the remaining clauses. Legal calls include set(), so every place of the machine can be occupied."
  },
  {
   "property": "C55",
   "status": "proved",
   "theorems": [
    "C55_first_case",
    "C55_no_case",
    "C55_lazy",
    "C55_otherwise",
    "C55_lazy_otherwise"
   ],
   "note": ""
  },
  {
   "property": "C56",
   "status": "proved",
   "theorems": [
    "C56_for_each",
    "C56_for_each_idx",
    "C56_initial_table",
    "C56_model_table"
   ],
   "note": ""
  },
  {
   "property": "C57",
   "status": "proved",
   "theorems": [
    "C57_first_position",
    "C57_absent",
    "C57_index_of",
    "C57_repeated_refuted"
   ],
   "note": ""
  },
  {
   "property": "C58",
   "status": "proved",
   "theorems": [
    "C58_first_of_type",
    "C58_no_repetition",
    "C58_complete"
   ],
   "note": ""
  },
  {
   "property": "C59",
   "status": "proved",
   "theorems": [
    "C59_between",
    "C59_during",
    "C59_check",
    "C59_exact",
    "C59_rest_check"
   ],
   "note": "C59_between, C59_during: the first statement; C59_exact: the second; C59_check, C59_rest_check: the checks."
  },
  {
   "property": "C60",
   "status": "proved",
   "theorems": [
    "C60_agrees",
    "C60_check",
    "C60_deferring_refuted",
    "C60_leaf_rows_refuted",
    "C60_same_types_refuted",
    "C60_shared_places_refuted",
    "C60_accepts_refuted",
    "C60_internal",
    "C60_rotation",
    "C60_refusal_recalls_refuted"
   ],
   "note": "C60_agrees with the executable check C60_check: the agreement; C60_deferring_refuted, C60_leaf_rows_refuted, C60_same_types_refuted, C60_shared_places_refuted: each condition is needed; C60_accepts_refuted: one more program is accepted; C60_internal: which internal rows it knows; C60_rotation, C60_refusal_recalls_refuted: deferral."
  },
  {
   "property": "C61",
   "status": "proved",
   "theorems": [
    "C61_other_events",
    "C61_new_source_refuted",
    "C61_into_composite_refuted",
    "C61_new_state_refuted",
    "C61_other_spelling_refuted"
   ],
   "note": "C61_other_events: the comparison; C61_new_source_refuted, C61_into_composite_refuted, C61_new_state_refuted, C61_other_spelling_refuted: each condition on the rows is needed."
  },
  {
   "property": "C62",
   "status": "proved",
   "theorems": [
    "C62_turnstile",
    "C62_cdplayer",
    "C62_unlocked",
    "C62_drawer",
    "C62_resume_refuted"
   ],
   "note": "C62_turnstile and C62_cdplayer: the two programs follow their diagrams for all sequences of events; C62_unlocked and C62_drawer: what this means without the diagrams; C62_resume_refuted: end_pause does not return to the song that was paused."
  },
  {
   "property": "C63",
   "status": "proved",
   "theorems": [
    "C63_text",
    "C63_text_determines",
    "C63_never_the_number",
    "C63_digit_of_another",
    "C63_c_string"
   ],
   "note": "C63_text and C63_text_determines: the text and what it tells; C63_never_the_number, C63_digit_of_another, C63_c_string: how regions are written."
  },
  {
   "property": "C64",
   "status": "proved",
   "theorems": [
    "C64_log",
    "C64_last",
    "C64_history_refuted",
    "C64_throwing_exit_refuted",
    "C64_connected_refuted"
   ],
   "note": "C64_log: any number of regions; C64_last: one region; C64_history_refuted, C64_throwing_exit_refuted, C64_connected_refuted: none of the conditions can go."
  },
  {
   "property": "C65",
   "status": "proved",
   "theorems": [
    "C65_flat",
    "C65_automaton",
    "C65_calls",
    "C65_accepted"
   ],
   "note": "C65_flat: results, calls, state, user data; C65_automaton, C65_calls: without guards; C65_accepted: which such programs compile."
  },
  {
   "property": "C66",
   "status": "proved",
   "theorems": [
    "C66_ring",
    "C66_counts",
    "C66_stuck",
    "C66_goes_round",
    "C66_one_pass",
    "C66_player"
   ],
   "note": "Stated for rings of all sizes; the benchmark is n = 51 without the event EUser 51, the other programs are n = 50 with all events."
  },
  {
   "property": "C67",
   "status": "proved",
   "theorems": [
    "C67_same_candidates",
    "C67_reordered",
    "C67_accepted",
    "C67_check",
    "C67_same_place_refuted",
    "C67_initial_refuted",
    "C67_into_composite_refuted",
    "C67_internal_refuted",
    "C67_written_refuted"
   ],
   "note": "C67_same_candidates: the general statement; C67_reordered, C67_accepted, C67_check: exchanges of neighbouring rows; the _refuted theorems show that the conditions on the exchanged rows are needed (one theorem for each of the five). Programs with rows to places outside the machine are excluded (stays_inside): they run into undefined behaviour, C24."
  },
  {
   "property": "C68",
   "status": "proved",
   "theorems": [
    "C68_stateless",
    "C68_own_copy",
    "C68_copies",
    "C68_entry",
    "C68_total",
    "C68_row_refuted",
    "C68_set_dependency_refuted"
   ],
   "note": "C68_own_copy: what a call finds in its copy; C68_copies: how many copies there are; C68_entry, C68_total: bounds for guards that agree a limited number of times; C68_stateless ties the interpreter of Functors.v to the one all other theorems are about. The two _refuted theorems show what does not hold: one memory per row."
  },
  {
   "property": "C69",
   "status": "proved",
   "theorems": [
    "C69_stays",
    "C69_lost",
    "C69_kept",
    "C69_return_refuted",
    "C69_alien_refuted"
   ],
   "note": "C69_stays, C69_lost, C69_kept say what history of several regions does; C69_return_refuted and C69_alien_refuted are client-level witnesses that history does not restore all regions and may lead outside of the composite asked for."
  },
  {
   "property": "C70",
   "status": "proved",
   "theorems": [
    "C70_bound",
    "C70_undeferred",
    "C70_passes",
    "C70_check",
    "C70_constant_refuted"
   ],
   "note": "C70_bound, C70_undeferred: bounds per call; C70_passes: with anonymous rows, per pass; C70_check: the numbers of a program are decidable; C70_bound_reached: an example that reaches the bound; C70_constant_refuted: no bound by the program alone."
  },
  {
   "property": "C71",
   "status": "proved",
   "theorems": [
    "C71_live",
    "C71_removed",
    "C71_accepted",
    "C71_check",
    "C71_guarded_refuted",
    "C71_earlier_refuted",
    "C71_composite_refuted",
    "C71_entering_refuted",
    "C71_turn_refuted",
    "C71_unnamed_refuted"
   ],
   "note": "C71_live: only candidates up to the first decisive one count; C71_removed, C71_accepted: rows that can be left out; C71_check: a decision procedure; C71_guarded_refuted, C71_earlier_refuted, C71_composite_refuted, C71_entering_refuted, C71_turn_refuted, C71_unnamed_refuted: the conditions are needed."
  },
  {
   "property": "C72",
   "status": "proved",
   "theorems": [
    "C72_part",
    "C72_entered",
    "C72_closed",
    "C72_check",
    "C72_closed_check",
    "C72_guards_refuted",
    "C72_rows_at_refuted",
    "C72_pseudo_refuted",
    "C72_entrance_refuted",
    "C72_internal_refuted",
    "C72_completion_refuted",
    "C72_regions_refuted",
    "C72_handler_refuted"
   ],
   "note": "C72_part: whole and part stay in step; C72_entered: the whole that has just entered c behaves as a new machine of c; C72_closed: conditions on the tables; C72_check, C72_closed_check: decision procedures; C72_guards_refuted, C72_rows_at_refuted, C72_pseudo_refuted, C72_entrance_refuted, C72_internal_refuted, C72_completion_refuted, C72_regions_refuted, C72_handler_refuted: the conditions are needed."
  },
  {
   "property": "C73",
   "status": "proved",
   "theorems": [
    "C73_joint",
    "C73_product",
    "C73_parts",
    "C73_accepted",
    "C73_throwing_refuted",
    "C73_looking_refuted"
   ],
   "note": "C73_joint: behaviour with arbitrary user code; C73_product, C73_parts: the program is its regions side by side; C73_accepted: which of these programs compile; C73_throwing_refuted, C73_looking_refuted: without either condition regions influence each other."
  },
  {
   "property": "C74",
   "status": "proved",
   "theorems": [
    "C74_interpreter",
    "C74_rows",
    "C74_undefined"
   ],
   "note": "C74_interpreter: library and interpreter (Interp.v) agree on every session, undefined behaviour and non-termination included; C74_rows: the interpreter uses the rows of the program in the order of its tables; C74_undefined: undefined behaviour and endless completion coincide."
  },
  {
   "property": "C75",
   "status": "proved",
   "theorems": [
    "C75_names",
    "C75_rejected",
    "C75_user",
    "C75_merged_refuted"
   ],
   "note": "C75_names, C75_rejected: same compilation, same sessions; C75_user: for names that can be taken back all user code has a counterpart; C75_merged_refuted: merging two classes, events, guard types or action types can be noticed."
  },
  {
   "property": "C76",
   "status": "proved",
   "theorems": [
    "C76_context",
    "C76_unmentioned",
    "C76_order",
    "C76_mentioned_refuted"
   ],
   "note": "C76_context: the general statement; C76_unmentioned, C76_order: two ways to meet its hypothesis; C76_mentioned_refuted: the restriction to mentioned classes is needed. Stated for the model, where a program is a list of class definitions."
  },
  {
   "property": "C77",
   "status": "proved",
   "theorems": [
    "C77_related",
    "C77_translated",
    "C77_invariant"
   ],
   "note": "C77_related: the general statement (relations); C77_translated: functions; C77_invariant: invariants of data."
  },
  {
   "property": "C78",
   "status": "proved",
   "theorems": [
    "C78_two_machines"
   ],
   "note": "The model keeps all data of a machine in its object, as class sm does (its only static member is the constexpr rootState)."
  },
  {
   "property": "C79",
   "status": "proved",
   "theorems": [
    "C79_script"
   ],
   "note": "The answers of user code are all that the library sees of it."
  },
  {
   "property": "C80",
   "status": "proved",
   "theorems": [
    "C80_covers",
    "C80_reached",
    "C80_always",
    "C80_test"
   ],
   "note": "Exact where the exploration gives a list; when it gives one is C81."
  },
  {
   "property": "C81",
   "status": "proved",
   "theorems": [
    "C81_ends",
    "C81_always_ends"
   ],
   "note": "Completes C80. The search space is bounded by the dispatch tables, the calls and the queue bound; one call uses boundedly many answers. C81_unbounded: a deferring machine without a finite list."
  },
  {
   "property": "C82",
   "status": "proved",
   "theorems": [
    "C82_tree",
    "C82_first_difference"
   ],
   "note": "Events without data (payload type unit); C84 is the version with data."
  },
  {
   "property": "C83",
   "status": "proved",
   "theorems": [
    "C83_same",
    "C83_same_but",
    "C83_differ",
    "C83_decides"
   ],
   "note": "Sound, complete and, for machines that can be explored (C81), total. Events without data (C85 is the version with data); no set_dependency. C83_flat: a machine with a sub machine against the same in one table; C83_wrong: a row missing is found."
  },
  {
   "property": "C84",
   "status": "proved",
   "theorems": [
    "C84_tree",
    "C84_flow"
   ],
   "note": "All payload types at once; number 0 is the payload of the anonymous event."
  },
  {
   "property": "C85",
   "status": "proved",
   "theorems": [
    "C85_same",
    "C85_same_but",
    "C85_differ",
    "C85_decides"
   ],
   "note": "Sound for every payload type, complete with natural numbers as payloads and, for machines that can be explored (C81), total. No set_dependency. C85_behind: two machines that C83 calls the same if the event does not count and C85 tells apart by the payload."
  },
  {
   "property": "C86",
   "status": "proved",
   "theorems": [
    "C86_entered",
    "C86_left",
    "C86_balance",
    "C86_session",
    "C86_checks",
    "C86_entered_refuted",
    "C86_left_refuted",
    "C86_throws_refuted",
    "C86_set_refuted"
   ],
   "note": "The conditions are stated in the words of the table (entered_by_name, left_by_name) and decided by entered_ok, left_ok; C86_entered_refuted, C86_left_refuted, C86_throws_refuted, C86_set_refuted show that they cannot go. A composite inside of the class does not count as being in the class (the library keeps one parent per region)."
  },
  {
   "property": "C87",
   "status": "proved",
   "theorems": [
    "C87_world",
    "C87_session",
    "C87_kept",
    "C87_turn",
    "C87_changed",
    "C87_out_of_reach",
    "C87_per_composite_refuted",
    "C87_own_entry_refuted",
    "C87_restored_refuted"
   ],
   "note": "members says what data members of a state are: user code that neither gets the object nor makes it leaves them alone. C87_per_composite_refuted, C87_own_entry_refuted and C87_restored_refuted show three expectations that fail."
  },
  {
   "property": "C88",
   "status": "proved",
   "theorems": [
    "C88_line",
    "C88_turn",
    "C88_not_early",
    "C88_length",
    "C88_when_ready_refuted"
   ],
   "note": "served names the call that takes the event from the queue and offers it (queue_use of C21). C88_when_ready_refuted is the expectation that fails."
  },
  {
   "property": "C89",
   "status": "proved",
   "theorems": [
    "C89_law",
    "C89_bound",
    "C89_session",
    "C89_checks",
    "C89_once",
    "C89_drawer",
    "C89_throws_refuted",
    "C89_set_refuted"
   ],
   "note": "generalises C86 to any weights. C89_throws_refuted and C89_set_refuted show that the hypotheses on exceptions and set_current_state are needed."
  },
  {
   "property": "C90",
   "status": "proved",
   "theorems": [
    "C90_event",
    "C90_start",
    "C90_check",
    "C90_player",
    "C90_marked_refuted",
    "C90_exits_refuted",
    "C90_levels_refuted",
    "C90_depth_refuted",
    "C90_completion_refuted",
    "C90_types_refuted",
    "C90_start_refuted"
   ],
   "note": "the C90_..._refuted theorems show where the library is no UML state machine; uml_like excludes these programs. C90_check is one direction only (the check is sufficient)."
  },
  {
   "property": "C91",
   "status": "proved",
   "theorems": [
    "C91_before",
    "C91_after",
    "C91_after_refuted",
    "C91_benchmark",
    "C91_work",
    "C91_variant",
    "C91_variant_refuted"
   ],
   "note": "C91_after_refuted and C91_variant_refuted show where the hand-written programs of the repository differ from the library."
  },
  {
   "property": "C92",
   "status": "proved",
   "theorems": [
    "C92_flat",
    "C92_paths",
    "C92_asked",
    "C92_tower"
   ],
   "note": "C92_tower is the family with exponential growth; C92_flat and C92_asked hold for all programs."
  },
  {
   "property": "C93",
   "status": "proved",
   "theorems": [
    "C93_restored",
    "C93_behaves",
    "C93_history_refuted",
    "C93_regions_refuted",
    "C93_waiting_refuted",
    "C93_objects_refuted"
   ],
   "note": "The four _refuted theorems show that no condition of C93_restored and C93_behaves can be dropped."
  },
  {
   "property": "C94",
   "status": "proved",
   "theorems": [
    "C94_defined",
    "C94_states",
    "C94_objects",
    "C94_tables",
    "C94_filled",
    "C94_handlers"
   ],
   "note": "C94_defined also justifies the condition on the root in the model of compilation."
  },
  {
   "property": "C95",
   "status": "proved",
   "theorems": [
    "C95_newest",
    "C95_overwritten",
    "C95_again",
    "C95_dependent_refuted",
    "C95_counting_refuted"
   ],
   "note": "C95_dependent_refuted and C95_counting_refuted show that neither condition on the guards can be dropped."
  },
  {
   "property": "C96",
   "status": "proved",
   "theorems": [
    "C96_forced",
    "C96_prevented",
    "C96_recovered",
    "C96_lost",
    "C96_decided"
   ],
   "note": "Relative to the exploration of C80: a machine with unbounded deferral is not decided."
  },
  {
   "property": "C97",
   "status": "proved",
   "theorems": [
    "C97_compiles",
    "C97_merged",
    "C97_least",
    "C97_attained",
    "C97_told_the_state_refuted"
   ],
   "note": "For programs with one table and one region (as C65)."
  },
  {
   "property": "C98",
   "status": "proved",
   "theorems": [
    "C98_compiles",
    "C98_watched",
    "C98_well_formed",
    "C98_logged",
    "C98_recording",
    "C98_null_refuted",
    "C98_types_refuted"
   ],
   "note": "Runs of the logged program that dereference a null pointer are excluded; C98_null_refuted shows why."
  },
  {
   "property": "C99",
   "status": "proved",
   "theorems": [
    "C99_shape",
    "C99_compiles",
    "C99_unnested",
    "C99_well_formed",
    "C99_names",
    "C99_history_refuted"
   ],
   "note": "Excluded: classes with two regions, history, functions that create or reuse states (C99_history_refuted shows why for history). Client calls are restricted to those that name no state."
  },
  {
   "property": "C100",
   "status": "proved",
   "theorems": [
    "C100_flat",
    "C100_merged",
    "C100_least",
    "C100_attained"
   ],
   "note": "The programs of C99 without deferred events and anonymous rows; C100_least needs that the places mentioned by rows are led to."
  },
  {
   "property": "C101",
   "status": "proved",
   "theorems": [
    "C101_compiles",
    "C101_trimmed",
    "C101_least",
    "C101_attained",
    "C101_nested",
    "C101_nested_least",
    "C101_nested_attained",
    "C101_events_refuted"
   ],
   "note": "C101_events_refuted: events with rows only in states the program never gets to are not events of the trimmed program."
  },
  {
   "property": "C102",
   "status": "proved",
   "theorems": [
    "C102_rows",
    "C102_answers",
    "C102_one_client",
    "C102_settled",
    "C102_unique",
    "C102_least",
    "C102_count",
    "C102_nested"
   ],
   "note": ""
  },
  {
   "property": "C103",
   "status": "proved",
   "theorems": [
    "C103_events",
    "C103_yes",
    "C103_no",
    "C103_nested_yes",
    "C103_nested_no",
    "C103_iff",
    "C103_nested_iff",
    "C103_nested_one_client"
   ],
   "note": ""
  }
 ]
}