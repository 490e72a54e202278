{
 "claims": [
  {
   "property": "C01",
   "status": "proved",
   "theorems": [
    "C01_model_add",
    "C01_model_remove",
    "C01_policy_set"
   ],
   "note": "Proved for all histories over comma-free rules, which is what the property quantifies over."
  },
  {
   "property": "C02",
   "status": "partial",
   "theorems": [
    "C02_no_interference_refuted",
    "C02_no_interference_partial",
    "C02_collision_exact"
   ],
   "note": "False in general: two rules whose comma-joined texts agree are treated as one (C02_no_interference_refuted). Holds for comma-free values (partial); C02_collision_exact characterises every collision."
  },
  {
   "property": "C03",
   "status": "proved",
   "theorems": [
    "C03_domain_links_set",
    "C03_reserved_domain_refuted",
    "C03_extra_values_refuted",
    "C03_links_set",
    "C03_short_rule_panics"
   ],
   "note": "For every history on a role manager without matcher: AddRule/RemoveRule report truthfully and emit exactly one event on a change; the listing is duplicate free and shows exactly the links. A rule with fewer than two values panics (C03_short_rule_panics)."
  },
  {
   "property": "C04",
   "status": "proved",
   "theorems": [
    "C04_whole_rule_set"
   ],
   "note": "The rule set of a model (all sections, RangeRules) after any history of calls with section-prefixed rules is exactly the adds not undone by removes, each once (C04_whole_rule_set), for every iteration order."
  },
  {
   "property": "C05",
   "status": "partial",
   "theorems": [
    "C05_stops_refuted",
    "C05_stops_partial"
   ],
   "note": "Refuted at the model level: RangeRules of a model continues with the next section, or the next role link, after the callback returned false (C05_stops_refuted). C05_stops_partial: with one policy section and no role sections the walk stops. See also the policy-level theorem."
  },
  {
   "property": "C06",
   "status": "partial",
   "theorems": [
    "C06_rejected_refuted",
    "C06_rejected_partial"
   ],
   "note": "Refuted for the empty rule and the empty key: AddRule/RemoveRule index panic (C06_rejected_refuted). C06_rejected_partial: every rule with a non-empty key naming no defined section is answered false with an error, the whole model is unchanged and no event is emitted, after any history."
  },
  {
   "property": "C07",
   "status": "partial",
   "theorems": [
    "C07_model_events_partial",
    "C07_clear_refuted",
    "C07_events_mirror",
    "C07_one_event_per_change"
   ],
   "note": "Replaying the event stream of a policy gives its rule set, with one event per effective change, also for Clear of the policy itself. For the model, false for ClearPolicy, which empties a section without announcing the removals (C07_clear_refuted); proved for all other calls (C07_model_events_partial)."
  },
  {
   "property": "C08",
   "status": "partial",
   "theorems": [
    "C08_unique_reading",
    "C08_boolean_meaning_refuted",
    "C08_boolean_meaning_partial",
    "C08_without_or",
    "C08_or_of_faithful",
    "C08_compiling_terminates"
   ],
   "note": "False for (a || b) && (c && d) under every slice growth policy, in both directions (refuted). Proved for every expression in which no && has an || on its left and an && on its right; compilation terminates on every token list."
  },
  {
   "property": "C09",
   "status": "partial",
   "theorems": [
    "C09_no_panic_refuted",
    "C09_add_panics_iff",
    "C09_no_panic_partial"
   ],
   "note": "False: a || b || c compiles but adding any rule panics (refuted). C09_add_panics_iff: exactly the trees with three alternatives at one point panic; two-way expressions never panic unless the evaluator does, whatever the rules."
  },
  {
   "property": "C10",
   "status": "partial",
   "theorems": [
    "C10_reported_exactly",
    "C10_transparent_refuted",
    "C10_transparent_partial",
    "C10_only_satisfying",
    "C10_filter_exactly",
    "C10_filter_only_satisfying",
    "C10_filter_partial"
   ],
   "note": "False with commas in values (refuted). Proved for rules that comma-joined texts tell apart (told_apart; in particular comma-free ones) and that have the values the conditions name, conditions that depend on no other values of a rule (own_values; eval included), two-way expressions and any insertion/visiting order; C10_reported_exactly gives the exact multiset after additions, removals and clears; C10_only_satisfying needs no assumption on evaluation errors. Whole calls: C10_filter_* say what Filter returns after any history of the model."
  },
  {
   "property": "C11",
   "status": "partial",
   "theorems": [
    "C11_removed_refuted",
    "C11_removed_partial",
    "C11_filter_partial"
   ],
   "note": "False only for the rule of empty values (refuted); proved for every rule with a non-empty value, also when evaluation fails half way. Whole calls: C11_filter_partial."
  },
  {
   "property": "C12",
   "status": "partial",
   "theorems": [
    "C12_revoked_refuted",
    "C12_revoked_exact",
    "C12_revoked_partial",
    "C12_filter_partial",
    "C12_enforce_partial"
   ],
   "note": "False: index nodes are not pruned (refuted twice); C12_revoked_exact says exactly when a match without a rule is reported; C12_revoked_partial covers requests whose last conditions are false for the blank rule. Whole calls: C12_filter_partial and C12_enforce_partial (allow-override decision in terms of the rules present)."
  },
  {
   "property": "C13",
   "status": "partial",
   "theorems": [
    "C13_once_refuted",
    "C13_once_partial",
    "C13_once_without_or",
    "C13_filter_partial"
   ],
   "note": "False for overlapping || (refuted); exact number of reports per rule; never twice in matchers without ||. Whole calls: C13_filter_partial."
  },
  {
   "property": "C14",
   "status": "proved",
   "theorems": [
    "C14_blank_rule"
   ],
   "note": "Every narrow tree, every order; also after Clear."
  },
  {
   "property": "C15",
   "status": "partial",
   "theorems": [
    "C15_enforce_error",
    "C15_enforce_fails_closed",
    "C15_errors_refuted",
    "C15_errors_partial",
    "C15_no_spurious_error"
   ],
   "note": "False: errors below the first stage are swallowed and end the search (refuted); matchers with one level report every error; errors are never spurious. Whole calls: C15_enforce_error, C15_enforce_fails_closed."
  },
  {
   "property": "C16",
   "status": "partial",
   "theorems": [
    "C16_own_values_refuted",
    "C16_own_values_partial"
   ],
   "note": "False with eval of a text that names other columns (refuted); proved for conditions that depend, of the rules in question, on the values they name only (own_values)."
  },
  {
   "property": "C17",
   "status": "partial",
   "theorems": [
    "C17_order_refuted",
    "C17_order_independent_partial",
    "C17_enforce_refuted",
    "C17_enforce_partial"
   ],
   "note": "Effector level: false when a matching rule has an effect other than allow/deny (refuted); proved otherwise. Whole calls: C17_enforce_partial, C17_enforce_refuted."
  },
  {
   "property": "C18",
   "status": "proved",
   "theorems": [
    "C18_allow_override",
    "C18_enforce"
   ],
   "note": "Every text that spells the effect up to spaces, every sequence of matches. C18_enforce states it for whole Enforce calls against what Filter returns."
  },
  {
   "property": "C19",
   "status": "proved",
   "theorems": [
    "C19_deny_override",
    "C19_enforce"
   ],
   "note": "Every text that spells the effect up to spaces, every sequence of matches. C19_enforce states it for whole Enforce calls against what Filter returns."
  },
  {
   "property": "C20",
   "status": "partial",
   "theorems": [
    "C20_and_exact",
    "C20_allow_and_no_deny_partial",
    "C20_granted_sound",
    "C20_allow_and_no_deny_refuted",
    "C20_enforce_exact",
    "C20_enforce_partial",
    "C20_enforce_refuted"
   ],
   "note": "The code lets the first match decide (C20_and_exact); documented meaning refuted with indeterminate effects, proved without them; never grants wrongly (C20_granted_sound). Whole calls: C20_enforce_exact, _partial, _refuted."
  },
  {
   "property": "C21",
   "status": "proved",
   "theorems": [
    "C21_unsupported_denies",
    "C21_enforce"
   ],
   "note": "Every other effect text. C21_enforce states it for whole Enforce calls."
  },
  {
   "property": "C22",
   "status": "partial",
   "theorems": [
    "C22_unsupported_reported_refuted",
    "C22_effector_reports_partial",
    "C22_enforce_refuted"
   ],
   "note": "The effector reports the error, Enforce drops it (refuted). Whole calls: C22_enforce_refuted."
  },
  {
   "property": "C23",
   "status": "partial",
   "theorems": [
    "C23_no_effect_column",
    "C23_effect_column_partial",
    "C23_omitted_effect_refuted",
    "C23_omitted_effect_exact"
   ],
   "note": "Holds for rules with a value in every column; a rule that omits only the trailing effect is read wrongly (refuted), C23_omitted_effect_exact says exactly how."
  },
  {
   "property": "C24",
   "status": "partial",
   "theorems": [
    "C24_named_column_partial",
    "C24_named_column_refuted",
    "C24_unknown_parameter",
    "C24_policy_arguments_found",
    "C24_no_policy_arguments"
   ],
   "note": "Holds for rules with at most one value per column; over-long rules shift by one column (refuted)."
  },
  {
   "property": "C25",
   "status": "partial",
   "theorems": [
    "C25_literal_refuted",
    "C25_only_dots_change",
    "C25_no_dot_partial",
    "C25_arguments_rewritten"
   ],
   "note": "Matcher rewriting also changes quoted literals such as \"server.local\" (refuted); dot-free texts are unchanged and only '.' can become '_'."
  },
  {
   "property": "C26",
   "status": "proved",
   "theorems": [
    "C26_bounded_reachability"
   ],
   "note": "HasLink = equality or a chain of 1..level-1 links, for every history and every iteration order."
  },
  {
   "property": "C27",
   "status": "partial",
   "theorems": [
    "C27_read_only",
    "C27_read_only_refuted",
    "C27_read_only_partial"
   ],
   "note": "Proved in full without a matcher; with a matcher it is refuted (two name pairs share a cache key when a name contains '$') and proved for names without '$'."
  },
  {
   "property": "C28",
   "status": "proved",
   "theorems": [
    "C28_roles_users_exact",
    "C28_inverse"
   ],
   "note": "Exact, duplicate free, inverse to each other, for every history without matcher. The pattern case is C29_roles_users_partial."
  },
  {
   "property": "C29",
   "status": "partial",
   "theorems": [
    "C29_pattern_roles_refuted",
    "C29_order_refuted",
    "C29_pattern_roles_partial",
    "C29_full_claim_partial",
    "C29_order_independent_partial",
    "C29_roles_users_partial"
   ],
   "note": "Refuted in general (pattern on both sides of a link; one pattern covering another makes order matter). Proved: exact characterisation for '$'-free names where no pattern covers another, the full claim if also no link joins two patterns, and order independence."
  },
  {
   "property": "C30",
   "status": "partial",
   "theorems": [
    "C30_cache_transparent_refuted",
    "C30_cache_transparent_partial",
    "C30_queries_partial"
   ],
   "note": "Refuted for names with '$' (key collision). Proved for all '$'-free names, and for arbitrary query sequences the answers about '$'-free names are right."
  },
  {
   "property": "C31",
   "status": "proved",
   "theorems": [
    "C31_bounded_and_consistent",
    "C31_get_only_stored",
    "C31_evicts_least_recently_used",
    "C31_no_other_eviction",
    "C31_capacity_zero_panics"
   ],
   "note": "Pointer-level model refined to a recency list; every history, every capacity >= 1; capacity 0 panics."
  },
  {
   "property": "C32",
   "status": "partial",
   "theorems": [
    "C32_last_put_refuted",
    "C32_first_value_wins",
    "C32_last_put_partial"
   ],
   "note": "A second Put of a present key keeps the old value (refuted); exact behaviour and the memo-table case proved."
  },
  {
   "property": "C33",
   "status": "partial",
   "theorems": [
    "C33_isolated_partial",
    "C33_isolated_refuted",
    "C33_isolated_places",
    "C33_bounded_reachability_partial",
    "C33_roles_users_partial"
   ],
   "note": "False for the two names the manager treats specially, \"RoleManager\" and \"redundant_role\" (C33_isolated_refuted, C34_special_names_refuted). Proved for all other domain names and any nesting (C33_isolated_partial, C33_bounded_reachability_partial, C33_roles_users_partial); C33_isolated_places covers every domain list by the place it leads to. With a role matcher, names without \"$\" only (C30)."
  },
  {
   "property": "C34",
   "status": "partial",
   "theorems": [
    "C34_renaming_refuted",
    "C34_special_names_refuted",
    "C34_renaming_partial"
   ],
   "note": "Refuted: RoleManager and redundant_role are special. All other names can be renamed freely (C34_renaming_partial)."
  },
  {
   "property": "C35",
   "status": "partial",
   "theorems": [
    "C35_patterns_apply_refuted",
    "C35_patterns_apply_partial",
    "C35_roles_users_partial",
    "C35_add_reports_partial"
   ],
   "note": "Refuted for nested domains. Proved exactly (HasLink, GetRoles, GetUsers, AddLink result) for calls naming one domain; the missing part is nested patterns, patterns covering other patterns, and names with \"$\"."
  },
  {
   "property": "C36",
   "status": "partial",
   "theorems": [
    "C36_removed_refuted",
    "C36_blocked_refuted",
    "C36_hidden_refuted",
    "C36_explicit_effective_partial"
   ],
   "note": "Refuted in all three respects (removed, blocked, hidden). Without deletions explicit links stay effective."
  },
  {
   "property": "C37",
   "status": "partial",
   "theorems": [
    "C37_set_matcher_domains_refuted",
    "C37_set_domain_matcher_refuted",
    "C37_set_domain_matcher_partial",
    "C37_set_matcher_domains_partial",
    "C37_set_matcher_partial"
   ],
   "note": "Role manager: listing unchanged and queries follow the pattern graph (C37_set_matcher_partial); the same for every, also nested, domain of a manager without domain matcher (C37_set_matcher_domains_partial). SetDomainMatcher after any history of calls naming one domain each, links deleted or cleared included: HasLink, GetRoles and GetUsers then follow exactly the present links of the domain and of the patterns covering it (C37_set_domain_matcher_partial). Refuted: SetMatcher under a domain matcher, replacing a domain matcher; links flagged redundant are dropped."
  },
  {
   "property": "C38",
   "status": "partial",
   "theorems": [
    "C38_no_crash_refuted",
    "C38_read_only_partial",
    "C38_read_only_patterns_partial"
   ],
   "note": "Refuted: querying an unused pattern domain makes a later query dereference nil. Read-only without domain matcher for every domain list, and with one for queries about ordinary domains in add-only histories."
  },
  {
   "property": "C39",
   "status": "proved",
   "theorems": [
    "C39_flush",
    "C39_no_error_means_delivered",
    "C39_every_change_once"
   ],
   "note": "Over every reachable enforcer state: C39_flush (success, exact calls, queue empty), C39_no_error_means_delivered (any adapter), C39_every_change_once (conservation over whole histories)."
  },
  {
   "property": "C40",
   "status": "partial",
   "theorems": [
    "C40_storage_follows_partial",
    "C40_after_flush_partial",
    "C40_autosave_partial",
    "C40_clear_refuted",
    "C40_extra_values_refuted"
   ],
   "note": "Proved for every history of rule calls with rules in listed form (C40_storage_follows_partial, with C40_after_flush_partial and C40_autosave_partial). Missing and false: ClearPolicy announces nothing (C40_clear_refuted); a grouping section without domains drops extra values that are stored (C40_extra_values_refuted)."
  },
  {
   "property": "C41",
   "status": "partial",
   "theorems": [
    "C41_failed_flush_refuted",
    "C41_failed_batch_refuted",
    "C41_failed_flush_partial"
   ],
   "note": "Refuted for simple and batch adapters (the refused change or run is dropped, for batches also the first change after it). C41_failed_flush_partial is the exact effect of every failing Flush."
  },
  {
   "property": "C42",
   "status": "proved",
   "theorems": [
    "C42_add_wait"
   ],
   "note": "C42_add_wait: any n >= 1, any state with autosave on and no wait pending, any model calls announcing fewer than n, or exactly n, changes."
  },
  {
   "property": "C43",
   "status": "proved",
   "theorems": [
    "C43_load",
    "C43_delivery_after_load"
   ],
   "note": "C43_load and C43_delivery_after_load: every reachable state, every adapter content, also when the model or the adapter reports an error. A nil adapter panics (C45)."
  },
  {
   "property": "C44",
   "status": "proved",
   "theorems": [
    "C44_set_adapter",
    "C44_old_adapter_silent",
    "C44_new_adapter"
   ],
   "note": "C44_set_adapter, C44_old_adapter_silent (whatever adapters answer), C44_new_adapter. What happens to pending changes is C60."
  },
  {
   "property": "C45",
   "status": "partial",
   "theorems": [
    "C45_path_refuted",
    "C45_path_loads_partial",
    "C45_adapter_value"
   ],
   "note": "Refuted for every path (inner a3 := shadows the variable). C45_path_loads_partial: the rules are loaded. C45_adapter_value: adapter values are used."
  },
  {
   "property": "C46",
   "status": "partial",
   "theorems": [
    "C46_round_trip_refuted",
    "C46_round_trip_partial"
   ],
   "note": "Refuted for arbitrary values (no quoting when saving): comma, leading white space, newline, leading #, quote, empty rule. C46_round_trip_partial is an if-and-only-if: saving then loading gives the same list exactly when every rule is plain_line (FileSpec.v), for every previous content and every way the text is split into writes."
  },
  {
   "property": "C47",
   "status": "partial",
   "theorems": [
    "C47_add_rules_partial",
    "C47_remove_rules_partial",
    "C47_one_rule_partial",
    "C47_unreadable_file",
    "C47_quoted_file_refuted"
   ],
   "note": "Proved for files and added rules that are plain (removed rules: comma-free); C47_quoted_file_refuted shows that an edit of a file with a quoted value changes another rule. An unreadable or missing file is reported and left alone."
  },
  {
   "property": "C48",
   "status": "partial",
   "theorems": [
    "C48_crash_atomic_refuted",
    "C48_crash_states_partial",
    "C48_loaded_after_crash_partial",
    "C48_save_reports_errors"
   ],
   "note": "Refuted: remove, create, write is not atomic, and a cut-off file can hold a rule that is in neither version. C48_crash_states_partial is the exact set of contents after a crash; C48_loaded_after_crash_partial bounds what is then loaded; C48_save_reports_errors covers I/O errors."
  },
  {
   "property": "C49",
   "status": "proved",
   "theorems": [
    "C49_batch_calls"
   ],
   "note": "C49_batch_calls covers both calls, all failing positions and all states; that the call does not panic with an adapter that does not fail is C62_no_failure_no_panic."
  },
  {
   "property": "C50",
   "status": "partial",
   "theorems": [
    "C50_gets_answer",
    "C50_answers_stored",
    "C50_serial_partial",
    "C50_consistent_refuted"
   ],
   "note": "Interleaving model of Get (read lock) and Put (write lock), every list access of a Get a separate step. Proved: concurrent Gets never panic, leave the map alone and each answers what is stored; under any schedule of Gets and Puts an answer is a value stored under that key; when no two Gets overlap the history is linearizable, consistent and bounded. Refuted in full: two overlapping Gets (both only hold the read lock but both move list elements) corrupt the list, after which a Put panics."
  },
  {
   "property": "C51",
   "status": "partial",
   "theorems": [
    "C51_independent_partial",
    "C51_no_eval_partial",
    "C51_ends",
    "C51_independent_refuted"
   ],
   "note": "Interleaving model of Enforce searches sharing the function map and the eval parameters. Proved: under any schedule in which a call whose conditions use eval does not overlap with another call (so, with no eval: any schedule) every call returns what it returns on its own and no panic appears that no call has on its own; every call ends. Refuted in full: two overlapping calls with eval(p.rule) - bob is allowed with the request of alice. The model is not changed meanwhile (no locks exist around model updates, see C65/DESIGN)."
  },
  {
   "property": "C52",
   "status": "partial",
   "theorems": [
    "C52_path_match_refuted",
    "C52_path_match_exact",
    "C52_path_match_sound",
    "C52_path_match_partial"
   ],
   "note": "False for paths that contain a literal '*' segment (refuted); C52_path_match_exact characterises both functions for all strings; no false match for any string; full equivalence for star-free paths (partial)."
  },
  {
   "property": "C53",
   "status": "proved",
   "theorems": [
    "C53_non_pattern_matches_itself_only",
    "C53_is_pattern_exact",
    "C53_path_matchers",
    "C53_prefix_matcher"
   ],
   "note": "Non-patterns match themselves only, for all strings; IsPattern characterised exactly; prefix matcher exact."
  },
  {
   "property": "C54",
   "status": "proved",
   "theorems": [
    "C54_reload",
    "C54_definitions",
    "C54_model_text"
   ],
   "note": "C54_definitions: every request, policy, role, effect definition text prints as key = text where the text reads as the same definition. C54_model_text: Model.String after any history lists exactly the definitions in force under their section header in key order. C54_reload: that text is the text of a configuration whose load into a new model gives the same definitions and the same text. The ini parser (external library) that reads model text is not modelled: what it does with comment characters or quotes inside a value is outside the theorem."
  },
  {
   "property": "C55",
   "status": "proved",
   "theorems": [
    "C55_get_distinct",
    "C55_missing_column_panics"
   ],
   "note": "GetDistinct over comma-free rules, any map order; missing column is exactly an index panic."
  },
  {
   "property": "C56",
   "status": "partial",
   "theorems": [
    "C56_definitions",
    "C56_bad_key",
    "C56_empty_key_panics",
    "C56_matchers_current_refuted",
    "C56_matchers_current_partial"
   ],
   "note": "Which definition is in force is exact (C56_definitions, C56_bad_key). The half about matchers is refuted (C56_matchers_current_refuted: redefining or removing p leaves configured matchers on the old rules); C56_matchers_current_partial proves it from the next build on."
  },
  {
   "property": "C57",
   "status": "partial",
   "theorems": [
    "C57_unknown_refuted",
    "C57_role_manager_refuted",
    "C57_reported_partial"
   ],
   "note": "Refuted: unknown request definitions and role managers panic; C57_unknown_refuted and C57_role_manager_refuted characterise exactly when. C57_reported_partial: unknown matchers and ClearPolicy keys are reported as errors."
  },
  {
   "property": "C58",
   "status": "partial",
   "theorems": [
    "C58_left_alone_partial",
    "C58_answers",
    "C58_copied_refuted"
   ],
   "note": "Heap model of one policy section with its matcher and the storage queue, slices as references. Proved: while the caller does not write to a slice it passed, everything it can see equals a system that copies; with any writes at all AddRule and RemoveRule still answer as if they had copied and the same keys are present. Refuted in full: overwriting a passed slice changes decisions and what a later Flush stores."
  },
  {
   "property": "C59",
   "status": "partial",
   "theorems": [
    "C59_rbac_partial",
    "C59_blank_refuted",
    "C59_comma_refuted"
   ],
   "note": "C59_rbac_partial: every history of the documented RBAC model (rules added, removed, cleared before and after building, all map orders): no call panics, Enforce gives no error and allows exactly when a present rule (role, obj, act) exists with sub = role or a chain of at most nine present grouping rules. Assumes what `understands` says of govaluate, policy values without commas and a non-empty action. Both restrictions are needed: C59_comma_refuted, C59_blank_refuted. rbac_understands shows an evaluator meeting the assumption."
  },
  {
   "property": "C60",
   "status": "partial",
   "theorems": [
    "C60_pending_changes_refuted",
    "C60_flush_first_partial"
   ],
   "note": "Refuted. C60_flush_first_partial: nothing is lost if Flush is called first."
  },
  {
   "property": "C61",
   "status": "partial",
   "theorems": [
    "C61_set_model_refuted",
    "C61_set_model_and_adapter_partial"
   ],
   "note": "C61_set_model_refuted shows the failure for every reachable state, model and later history; C61_set_model_and_adapter_partial: works when the adapter is set again."
  },
  {
   "property": "C62",
   "status": "partial",
   "theorems": [
    "C62_failure_is_panic_refuted",
    "C62_no_failure_no_panic"
   ],
   "note": "C62_failure_is_panic_refuted: exact condition (simple adapter, empty queue). C62_no_failure_no_panic: proved for all calls and states."
  },
  {
   "property": "C63",
   "status": "proved",
   "theorems": [
    "C63_split_key"
   ],
   "note": "C63_split_key is an equivalence that determines the result."
  },
  {
   "property": "C64",
   "status": "partial",
   "theorems": [
    "C64_state_unchanged",
    "C64_later_same",
    "C64_no_side_effects_partial",
    "C64_no_side_effects_refuted"
   ],
   "note": "False in full (C64_no_side_effects_refuted: a Filter with an ad-hoc matcher text returns an empty list and no error, and afterwards AddRule to that section panics). C64_state_unchanged: after any Enforce or Filter that returned, also with an ad-hoc text, the rules, the definitions, the printed model and every answer to a query are as before. C64_later_same: the same after any later calls that return with and without the query. C64_no_side_effects_partial: when ad-hoc texts give at most two alternatives at each point the later calls do return and answer the same; missing: wider ad-hoc texts, for which it fails."
  },
  {
   "property": "C65",
   "status": "partial",
   "theorems": [
    "C65_filter_partial",
    "C65_enforce_partial",
    "C65_unknown_request",
    "C65_defaults_missing",
    "C65_errors_refuted"
   ],
   "note": "False in full: C65_errors_refuted (on reachable models: an unknown request definition named by an option, a call before BuildMatchers, a removed policy definition, a matcher on a grouping section, and a non-string value handed to a role function make Enforce panic), C65_unknown_request and C65_defaults_missing (the first two for every model). C65_filter_partial and C65_enforce_partial: when the request definitions and a matcher are there, matcher texts give at most two alternatives at each point and no condition panics - for Enforce also when the matchers are on defined policy sections - the calls return a result or an error; missing: the other cases, where they panic."
  },
  {
   "property": "C66",
   "status": "proved",
   "theorems": [
    "C66_registered",
    "C66_role_function",
    "C66_domain_function",
    "C66_other_arguments",
    "C66_remove_answer"
   ],
   "note": "Functions in a matcher after any history, any map order; role managers without custom matchers."
  },
  {
   "property": "C67",
   "status": "partial",
   "theorems": [
    "C67_no_panic_partial",
    "C67_panics_exactly",
    "C67_no_panic_refuted"
   ],
   "note": "False in full (C67_no_panic_refuted: a matcher whose text offers three alternatives at one point makes every later AddRule to its section panic; a grouping rule with one name and SetDef with an empty key panic too). C67_no_panic_partial: after any history of calls whose keys are not empty, whose grouping rules have two names and whose matcher texts give at most two alternatives at each point, no call panics. C67_panics_exactly: after such a history, exactly which next calls panic."
  },
  {
   "property": "C68",
   "status": "proved",
   "theorems": [
    "C68_load_is_calls",
    "C68_loaded_definitions",
    "C68_bad_key"
   ],
   "note": "C68_load_is_calls: loading any configuration into any model equals SetDef for its definitions in text order and then BuildMatchers, up to the first error. C68_loaded_definitions: which definitions hold after a successful load, on a model with any history. C68_bad_key: exactly what happens at the first key without its section's letter (error; an empty key panics, which go-ini cannot produce). The parser that turns text into sections and keys (go-ini) is outside the model."
  },
  {
   "property": "C69",
   "status": "partial",
   "theorems": [
    "C69_all_domains",
    "C69_domains_of_name_refuted",
    "C69_domains_of_name_partial"
   ],
   "note": "C69_all_domains is exact for every history. GetDomains is refuted (C69_domains_of_name_refuted: domains whose names joined by / give the same text, e.g. a,b and a/b, are looked at only once, so a domain of the name can be missing). C69_domains_of_name_partial: it never lists a wrong domain, lists none twice, changes no later answer, and is complete when no two domains have the same text. Reserved domain names and domain matchers are outside (C34, C35)."
  },
  {
   "property": "C70",
   "status": "partial",
   "theorems": [
    "C70_wrong_arguments",
    "C70_answers",
    "C70_no_panic_refuted",
    "C70_panics_exactly"
   ],
   "note": "No function panics is refuted: regexMatch panics on an invalid pattern, ipMatch on a text that is not an address. Wrong numbers or types of arguments are always an error, and the panics are characterised exactly. regexp and path.Match are parameters."
  },
  {
   "property": "C71",
   "status": "proved",
   "theorems": [
    "C71_ipv4_network",
    "C71_ipv4_address",
    "C71_ipv4_texts",
    "C71_ipv6_network",
    "C71_long_prefix"
   ],
   "note": "IPv4 from the texts to the decision; which texts are IPv4 addresses exactly; IPv6 networks and addresses for any reader of IPv6 texts (a parameter), including that a network of fewer than 96 bits contains no IPv4 address."
  },
  {
   "property": "C72",
   "status": "proved",
   "theorems": [
    "C72_functions",
    "C72_builtin_names"
   ],
   "note": "C72_functions says which function a name has, C72_builtin_names what the built-in names compute, without the model's table."
  },
  {
   "property": "C73",
   "status": "proved",
   "theorems": [
    "C73_filter_text",
    "C73_enforce_text"
   ],
   "note": "Statement scoped to texts with at most two alternatives per point (wider ones may report a wrong rule, see C52), comma-free rules (see C02) and conditions that can be evaluated. C73_filter_text is exact in both directions and counts how often a rule is reported; over an empty section it says when the blank rule is reported."
  },
  {
   "property": "C74",
   "status": "partial",
   "theorems": [
    "C74_filter_partial",
    "C74_clear_refuted"
   ],
   "note": "C74_clear_refuted: clearing a grouping section sends no event, so the matcher goes on reporting the cleared rules. C74_filter_partial: exact for every history that does not clear or redefine the section after the build, with at most two alternatives per point, rules written as they are listed (no surplus domain values on a section without domains), comma-free, and a request the blank rule does not match."
  },
  {
   "property": "C75",
   "status": "proved",
   "theorems": [
    "C75_decides_by_meaning"
   ],
   "note": "govaluate's reading of the matcher text (reads_as) and of its conditions (answerable) are hypotheses, instantiated by C75_ex; formulas outside C08/C09 and the blank rule are treated there and in C11. At most nine-step role chains enter only through the functions F."
  },
  {
   "property": "C76",
   "status": "proved",
   "theorems": [
    "C76_access_control_list"
   ],
   "note": "For requests whose last value is not empty, as the property says; the empty last value is the blank-rule fault recorded in C11/C59. Example C76_ex."
  },
  {
   "property": "C77",
   "status": "proved",
   "theorems": [
    "C77_rbac_with_domains"
   ],
   "note": "Seven links is the exact bound of the code's constant 10 with one domain (C33). Example C77_ex."
  },
  {
   "property": "C78",
   "status": "proved",
   "theorems": [
    "C78_rbac_with_denials"
   ],
   "note": "Rules with other effect texts are Indeterminate; that case is C20. Example C78_ex."
  },
  {
   "property": "C79",
   "status": "partial",
   "theorems": [
    "C79_file_follows_partial",
    "C79_autosave_partial",
    "C79_no_file_refuted",
    "C79_revoked_rule_refuted"
   ],
   "note": "Refuted in full: a missing file makes the first change with autosave panic (C79_no_file_refuted), and a rule with a blank at the start of a value is written, trimmed when read, and survives its removal (C79_revoked_rule_refuted). Proved for a readable file and rules the format can hold: no call fails and the file follows the model up to the queue (C79_file_follows_partial), at every moment with autosave (C79_autosave_partial)."
  },
  {
   "property": "C80",
   "status": "partial",
   "theorems": [
    "C80_load_partial",
    "C80_restart_partial",
    "C80_restart_refuted"
   ],
   "note": "For files of plain rules whose sections the model has (the condition of C79): loading adds exactly the rules of the file and leaves it unchanged (C80_load_partial); an enforcer started from a file another one kept lists the same rules and is in step with the file again (C80_restart_partial). For other rules it is false: C80_restart_refuted."
  },
  {
   "property": "C81",
   "status": "partial",
   "theorems": [
    "C81_access_control_list_partial",
    "C81_rbac_with_domains_partial",
    "C81_rbac_with_denials_partial",
    "C81_other_rules_refuted"
   ],
   "note": "For access control lists of any number of columns, RBAC with domains and RBAC with denials, an empty file at first, and rules the file format can hold; for other rules it is false (C81_other_rules_refuted: a denied request is granted after the restart); requests as in C76 - C78. C102 is the same for every model file, any number of restarts and any file at first."
  },
  {
   "property": "C82",
   "status": "partial",
   "theorems": [
    "C82_same_as_redefining",
    "C82_listing_partial",
    "C82_decisions_refuted",
    "C82_grouping_refuted"
   ],
   "note": "C82_same_as_redefining: equal states. C82_listing_partial: exact listing after any history of hand-overs to defined policy sections. Refuted: matchers built before keep following the replaced policy until they are built again (C82_decisions_refuted), and a policy handed over to a grouping section never receives the rules added to or removed from it (C82_grouping_refuted). Not covered: policies still changed by their owner after the hand-over, sections without definition."
  },
  {
   "property": "C83",
   "status": "proved",
   "theorems": [
    "C83_rules_with_a_condition",
    "C83_other_columns_refuted"
   ],
   "note": "govaluate's reading of the matcher and of the conditions are hypotheses (reads_tokens, evals, says), instantiated by C83_ex. The restriction to conditions about the request is necessary: C83_other_columns_refuted (two rules \"r.sub == p.obj\" share one evaluation, and an owner is refused). With no rule present, eval of the empty text decides (C14, C15)."
  },
  {
   "property": "C84",
   "status": "proved",
   "theorems": [
    "C84_super_user"
   ],
   "note": "Hypotheses on govaluate's reading of the conditions in the record superuser, instantiated by C84_ex."
  },
  {
   "property": "C85",
   "status": "partial",
   "theorems": [
    "C85_concurrent_calls_partial",
    "C85_someone_did_partial",
    "C85_calls_return",
    "C85_concurrent_calls_refuted",
    "C85_two_adds_refuted",
    "C85_add_delete_refuted"
   ],
   "note": "False in general (three refutations: a HasLink on a new name takes away the link an AddLink adds to it; two AddLinks with the same new name lose one; AddLink and DeleteLink of one link leave roles and users in disagreement). Proved without a matcher for phases in which no link is both added and deleted and a new name is used by one call only or by queries only (tidy). C85_calls_return (no panic, always able to return) needs no such restriction. Missing: role matchers, domains."
  },
  {
   "property": "C86",
   "status": "partial",
   "theorems": [
    "C86_queries_at_once_partial",
    "C86_queries_at_once_refuted"
   ],
   "note": "False with a role matcher: two queries can panic (refuted). Proved without a matcher, with no restriction on the queries."
  },
  {
   "property": "C87",
   "status": "partial",
   "theorems": [
    "C87_each_matcher_decides_partial"
   ],
   "note": "Proved for files each of whose matchers is read as a formula the compiler keeps (C08) and can index (C09), rules with a comma-free value for every column, one build, and calls the conditions can answer (answers: each condition evaluates on every rule added to the section, depends on its own values only and, for conditions that come last, is false on the blank rule). Outside this the defects of C08, C09, C10 apply. The allow-and-deny effect assumes no indeterminate matching rule."
  },
  {
   "property": "C88",
   "status": "proved",
   "theorems": [
    "C88_column_by_column"
   ],
   "note": "For two-place grouping sections without domains or patterns. Assumed of govaluate: it reads the text as written, == compares strings, functions get the values of their arguments. Without the condition on the last value the blank rule can match (C10, C12)."
  },
  {
   "property": "C89",
   "status": "partial",
   "theorems": [
    "C89_filter_by_constants_partial",
    "C89_empty_refuted"
   ],
   "note": "Proved unless the section is empty and no == condition has a non-empty constant; then the blank rule is reported (C89_empty_refuted). Grouping rules are assumed to have no commas, at most one domain and a value for every column the filter names."
  },
  {
   "property": "C90",
   "status": "proved",
   "theorems": [
    "C90_more_rules_grant_more",
    "C90_same_rules_same_decisions",
    "C90_one_call"
   ],
   "note": "For the matchers and requests of C88. For other matchers see C12 (a removed rule can leave a match behind)."
  },
  {
   "property": "C91",
   "status": "partial",
   "theorems": [
    "C91_load_panics_exactly",
    "C91_load_result",
    "C91_rules_loaded_partial",
    "C91_new_enforcer",
    "C91_load_refuted"
   ],
   "note": "C91_load_panics_exactly: LoadPolicy with the file adapter panics iff the rules read from the file are rules the model takes followed by one with an empty section name or a grouping rule with fewer than two names; C91_load_result: what it adds, returns and leaves alone in every other case, for any file text; C91_new_enforcer: the same for NewEnforcer with a path; C91_rules_loaded_partial: which rules are then listed, for rules that are listed as they are written. False in full: C91_load_refuted (a line of one space, or \"g, alice\", makes LoadPolicy and NewEnforcer panic). Histories of the model are those of C67 (at most two alternatives per matcher, no SetRoleManager)."
  },
  {
   "property": "C92",
   "status": "partial",
   "theorems": [
    "C92_logical_meaning_partial",
    "C92_revoked_refuted",
    "C92_no_rule_refuted"
   ],
   "note": "C92_logical_meaning_partial: the full meaning, for Filter and the three effects, if no test that comes last in an alternative is true of the rule of empty values and the calls have answers for the rules added (and for the rule of empty values where it is tried). C92_ex and shop_answers: a file with domains, paths and a literal meets this for every request with a domain and an action. False without it: C92_revoked_refuted (pathmatch_model.conf: a removed rule goes on allowing, and then allows every action), C92_no_rule_refuted (ipmatch_model.conf: Enforce panics while there are no rules). What is assumed of govaluate is test_evaluates in LogicSpec."
  },
  {
   "property": "C93",
   "status": "partial",
   "theorems": [
    "C93_domain_calls_partial",
    "C93_queries_at_once_partial",
    "C93_one_at_a_time",
    "C93_calls_return",
    "C93_new_domain_refuted",
    "C93_new_parent_refuted"
   ],
   "note": "C93_domain_calls_partial: full, without matchers, if a domain (or one above) that is new is opened by one update only and the calls of each domain are tidy as in C85; C93_queries_at_once_partial: queries alone answer exactly; C93_calls_return: no panic and all calls return, for any calls whose domains are not the two reserved names; C93_one_at_a_time: calls made one at a time meet the conditions. False otherwise: C93_new_domain_refuted (two AddLinks into a new domain both answer true and one link is lost), C93_new_parent_refuted (the same for two different domains below a new one). C93_ex_runs and C93_ex_orderly: a run that meets the hypotheses."
  },
  {
   "property": "C94",
   "status": "partial",
   "theorems": [
    "C94_decides_on_the_request",
    "C94_effect_needed_refuted"
   ],
   "note": "C94_decides_on_the_request: Filter, and Enforce for the three effects; for some(where (p.eft == allow)) if some present rule allows or none is present, for the combined effect if no present rule has an effect other than allow and deny. C94_effect_needed_refuted: with a deny rule only, effect some(where (p.eft == allow)) and two conditions, adding and removing a rule changes the answer."
  },
  {
   "property": "C95",
   "status": "partial",
   "theorems": [
    "C95_asked_in_order",
    "C95_error_denied",
    "C95_whole_answer",
    "C95_built_in_agrees",
    "C95_error_denies_refuted"
   ],
   "note": "C95_asked_in_order: the exact result and final state for any effector. C95_whole_answer: effectors that wait. C95_error_denied: an error is a denial and is the one Filter reports, whatever the parameters. C95_built_in_agrees: the library's effectors as instances. C95_error_denies_refuted: an effector that fails on every question allows a request for which there is no rule; no error is ever reported."
  },
  {
   "property": "C96",
   "status": "partial",
   "theorems": [
    "C96_own_matcher_partial",
    "C96_no_rule_refuted"
   ],
   "note": "C96_own_matcher_partial: exact for Filter in both cases, for Enforce while the section has a rule; no condition on the rule of empty values is needed, unlike C92, because the matcher is built from the present rules. Calls must have answers for the present rules and, if they come last in an alternative, for the rule of empty values. C96_no_rule_refuted: without rules Enforce with p.act != \"delete\" allows."
  },
  {
   "property": "C97",
   "status": "proved",
   "theorems": [
    "C97_has_role",
    "C97_roles_users",
    "C97_history_irrelevant"
   ],
   "note": "Unlike C29 and C37 no condition that patterns do not match patterns; the condition is instead that roles and the name asked about are ordinary (C29_order_refuted shows what happens otherwise)."
  },
  {
   "property": "C98",
   "status": "partial",
   "theorems": [
    "C98_direct_access_partial",
    "C98_untold_refuted"
   ],
   "note": "C98_untold_refuted: links told to a manager are announced to nobody, so storage never has them, not even after AddRule of the same rule. Matchers on sections with domains: C100. Left out: direct calls before the matchers are built, SetRoleManager."
  },
  {
   "property": "C99",
   "status": "proved",
   "theorems": [
    "C99_with_leftovers",
    "C99_nothing_left"
   ],
   "note": "C99_with_leftovers drops the condition on the rule of empty values that C92_logical_meaning_partial needs and says exactly when that rule is reported. C99_nothing_left: with every added rule present the matcher means its formula. C99_ex: after the rule (alice, delete) of an everything-but file is removed, alice may delete."
  },
  {
   "property": "C100",
   "status": "partial",
   "theorems": [
    "C100_patterns_in_domains_partial",
    "C100_patterns_in_matchers_partial"
   ],
   "note": "Left out, because C35-C37 refute it there: deletions and matchers for names after the domain matcher, a second domain matcher, nested domains under a domain matcher, patterns covering patterns; also names with '$' and reserved domains."
  },
  {
   "property": "C101",
   "status": "partial",
   "theorems": [
    "C101_more_rules_grant_more_partial",
    "C101_same_rules_same_decisions_partial",
    "C101_one_call_partial",
    "C101_removal_grants_refuted"
   ],
   "note": "Proved where C92 gives the meaning: calls have answers and no test that comes last in an alternative is true of the rule of empty values. Without that C101_removal_grants_refuted: with examples/pathmatch_model.conf removing the rule for GET allows DELETE, which was denied before. C90 is the case of column-wise matchers, without restriction on calls."
  },
  {
   "property": "C102",
   "status": "partial",
   "theorems": [
    "C102_restart_partial",
    "C102_any_number_of_restarts_partial",
    "C102_other_rules_refuted"
   ],
   "note": "Rules that the file format can hold (C46; C102_other_rules_refuted: otherwise a denial moves to somebody else; C79_revoked_rule_refuted: a removed rule can come back) and, in a grouping section without domains, no names beyond the first two; requests as in C101. C81 is the case of three kinds of configurations and an empty file."
  },
  {
   "property": "C103",
   "status": "partial",
   "theorems": [
    "C103_registered_first",
    "C103_functions_partial"
   ],
   "note": "Requests as in C92: string values, calls that have answers, and the same last-rule condition. Filter and Enforce only; rules with values beyond those of the file grammar (file_call) excluded."
  },
  {
   "property": "C104",
   "status": "partial",
   "theorems": [
    "C104_manager_is_told",
    "C104_a_set_of_links",
    "C104_managers_decide_partial",
    "C104_failed_rule_announced_refuted",
    "C104_library_fails_quietly"
   ],
   "note": "C104_manager_is_told and C104_a_set_of_links are full; decisions (C104_managers_decide_partial) for requests as in C92 and rule calls of the library's sections that do not panic. C104_failed_rule_announced_refuted: a rule whose addition fails is announced all the same if the manager answers true together with the error; C104_library_fails_quietly: not so with the library's managers."
  },
  {
   "property": "C105",
   "status": "partial",
   "theorems": [
    "C105_filter",
    "C105_enforce",
    "C105_unknown_section",
    "C105_stopping_matchers",
    "C105_built_in_agrees",
    "C105_settled_refuted",
    "C105_errors_deny"
   ],
   "note": "Exact for every matcher (C105_filter, C105_enforce, C105_unknown_section). C105_settled_refuted: with a matcher that goes on after it is told to stop, a rule that denies is undone by a later one (and one that allows too), because the effector looks at the last rule only. C105_stopping_matchers: the documented meaning for matchers that stop; for the combined effect the first reported rule has to allow (C20)."
  },
  {
   "property": "C106",
   "status": "partial",
   "theorems": [
    "C106_needed_changes_partial",
    "C106_autosave_partial",
    "C106_save_refuted",
    "C106_save_panics_refuted",
    "C106_load_refuted"
   ],
   "note": "C106_needed_changes_partial, C106_autosave_partial: rules in the form the model lists them, saves with an empty queue, no LoadPolicy or replaced adapter in the history. C106_save_refuted, C106_save_panics_refuted: SavePolicy does not empty the queue, so a saved change is asked again: Flush fails, or AddRule panics, on a strict adapter. C106_load_refuted: LoadPolicy with a removal queued: the rule is back in the model, and the Flush removes it from the adapter."
  },
  {
   "property": "C107",
   "status": "partial",
   "theorems": [
    "C107_delayed_partial",
    "C107_any_storage_partial"
   ],
   "note": "C107_any_storage_partial and C107_delayed_partial (processes that switch autosave off, or delay it with AddWait, and save or end only while no change can be queued): missing are processes that replace the adapter, domains of roles with pattern functions, and g rules with more than the declared names in a section without domains. What goes wrong otherwise is C41, C81, C106 and C111."
  },
  {
   "property": "C108",
   "status": "partial",
   "theorems": [
    "C108_each_controller",
    "C108_flush",
    "C108_replaced",
    "C108_replica_partial",
    "C108_replicas_agree_partial",
    "C108_timing",
    "C108_failing_replica_refuted",
    "C108_shared_adapter_refuted"
   ],
   "note": "C108_each_controller, C108_flush and C108_replaced are exact. C108_replica_partial and C108_replicas_agree_partial cover rules in listed form, no ClearPolicy and no changes of definitions, as C40. C108_failing_replica_refuted: a failing adapter of a second controller makes AddRule panic although the enforcer's adapter takes the change. C108_shared_adapter_refuted: two controllers with the same adapter ask for every change twice."
  },
  {
   "property": "C109",
   "status": "partial",
   "theorems": [
    "C109_answers",
    "C109_listing",
    "C109_same_state",
    "C109_matchers_follow_partial",
    "C109_silent_refuted",
    "C109_announced_refuted"
   ],
   "note": "C109_answers, C109_listing (any policy) and C109_same_state (outspoken policies) are exact. C109_matchers_follow_partial: matchers built after the policy was handed over, comma-free rules, as C56. C109_silent_refuted: a policy that announces nothing is listed with rules that decisions ignore. C109_announced_refuted: a change that the policy answers with false, or that its owner makes, is enforced but announced to nobody, hence not stored."
  },
  {
   "property": "C110",
   "status": "proved",
   "theorems": [
    "C110_conditions",
    "C110_policy_arguments",
    "C110_request_arguments",
    "C110_section",
    "C110_one_section"
   ],
   "note": "All theorems hold for every expression with well-formed conditions. An argument glued to other letters (as in xp_a) may or may not be listed; C110_policy_arguments says what is always listed and what never is. With several sections named, the section need not be the first one written (C110_ex)."
  },
  {
   "property": "C111",
   "status": "partial",
   "theorems": [
    "C111_crash_partial",
    "C111_restart_partial",
    "C111_save_refuted"
   ],
   "note": "Calls on the adapter are atomic: each is answered or was not made. Partial: SavePolicy only with an empty queue (C111_save_refuted shows why), no LoadPolicy, SetAdapter or SetModel in between, ClearPolicy and definitions not changed, adapters that take every change that changes something; decisions for the matchers of C92."
  },
  {
   "property": "C112",
   "status": "partial",
   "theorems": [
    "C112_panics",
    "C112_poisoned",
    "C112_clean",
    "C112_links",
    "C112_justified",
    "C112_answers_refuted",
    "C112_rebuild_partial",
    "C112_rebuild_refuted"
   ],
   "note": "C112_panics, C112_poisoned, C112_clean, C112_links and C112_justified are proved; that answers given after a recovered panic are right is false (C112_answers_refuted), and so is that SetMatcher keeps the links (C112_rebuild_refuted; C112_rebuild_partial says what it keeps). C112_panics: for functions that panic on certain patterns, whatever the other argument (RegexMatch). Manager without domains, with a matcher; names as in C24; the exact links for calls that give AddLink no domain arguments."
  },
  {
   "property": "C113",
   "status": "partial",
   "theorems": [
    "C113_model",
    "C113_panics",
    "C113_same_calls",
    "C113_every_change",
    "C113_single_changes",
    "C113_other_rules",
    "C113_save_repairs",
    "C113_try_again",
    "C113_changes_nothing_refuted"
   ],
   "note": "C113_model, C113_panics, C113_same_calls, C113_every_change, C113_single_changes, C113_other_rules, C113_save_repairs and C113_try_again are proved; that a call that panics has changed nothing is false (C113_changes_nothing_refuted). Histories without LoadPolicy, SetAdapter, SetModel and switching storage on or off: what a panic in a listener leaves in the event library is not modelled. C113_other_rules and C113_save_repairs for rules in the form in which the model lists them, as in C40."
  },
  {
   "property": "C114",
   "status": "partial",
   "theorems": [
    "C114_same_calls",
    "C114_rules",
    "C114_panics_iff",
    "C114_who_is_told",
    "C114_again",
    "C114_stays",
    "C114_redefined",
    "C114_failed_build",
    "C114_revoked_rule_refuted"
   ],
   "note": "C114_same_calls, C114_rules, C114_panics_iff, C114_who_is_told, C114_again, C114_stays and C114_redefined are proved; that decisions follow the listed rules after a recovered panic is false (C114_revoked_rule_refuted). Panics inside a role manager are C112; what a panic in a listener leaves in the event library is not modelled. Rules as in C01 (no commas)."
  },
  {
   "property": "C115",
   "status": "proved",
   "theorems": [
    "C115_open_requests",
    "C115_open_without_effects",
    "C115_in_op_file"
   ],
   "note": "C115_open_requests, C115_open_without_effects and C115_in_op_file are proved, with govaluate's evaluation of each test assumed as in C92 (test_evaluates; in needs at least two literals). The open test is one test that comes last."
  },
  {
   "property": "C116",
   "status": "partial",
   "theorems": [
    "C116_queries_at_once_partial",
    "C116_phases_partial",
    "C116_next_call_returns_partial",
    "C116_unknown_names_refuted"
   ],
   "note": "Proved for patterns that do not cover patterns and histories of phases, each one call alone (any call, also a query about new names: its names count as known while it runs) or several queries at the same time about names that a link was added or deleted with: C116_phases_partial, C116_queries_at_once_partial, C116_next_call_returns_partial. False otherwise: a query about a new name makes it appear in a concurrent GetUsers (C116_unknown_names_refuted) or panic (C86_queries_at_once_refuted)."
  },
  {
   "property": "C117",
   "status": "partial",
   "theorems": [
    "C117_one_history",
    "C117_program_goes_on",
    "C117_every_change_once",
    "C117_at_most_once",
    "C117_in_order",
    "C117_replica_partial",
    "C117_returns",
    "C117_veto_refuted",
    "C117_panic_refuted",
    "C117_endless_refuted"
   ],
   "note": "One history, no change told twice, every change told if no listener panics, order after quiet listeners (whatever the later ones do) and returning with ranks are proved in full. The replica is proved when no earlier listener changes rules or panics, or with ranks and without panics (C117_replica_partial). False otherwise: storage registered after a listener that takes additions back keeps a rule that the model does not have (C117_veto_refuted); registered after one that panics it misses a rule (C117_panic_refuted); a listener that takes every change back never returns (C117_endless_refuted). The program, not a listener, recovers from panics."
  }
 ]
}