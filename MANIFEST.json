{
 "claims": [
  {
   "property": "C01",
   "status": "proved",
   "theorems": [
    "C01_no_duplicate_success",
    "C01_initial_value_not_rebuilt",
    "C01_builders_do_not_overlap"
   ],
   "note": "Stated over event histories of every schedule; follows from C05."
  },
  {
   "property": "C02",
   "status": "proved",
   "theorems": [
    "C02_panic_only_from_builder",
    "C02_no_lock_left_behind",
    "C02_no_stuck_calls",
    "C02_calls_are_short"
   ],
   "note": ""
  },
  {
   "property": "C03",
   "status": "proved",
   "theorems": [
    "C03_guards_exclude",
    "C03_guard_reads_what_holder_expects",
    "C03_guard_pins_value"
   ],
   "note": ""
  },
  {
   "property": "C04",
   "status": "proved",
   "theorems": [
    "C04_flag_at_rest",
    "C04_predicate_at_rest"
   ],
   "note": ""
  },
  {
   "property": "C05",
   "status": "proved",
   "theorems": [
    "C05_linearizable"
   ],
   "note": "Forward simulation to AtomicCell.v."
  },
  {
   "property": "C06",
   "status": "proved",
   "theorems": [
    "C06_failure_is_reported",
    "C06_error_only_from_own_builder",
    "C06_nothing_left_behind",
    "C06_later_read_builds_again"
   ],
   "note": ""
  },
  {
   "property": "C07",
   "status": "proved",
   "theorems": [
    "C07_after_clear_fresh",
    "C07_values_have_sources",
    "C07_builder_only_for_reads"
   ],
   "note": ""
  },
  {
   "property": "C08",
   "status": "proved",
   "theorems": [
    "C08_clone_is_a_fresh_container"
   ],
   "note": ""
  },
  {
   "property": "C09",
   "status": "partial",
   "theorems": [
    "C09_never_stuck",
    "C09_terminates",
    "C09_completes",
    "C09_builder_guards_refuted"
   ],
   "note": "Proved (no stuck state, no infinite schedule, every schedule can be completed) when builders also take the locks they keep in descending order; with builders that keep guards in any order the wording is false (C09_builder_guards_refuted). parking_lot's lock algorithm is assumed."
  },
  {
   "property": "C10",
   "status": "proved",
   "theorems": [
    "C10_plain_circle_never_ends",
    "C10_plain_reader_never_ends",
    "C10_reentrant_call_never_returns",
    "C10_self_dependent_never_ends",
    "C10_self_dependent_read_never_returns",
    "C10_circle_never_ends"
   ],
   "note": "Direct self-dependence and circles of any length, every schedule; sync and plain fields."
  },
  {
   "property": "C11",
   "status": "partial",
   "theorems": [
    "C11_self_comparison_refuted",
    "C11_crossed_comparison_refuted",
    "C11_readers_never_wait",
    "C11_same_order_comparisons_end"
   ],
   "note": "Refuted for a == a and for two comparisons in opposite orders with waiting writers; proved: readers and comparisons alone never wait, and comparisons that all take the locks in one order always end."
  },
  {
   "property": "C12",
   "status": "proved",
   "theorems": [
    "C12_async_no_duplicate_success",
    "C12_async_initial_value_not_rebuilt",
    "C12_async_builders_do_not_overlap",
    "C12_async_one_builder_at_a_time"
   ],
   "note": "Same specification as C01, with abandoned calls."
  },
  {
   "property": "C13",
   "status": "proved",
   "theorems": [
    "C13_async_bad_builder",
    "C13_async_abandoned_call",
    "C13_async_later_read_builds_again",
    "C13_async_panic_only_from_builder",
    "C13_async_failure_is_reported",
    "C13_async_no_lock_left_behind",
    "C13_async_no_stuck_calls",
    "C13_async_calls_are_short"
   ],
   "note": ""
  },
  {
   "property": "C14",
   "status": "proved",
   "theorems": [
    "C14_async_linearizable",
    "C14_async_same_cell_as_sync",
    "C14_async_guards_exclude",
    "C14_async_guard_reads_what_holder_expects",
    "C14_async_guard_pins_value",
    "C14_async_predicate_at_rest",
    "C14_async_after_clear_fresh",
    "C14_async_clone_is_a_fresh_container"
   ],
   "note": "Forward simulation to AtomicCell.v with cancellation."
  },
  {
   "property": "C15",
   "status": "proved",
   "theorems": [
    "C15_plain_lazy_refines",
    "C15_one_build",
    "C15_failure_leaves_unset"
   ],
   "note": "Refinement of the optional cell with a builder for every call sequence, for the methods that exist and compile; plus one build and failure leaves unset for all modes."
  },
  {
   "property": "C16",
   "status": "partial",
   "theorems": [
    "C16_same_results_partial",
    "C16_lock_predicate_refuted",
    "C16_only_lock_predicate"
   ],
   "note": "Same results for every pair of modes and every call sequence without kept guards. False in one configuration: the predicate of a locked fallible non-lazy field (C16_lock_predicate_refuted); C16_only_lock_predicate shows it is the only one."
  },
  {
   "property": "C17",
   "status": "proved",
   "theorems": [
    "C17_panics_exactly_on_conflict",
    "C17_lock_waits_exactly_on_conflict"
   ],
   "note": "For every history with guards kept, used and dropped; also the waiting counterpart for locks."
  },
  {
   "property": "C18",
   "status": "partial",
   "theorems": [
    "C18_worth_unique",
    "C18_worth_exists",
    "C18_sync_values",
    "C18_sync_order_irrelevant",
    "C18_sync_read",
    "C18_sync_builder_once",
    "C18_failing_builder_refuted",
    "C18_plain_values",
    "C18_plain_depth",
    "C18_plain_order_irrelevant",
    "C18_plain_builder_once",
    "C18_plain_sync_agree"
   ],
   "note": "Proved for sync fields (every schedule) and plain fields (every program); 'at most once' is proved for builders that succeed and false for builders that fail (C18_failing_builder_refuted)."
  },
  {
   "property": "C19",
   "status": "partial",
   "theorems": [
    "C19_builder_refines",
    "C19_setters_offered",
    "C19_success_iff",
    "C19_names_first_missing_partial",
    "C19_checked_iff_must",
    "C19_names_first_checked",
    "C19_unchecked_refuted"
   ],
   "note": "Success characterised for every struct; the error names the first missing field unless a field is marked builder(off, \"name\"), which is not checked (refuted by C19_unchecked_refuted, exact general statement C19_names_first_checked)."
  },
  {
   "property": "C20",
   "status": "proved",
   "theorems": [
    "C20_failed_build_has_no_effect"
   ],
   "note": "Stronger: a refused build() can be dropped from any history without changing any other answer."
  },
  {
   "property": "C21",
   "status": "proved",
   "theorems": [
    "C21_last_setter_wins",
    "C21_setters_commute"
   ],
   "note": ""
  },
  {
   "property": "C22",
   "status": "partial",
   "theorems": [
    "C22_panics_only_in_post_build",
    "C22_panics_iff",
    "C22_named_off_refuted"
   ],
   "note": "Proved without builder(off, \"name\"); exact condition for a panic proved; refuted with builder(off, \"name\")."
  },
  {
   "property": "C23",
   "status": "partial",
   "theorems": [
    "C23_can_succeed_iff",
    "C23_required_off_refuted"
   ],
   "note": "Proved: possible exactly if every required field has a setter; refuted for builder(required) on the struct with builder(off) on a field."
  },
  {
   "property": "C24",
   "status": "proved",
   "theorems": [
    "C24_like_new",
    "C24_second_build"
   ],
   "note": "Includes the case builder(off, \"name\"), where the second build() panics."
  },
  {
   "property": "C25",
   "status": "partial",
   "theorems": [
    "C25_called_once",
    "C25_called_iff",
    "C25_only_if_asked",
    "C25_compiles_iff",
    "C25_rc_error_refuted"
   ],
   "note": "Proved for every build() that compiles; rc with post_build and an error type never compiles (refuted)."
  },
  {
   "property": "C26",
   "status": "partial",
   "theorems": [
    "C26_counts",
    "C26_myself",
    "C26_gone_once",
    "C26_dropped_once",
    "C26_never_back",
    "C26_no_dangling",
    "C26_clone_refuted",
    "C26_default_refuted"
   ],
   "note": "Proved for every object returned by new() or build(); false for clones of the struct and for default or deserialised values that the user puts into an Rc (C26_clone_refuted, C26_default_refuted). std's Rc/Arc are modelled from their documentation."
  },
  {
   "property": "C27",
   "status": "partial",
   "theorems": [
    "C27_owned",
    "C27_exact",
    "C27_builder_owner",
    "C27_post_build_panics",
    "C27_drop_panics",
    "C27_suspicions_refuted",
    "C27_clone_refuted"
   ],
   "note": "Proved through owners of objects returned by new() or build(); C27_exact says when it fails; all suspicions confirmed (C27_suspicions_refuted), and a clone builds its lazy fields from the original (C27_clone_refuted)."
  },
  {
   "property": "C28",
   "status": "proved",
   "theorems": [
    "C28_precedence",
    "C28_precedence_determines",
    "C28_struct_irrelevant"
   ],
   "note": "18 yes/no features; hypothesis: the field is not skipped (C29)."
  },
  {
   "property": "C29",
   "status": "partial",
   "theorems": [
    "C29_no_methods",
    "C29_not_in_builder",
    "C29_no_setter",
    "C29_not_serialised",
    "C29_type_iff",
    "C29_default_iff",
    "C29_default_respected",
    "C29_build_iff",
    "C29_type_refuted",
    "C29_default_refuted",
    "C29_build_refuted"
   ],
   "note": "No methods, setter or serialisation proved; the type is kept iff the field is sync or not inner_mut, Default fits iff a sync field has no lock, build() is complete iff nothing is skipped (exact characterisations); the unconditional claims are refuted (C29_*_refuted)."
  },
  {
   "property": "C30",
   "status": "partial",
   "theorems": [
    "C30_off_disables",
    "C30_off_lazy",
    "C30_off_builder_partial",
    "C30_default_off_value",
    "C30_builder_off_named_refuted",
    "C30_default_off_refuted",
    "C30_copy_off_refuted",
    "C30_clone_off_refuted"
   ],
   "note": "off removes every method, lazy and the builder setter without a name; refuted for builder(off, name), default(off), copy(off) and clone(off) on plain fields."
  },
  {
   "property": "C31",
   "status": "partial",
   "theorems": [
    "C31_copy_clone_exclusive",
    "C31_same_flavour_partial",
    "C31_copy_off_refuted",
    "C31_clone_off_refuted",
    "C31_emitted_flavour_partial",
    "C31_clones_partial"
   ],
   "note": "Exclusive selection proved; same flavour in arguments and in the emitted getters of both generators except under copy(off)/clone(off), which is refuted."
  },
  {
   "property": "C32",
   "status": "partial",
   "theorems": [
    "C32_visibility_precedence",
    "C32_emitted_visibility_partial",
    "C32_sync_get_mut",
    "C32_sync_get_mut_refuted",
    "C32_builder_setter_refuted"
   ],
   "note": "Precedence proved for the resolved visibility and for every emitted method except get_mut of sync fields and builder setters, both refuted."
  },
  {
   "property": "C33",
   "status": "proved",
   "theorems": [
    "C33_field_conflicts",
    "C33_struct_conflicts",
    "C33_field_error_names",
    "C33_struct_error_names",
    "C33_field_errors_once",
    "C33_struct_errors_once",
    "C33_field_off_neutral",
    "C33_struct_off_neutral",
    "C33_helper_off_neutral_refuted"
   ],
   "note": "Both levels: exact conflicts, names listed, off arguments neutral. The separate check inside a helper argument is not neutral to private(off): refuted."
  },
  {
   "property": "C34",
   "status": "partial",
   "theorems": [
    "C34_struct_mode",
    "C34_field_mode_partial",
    "C34_field_mode_async_refuted",
    "C34_field_sync_in_async_refuted",
    "C34_inner_mut_off_refuted"
   ],
   "note": "Struct level proved; field level except mode(async) and sync inside an async struct, both refuted; inner_mut(off) makes a field sync: refuted."
  },
  {
   "property": "C35",
   "status": "partial",
   "theorems": [
    "C35_rather_sync_partial",
    "C35_rather_sync_only_if",
    "C35_order_independence_refuted"
   ],
   "note": "Holds when no field speaks against sync; order independence refuted."
  },
  {
   "property": "C36",
   "status": "partial",
   "theorems": [
    "C36_bare_fieldx_refuted",
    "C36_bool_round_trip_refuted",
    "C36_explicit_lazy_kept_partial"
   ],
   "note": "Refuted as stated: polarity is inverted. What remains true is proved."
  },
  {
   "property": "C37",
   "status": "proved",
   "theorems": [
    "C37_kinds_distinct",
    "C37_fields_distinct",
    "C37_explicit_verbatim",
    "C37_composed",
    "C37_cross_field_clash",
    "C37_emitted_name",
    "C37_emitted_distinct"
   ],
   "note": "Also for the emitted method lists (C37_emitted_*)."
  },
  {
   "property": "C38",
   "status": "partial",
   "theorems": [
    "C38_generated",
    "C38_emitted_iff",
    "C38_emitted_once",
    "C38_plain_methods",
    "C38_sync_methods",
    "C38_ordinary_plain_partial",
    "C38_ordinary_sync_partial",
    "C38_builder_setter",
    "C38_lazy_as_ref_refuted",
    "C38_inner_mut_as_ref_refuted",
    "C38_lazy_inner_mut_clearer_refuted",
    "C38_copy_off_inner_mut_refuted",
    "C38_async_lock_clone_refuted",
    "C38_async_lock_get_mut_refuted",
    "C38_fallible_not_lazy_refuted",
    "C38_reader_lock_off_refuted",
    "C38_clearer_optional_off_refuted",
    "C38_plain_clearer_optional_off_refuted",
    "C38_lazy_optional_clone_refuted",
    "C38_default_value",
    "C38_from_shadow_value",
    "C38_build_value_plain",
    "C38_build_value_sync",
    "C38_into_shadow_value",
    "C38_build_self_refuted",
    "C38_bare_default_panics",
    "C38_bare_default_refuted",
    "C38_into_shadow_refuted",
    "C38_default_literal",
    "C38_from_shadow_literal",
    "C38_into_shadow_literal",
    "C38_builder_new",
    "C38_from_shadow_literal_refuted",
    "C38_into_shadow_literal_refuted",
    "C38_builder_new_refuted"
   ],
   "note": "Exact characterisation of when each emitted method, value and struct literal type-checks (C38_plain_methods, C38_sync_methods, C38_*_value, C38_*_literal) in a small checker for the emitted fragment; ordinary configurations are all well typed; the unconditional claim is refuted by the C38_*_refuted cases."
  },
  {
   "property": "C39",
   "status": "partial",
   "theorems": [
    "C39_round_trip_partial",
    "C39_round_trip_exact",
    "C39_cleared_refuted"
   ],
   "note": "Round trip proved for every compiling struct and state except unset lazy fields that are async or whose builder fails and empty plain optional fields with a default (C39_cleared_refuted); C39_round_trip_exact says what comes back in every case. serde's derive is modelled, not its formats."
  },
  {
   "property": "C40",
   "status": "partial",
   "theorems": [
    "C40_builds_once_partial",
    "C40_plain_and_sync_alike",
    "C40_exact",
    "C40_panics_iff",
    "C40_async_refuted",
    "C40_failing_refuted"
   ],
   "note": "Proved for plain and sync builders that succeed; C40_exact and C40_panics_iff cover every case; async fields are never initialised (C40_async_refuted) and errors of fallible builders are lost (C40_failing_refuted)."
  },
  {
   "property": "C41",
   "status": "proved",
   "theorems": [
    "C41_serialised",
    "C41_deserialised",
    "C41_either",
    "C41_skip_attributes",
    "C41_into_emitted",
    "C41_from_emitted"
   ],
   "note": "Selection, skip attributes and emitted conversions."
  },
  {
   "property": "C42",
   "status": "partial",
   "theorems": [
    "C42_fixup_partial",
    "C42_fixup_exact",
    "C42_no_self",
    "C42_bounds_refuted",
    "C42_literal_refuted",
    "C42_plain_builder",
    "C42_shadow_default",
    "C42_sync_builder_exact",
    "C42_sync_builder_refuted"
   ],
   "note": "Replacement proved at every depth for parameters without bounds and Self in front of ::, exactly those; plain builders and shadow defaults proved; bounds, struct literals and sync fields outside lazy / optional-without-lock refuted."
  },
  {
   "property": "C43",
   "status": "partial",
   "theorems": [
    "C43_split_partial",
    "C43_exact",
    "C43_path_refuted",
    "C43_value_refuted",
    "C43_other_separator_refuted",
    "C43_word_refuted"
   ],
   "note": "Proved for attributes without punctuation; accepted lists characterised exactly; paths, name = value and other separators refuted."
  },
  {
   "property": "C44",
   "status": "proved",
   "theorems": [
    "C44_derives_first",
    "C44_permutation",
    "C44_comparison"
   ],
   "note": "slice::sort_by is modelled as a stable sort; the comparison is proved to be a total preorder."
  },
  {
   "property": "C45",
   "status": "proved",
   "theorems": [
    "C45_unique",
    "C45_prefixes"
   ],
   "note": "The u32 counter is modelled without overflow."
  },
  {
   "property": "C46",
   "status": "partial",
   "theorems": [
    "C46_needs_default_partial",
    "C46_struct_lazy_refuted",
    "C46_impl_exists_partial",
    "C46_no_fields_refuted"
   ],
   "note": "Exact characterisation unless lazy is given at struct level, which is refuted. For a struct with no fields new() is emitted but the Default it calls is not (refuted)."
  },
  {
   "property": "C47",
   "status": "partial",
   "theorems": [
    "C47_guards_refine",
    "C47_lazy_waits_exactly_on_conflict",
    "C47_shared_reading_refuted"
   ],
   "note": "Every guard history refines the cell with guards; exact waiting condition for lazy fields. Shared reading is false for async lazy fields (C47_shared_reading_refuted), true for all others by the exact conditions of C17 and C47."
  },
  {
   "property": "C48",
   "status": "partial",
   "theorems": [
    "C48_keys_partial",
    "C48_serde_name_refuted"
   ],
   "note": "Proved for fields without a name given to serde; such a name is ignored (C48_serde_name_refuted)."
  },
  {
   "property": "C49",
   "status": "partial",
   "theorems": [
    "C49_reads_partial",
    "C49_refused_iff",
    "C49_reads_exact",
    "C49_plain_default_refuted"
   ],
   "note": "Refusal proved exactly; contents proved except for plain fields with a default of their own that would be empty, which take that default (C49_plain_default_refuted); C49_reads_exact covers every case."
  },
  {
   "property": "C50",
   "status": "partial",
   "theorems": [
    "C50_bare_partial",
    "C50_exact",
    "C50_serde_places",
    "C50_no_builder_no_serde",
    "C50_serde_refuted",
    "C50_rc_builder_refuted",
    "C50_builder_default_refuted"
   ],
   "note": "Proved for parameters declared by name alone; exact condition proved; bounds with serde or rc+builder and parameter defaults with a builder refuted."
  },
  {
   "property": "C51",
   "status": "proved",
   "theorems": [
    "C51_get_mut_never",
    "C51_make_mut_loses_myself"
   ],
   "note": "std's Rc/Arc are modelled from their documentation."
  },
  {
   "property": "C52",
   "status": "partial",
   "theorems": [
    "C52_struct_keywords",
    "C52_field_keywords",
    "C52_skip",
    "C52_rc_refuted"
   ],
   "note": "Proved for all 11 struct and 9 field keywords and the flag skip; refuted for rc, documented as a keyword but taking a name."
  },
  {
   "property": "C53",
   "status": "proved",
   "theorems": [
    "C53_struct_order",
    "C53_field_order"
   ],
   "note": "The exceptions of the statement are the list `ordered` in ParseSpec.v."
  },
  {
   "property": "C54",
   "status": "partial",
   "theorems": [
    "C54_struct_repeated",
    "C54_field_repeated",
    "C54_two_names_refuted",
    "C54_bare_word_refuted"
   ],
   "note": "Proved at any depth for names and literals; refuted for a literal beside name(..) or shadow_name(..) (the literal wins) and for the bare attribute (it replaces clearer and predicate)."
  },
  {
   "property": "C55",
   "status": "partial",
   "theorems": [
    "C55_struct_round_trip",
    "C55_field_round_trip",
    "C55_struct_accepted",
    "C55_field_accepted",
    "C55_documented_refuted"
   ],
   "note": "Both directions proved for both levels (attribute lists and paths of single words in the writer); refuted for three documented forms: public(some::module), builder(init(..)), field-level builder(opt_in)."
  },
  {
   "property": "C56",
   "status": "partial",
   "theorems": [
    "C56_struct_empty_partial",
    "C56_field_empty_partial",
    "C56_refuted"
   ],
   "note": "Proved for all top-level arguments but public, attributes*, rename and the flag skip; refuted for those and for the sub-argument post_build."
  },
  {
   "property": "C57",
   "status": "partial",
   "theorems": [
    "C57_default",
    "C57_off_refuted",
    "C57_expressions_refuted"
   ],
   "note": "Exact set of accepted forms and texts proved; refuted for default(off) and for other expressions."
  },
  {
   "property": "C58",
   "status": "partial",
   "theorems": [
    "C58_struct_features",
    "C58_field_features",
    "C58_unchecked_refuted"
   ],
   "note": "Proved for sync, r#async and serde at both levels; refuted for mode(..), lock, reader, writer."
  },
  {
   "property": "C59",
   "status": "partial",
   "theorems": [
    "C59_never_stuck",
    "C59_terminates",
    "C59_completes",
    "C59_builder_guards_refuted"
   ],
   "note": "Proved (no stuck state, no endless schedule, everything can be completed, with drops and aborts) when builders also take the locks they keep in descending order; otherwise refuted, even with nobody writing. tokio's queue is assumed as documented."
  },
  {
   "property": "C60",
   "status": "proved",
   "theorems": [
    "C60_locks_have_owners",
    "C60_only_kept_guards",
    "C60_abort_frees",
    "C60_drop_frees"
   ],
   "note": "Every reachable state; drops of the task's own calls and aborts."
  },
  {
   "property": "C61",
   "status": "partial",
   "theorems": [
    "C61_self_dependent_never_ends",
    "C61_self_dependent_read_never_returns",
    "C61_reentrant_call_never_returns",
    "C61_circle_never_ends",
    "C61_abort_recovers",
    "C61_timeout_in_builder_refuted"
   ],
   "note": "Proved when the calls made by the builders themselves are not dropped; refuted for a builder with a timeout around the call on its own field."
  },
  {
   "property": "C62",
   "status": "partial",
   "theorems": [
    "C62_inside_panics",
    "C62_inside_leaves_fields",
    "C62_clone_in_async_code_refuted"
   ],
   "note": "The panic, its absence outside and the unchanged fields are proved; that a derived Clone works in async code is refuted."
  },
  {
   "property": "C63",
   "status": "partial",
   "theorems": [
    "C63_async_values",
    "C63_async_order_irrelevant",
    "C63_async_read",
    "C63_async_builder_starts",
    "C63_at_most_once_refuted",
    "C63_sync_async_agree"
   ],
   "note": "Values, order and agreement with sync fields proved; 'at most once' is refuted once something is dropped and replaced by: at most once more per drop."
  },
  {
   "property": "C64",
   "status": "partial",
   "theorems": [
    "C64_own_guard_blocks",
    "C64_sharers_never_wait",
    "C64_second_read_guard_refuted",
    "C64_self_comparison_refuted"
   ],
   "note": "The self-deadlock and the freedom of sharers are proved; refuted with a waiting writer (second read guard, a == a)."
  },
  {
   "property": "C65",
   "status": "proved",
   "theorems": [
    "C65_async_field_is_a_cell",
    "C65_build_budget",
    "C65_values_have_source",
    "C65_errors_are_own",
    "C65_panics_are_own",
    "C65_builds_on_demand",
    "C65_flag_at_rest",
    "C65_guards_keep_others_out"
   ],
   "note": "For fields used as lazy fields (no user code treats the same field as a plain lock). A task with several guards counts as several activities of the cell. Blocking calls inside a runtime, which panic before they touch the field (C62), are not part of the history."
  },
  {
   "property": "C66",
   "status": "proved",
   "theorems": [
    "C66_sync_field_is_a_cell",
    "C66_build_budget",
    "C66_values_have_source",
    "C66_errors_are_own",
    "C66_panics_are_own",
    "C66_builds_on_demand",
    "C66_flag_at_rest",
    "C66_guards_keep_others_out"
   ],
   "note": "For fields used as lazy fields (no user code treats the same field as a plain lock). A thread with several guards counts as several activities of the cell."
  },
  {
   "property": "C67",
   "status": "proved",
   "theorems": [
    "C67_shows_last_set",
    "C67_holds_last_set",
    "C67_guards_exclude",
    "C67_comparison"
   ],
   "note": "For fields used as locked fields (no user code treats the same field as a lazy one). Debug output of locked fields is that of the lock inside (not in /repo) and is left out."
  },
  {
   "property": "C68",
   "status": "proved",
   "theorems": [
    "C68_shows_last_set",
    "C68_holds_last_set",
    "C68_guards_exclude",
    "C68_comparison"
   ],
   "note": "For fields used as locked fields (no user code treats the same field as a lazy one). Debug output of locked fields is that of the lock inside (not in /repo) and is left out."
  },
  {
   "property": "C69",
   "status": "partial",
   "theorems": [
    "C69_placement_partial",
    "C69_sync_get_mut",
    "C69_sync_get_mut_refuted",
    "C69_shadow_struct",
    "C69_shadow_struct_partial",
    "C69_shadow_struct_refuted",
    "C69_shadow_field",
    "C69_shadow_field_partial",
    "C69_shadow_field_refuted",
    "C69_present"
   ],
   "note": "Proved for the struct's impl, fields, methods, builder struct, impl, fields and setters. False for get_mut of sync fields (carries get's attributes), the shadow struct (never gets the struct-level fallback) and shadow fields (get the struct-level attributes; everything is forwarded without a list; serde at a field drops the struct's list): exact contents proved, refutations given."
  },
  {
   "property": "C70",
   "status": "partial",
   "theorems": [
    "C70_guarded",
    "C70_needed_partial",
    "C70_needed_refuted"
   ],
   "note": "Every getter that needs Copy is covered; a checked type belongs to such a getter or to a skipped field. Refuted for skipped fields."
  },
  {
   "property": "C71",
   "status": "partial",
   "theorems": [
    "C71_there",
    "C71_hidden_iff_partial",
    "C71_hidden_refuted"
   ],
   "note": "Exact conditions proved; refuted for inner_mut (plain), lock/reader/writer (sync), get(copy), and fallible without a struct-level error type (sync)."
  },
  {
   "property": "C72",
   "status": "partial",
   "theorems": [
    "C72_no_panic_partial",
    "C72_rename_refuted",
    "C72_helper_name_refuted",
    "C72_struct_name_refuted",
    "C72_raw_default_refuted",
    "C72_bare_default_refuted"
   ],
   "note": "Proved for every input with well-formed names, no raw name where serde gets a function, and no bare default on a sync field that is lazy or optional. Each exception is refuted by a witness."
  },
  {
   "property": "C73",
   "status": "partial",
   "theorems": [
    "C73_identifier",
    "C73_documented",
    "C73_same_names",
    "C73_nameable_partial",
    "C73_nameable_refuted",
    "C73_struct_names"
   ],
   "note": "Proved: identifiers always, documented names, struct-level names. A getter or builder method of a field called by a raw keyword loses the r#: refuted; the exact condition is proved."
  },
  {
   "property": "C74",
   "status": "proved",
   "theorems": [
    "C74_errors",
    "C74_accepted",
    "C74_nothing_dropped",
    "C74_complete"
   ],
   "note": "Relative to the model of the expansion; path and assignment stand for syn's two checks on a serde default."
  },
  {
   "property": "C75",
   "status": "proved",
   "theorems": [
    "C75_struct_grammar",
    "C75_field_grammar",
    "C75_struct_off",
    "C75_field_off"
   ],
   "note": "Relative to ParseModel.v. The off part says nothing about fields with a bare #[fieldx], which the code marks as not lazy."
  },
  {
   "property": "C76",
   "status": "proved",
   "theorems": [
    "C76_async_no_race",
    "C76_async_events",
    "C76_async_same_history",
    "C76_async_predicate_not_older",
    "C76_async_predicate_onward",
    "C76_async_predicate_heard",
    "C76_async_strong_is_weak",
    "C76_sync_no_race",
    "C76_sync_events",
    "C76_sync_same_history",
    "C76_sync_predicate_not_older",
    "C76_sync_predicate_onward",
    "C76_sync_predicate_heard",
    "C76_sync_strong_is_weak"
   ],
   "note": "For one lazy field, on the memory of WeakMem.v, which promises less than the orderings in the source (reading the flag teaches nothing about other places). The locks pass on knowledge as parking_lot and tokio document."
  },
  {
   "property": "C77",
   "status": "proved",
   "theorems": [
    "C77_mode",
    "C77_methods",
    "C77_names",
    "C77_lazy_name",
    "C77_type",
    "C77_builder",
    "C77_setters",
    "C77_setter_names"
   ],
   "note": "Joins C75 (what is accepted), C28 (precedence) and C38 (what is emitted) into one statement about tokens. Field names are taken to be distinct for C77_setters, as rustc demands."
  },
  {
   "property": "C78",
   "status": "proved",
   "theorems": [
    "C78_rules",
    "C78_send",
    "C78_share",
    "C78_documented",
    "C78_bounds",
    "C78_futures"
   ],
   "note": "The rules for auto traits and the unsafe impls of std, once_cell, parking_lot and tokio are taken from their documentation. Generic parameters count as types with some Send and Sync of their own. User code (lazy builders) is not looked into."
  },
  {
   "property": "C79",
   "status": "proved",
   "theorems": [
    "C79_visibility",
    "C79_facts",
    "C79_signatures",
    "C79_builder_setters"
   ],
   "note": "The declared type is the opaque T; lifetimes and paths of the guard types are left out. Parsing of tokens by syn is as modelled in ParseModel.v. Attributes are those of C77."
  },
  {
   "property": "C80",
   "status": "proved",
   "theorems": [
    "C80_default",
    "C80_constructor",
    "C80_counted",
    "C80_demanded"
   ],
   "note": "Tokens as read by the model of syn and darling (ParseModel.v). Whether Default has the right values is C38; whether the emitted code compiles is C71. The hypothesis that identifiers are distinct is a rule of Rust."
  },
  {
   "property": "C81",
   "status": "proved",
   "theorems": [
    "C81_derived",
    "C81_conversions",
    "C81_shadow",
    "C81_fields",
    "C81_copied",
    "C81_skips"
   ],
   "note": "Tokens as read by the model of syn and darling (ParseModel.v). Keys and defaults on reading are C48 and C49; generics of the shadow are C50. Attributes of the fields of the shadow are C69."
  },
  {
   "property": "C82",
   "status": "proved",
   "theorems": [
    "C82_called",
    "C82_behaves",
    "C82_unkept",
    "C82_conflicts",
    "C82_starts"
   ],
   "note": "Calls named in CodegenSpec.v as not compiling (C38) and in FieldSpec.v as meaning something else (C16_lock_predicate_refuted) are left out by sound_call; one thread. That names of methods are distinct is a rule of Rust."
  },
  {
   "property": "C83",
   "status": "proved",
   "theorems": [
    "C83_form",
    "C83_builds_as_told"
   ],
   "note": "Stated for fields for which code is generated (generated); where the setter is named the form follows the words also in the cases of C19_unchecked_refuted, C22_named_off_refuted and C23_required_off_refuted."
  },
  {
   "property": "C84",
   "status": "proved",
   "theorems": [
    "C84_places",
    "C84_writes",
    "C84_reads",
    "C84_round_trip"
   ],
   "note": "Stated for structs whose conversions compile (C38 says which); exact, including what C39, C40 and C49 report as oddities (async builders are not run, errors of fallible builders are lost, plain empty fields take their default). Documents are flat: keys with a value or null."
  },
  {
   "property": "C85",
   "status": "proved",
   "theorems": [
    "C85_sync_guards",
    "C85_async_guards",
    "C85_sync_alone",
    "C85_sync_waits",
    "C85_async_alone",
    "C85_async_waits"
   ],
   "note": "Locks are modelled by their contracts (no queues), memory is sequentially consistent here (C76 treats weak memory). Clone and Debug wait for writers in the code, in the cell they are never held up, so the alone theorems ask for no writer for them."
  },
  {
   "property": "C86",
   "status": "proved",
   "theorems": [
    "C86_threads",
    "C86_moves",
    "C86_written"
   ],
   "note": "Lazy fields of sync and async structs. Locks by their contracts, memory sequentially consistent (C76 treats weak memory); a method keeps at most one guard at a time, as all emitted bodies do."
  },
  {
   "property": "C87",
   "status": "proved",
   "theorems": [
    "C87_threads",
    "C87_moves",
    "C87_written"
   ],
   "note": "Fields of type FXRwLockSync or FXRwLockAsync. The locks of parking_lot and tokio by their contracts, memory sequentially consistent; a method keeps at most one guard at a time, as all emitted bodies do. Methods that do not compile (C38) or mean something else (the predicate of a fallible field, C16) are excluded by `works`."
  },
  {
   "property": "C88",
   "status": "partial",
   "theorems": [
    "C88_distinct_partial",
    "C88_meet",
    "C88_builder",
    "C88_tied",
    "C88_shared_builder_refuted",
    "C88_names_refuted"
   ],
   "note": "Proved for all structs that choose no names for helpers and whose field names are not themselves like generated ones (`quiet`); which promised names meet is given exactly (C88_meet), the names in the builder exactly (C88_builder). Refuted otherwise: a field called `new` with a getter, `set` with get_mut beside `r#mut` with a setter, `build` in a builder, two async lazy fields with one builder method. Functions of the user other than the methods for lazy fields are not considered."
  },
  {
   "property": "C89",
   "status": "proved",
   "theorems": [
    "C89_shareable",
    "C89_record",
    "C89_moves",
    "C89_written",
    "C89_cycle_refuted"
   ],
   "note": "Sequentially consistent memory, as for C86 and C87 (C76 treats one lazy field with weak memory). C89_cycle_refuted shows that the order of the fields is needed: two builders that want each other's field wait for ever."
  },
  {
   "property": "C90",
   "status": "partial",
   "theorems": [
    "C90_reserved_partial",
    "C90_exact",
    "C90_std",
    "C90_trait_refuted",
    "C90_prelude_refuted",
    "C90_lifetime_refuted",
    "C90_into_refuted",
    "C90_default_refuted",
    "C90_names_refuted"
   ],
   "note": "Without the condition on the names the claim is false: the _refuted theorems take one name each (FXStruct, None, 'fx_reader_lifetime, FXVALINTO, me, FooBuilder, Default, missing derive macros). C90_exact says when it holds; it assumes that the user's constants are not called like the variables of the generated code. Methods found by type, attributes and the paths of errors and serde defaults are not part of the model."
  },
  {
   "property": "C91",
   "status": "proved",
   "theorems": [
    "C91_no_race",
    "C91_record",
    "C91_exact",
    "C91_moves",
    "C91_written",
    "C91_events",
    "C91_predicate_refuted"
   ],
   "note": "All fields of an object on the memory of C76. C91_predicate_refuted shows that the answers of predicates of lazy fields have to be left out; C91_case shows that an order through another field forbids the stale answer. The memory is that of WeakMem.v (an assumption about Rust's memory model); locks of parking_lot and tokio by their contract."
  },
  {
   "property": "C92",
   "status": "proved",
   "theorems": [
    "C92_bounded",
    "C92_finite",
    "C92_over",
    "C92_ends",
    "C92_weak",
    "C92_written",
    "C92_cycle_refuted"
   ],
   "note": "Steps are those of the models: one for each access to a lock, the value or the flag, and for each call and return. Waiting for a lock is not a step; that a waiting thread is not overtaken for ever by new calls of others would be a promise of the locks and is not claimed. Twenty is reached (C92_case). C92_cycle_refuted shows that the order of the fields is needed."
  },
  {
   "property": "C93",
   "status": "proved",
   "theorems": [
    "C93_life",
    "C93_shared",
    "C93_settles",
    "C93_alone",
    "C93_built",
    "C93_default",
    "C93_documents"
   ],
   "note": "Shared scenes are sequentially consistent (C91 has weak memory for one scene). In a scene the owner uses one field (scenes follow one another, so all fields are used in turn; C96_scenes turns owners who keep guards of many fields at once into such scenes), and no builder calls methods of the object then; C89 has that for shared scenes. C93_shared names the structs whose objects can be shared, as the auto traits would."
  },
  {
   "property": "C94",
   "status": "proved",
   "theorems": [
    "C94_life",
    "C94_exact",
    "C94_found",
    "C94_known",
    "C94_built",
    "C94_default",
    "C94_documents",
    "C94_taken_back"
   ],
   "note": "The memory is that of WeakMem.v (an assumption about Rust's memory model); locks by their contract; joining passes on all that the joined know. Before an object is shared again memory begins anew with what the owner found, which C94_known and C94_found justify: the owner knows all writes. C94_case shows that an owner who has not joined all can find old contents and races. Owner scenes as in C93."
  },
  {
   "property": "C95",
   "status": "proved",
   "theorems": [
    "C95_expands",
    "C95_compiles",
    "C95_judges",
    "C95_accepts",
    "C95_same",
    "C95_any_first",
    "C95_methods",
    "C95_base",
    "C95_accessor",
    "C95_setter",
    "C95_builder",
    "C95_same_message_refuted",
    "C95_flags_compile_refuted"
   ],
   "note": "rustc's part (names of fields and traits not twice, methods of Flag and Option) is an assumption written down in `compiles`; types are paths without generic arguments; darling's derived FromMeta is in ParseModel.v. C95_same_message_refuted: get(public, private, clone, as_ref) gets one of two messages, depending on the build. C95_flags_compile_refuted: an option in a group declared as darling::util::Flag is tested by a method it does not have."
  },
  {
   "property": "C96",
   "status": "proved",
   "theorems": [
    "C96_session",
    "C96_apart",
    "C96_scenes",
    "C96_written"
   ],
   "note": "Programs are those of C82 for each field; the borrow checker is not modelled, so programs that it would refuse (a method with &mut self called while a guard is kept) are covered too. Builders call no methods of the object (C89 has that). C96_case, ss_stuck: a thread that waits for its own guard does nothing more."
  },
  {
   "property": "C97",
   "status": "proved",
   "theorems": [
    "C97_clone",
    "C97_copies",
    "C97_equal",
    "C97_copy_equal",
    "C97_async_not_compared",
    "C97_debug",
    "C97_written"
   ],
   "note": "One thread, nobody waiting (C08, C11 and C64 have copies and comparisons among many), outside of a tokio runtime (C62). Skipped fields and the Weak of rc structs are left out: they have the Clone, PartialEq and Debug of their own types. RefCell, OnceCell, parking_lot and tokio locks as documented (Debug of both locks tries and prints <locked>)."
  }
 ]
}