{
 "claims": [
  {
   "property": "C01",
   "status": "proved",
   "theorems": [
    "C01_from_slice_round_trip"
   ],
   "note": ""
  },
  {
   "property": "C02",
   "status": "proved",
   "theorems": [
    "C02_growing_histories"
   ],
   "note": ""
  },
  {
   "property": "C03",
   "status": "proved",
   "theorems": [
    "C03_stack_histories",
    "C03_back_histories"
   ],
   "note": "The second theorem covers a larger class (extend, map, filter, take, skip, split_at as well)."
  },
  {
   "property": "C04",
   "status": "partial",
   "theorems": [
    "C04_pop_front_order_refuted",
    "C04_mixed_ends_refuted",
    "C04_up_to_64_partial",
    "C04_front_stack_partial",
    "C04_drain_after_growth_partial",
    "C04_fed_queue_partial",
    "C04_fed_65_refuted",
    "C04_both_ends_partial",
    "C04_pop_back_always_wrong",
    "C04_pop_front_reverses",
    "C04_refill_back_wrong",
    "C04_refill_front_wrong",
    "C04_past_refill_partial",
    "C04_holed_pop_back_wrong",
    "C04_holed_pop_front_reverses",
    "C04_hole_reached_wrong",
    "C04_past_hole_partial",
    "C04_trimmed_pop_front_reverses",
    "C04_counts_do_not_decide",
    "C04_trimmed_pop_back_wrong",
    "C04_trimmed_pop_back_undecided",
    "C04_stopped_pop_back_wrong",
    "C04_stopped_pop_front_reverses"
   ],
   "note": "The full statement is false of the code (witnesses); the positive theorems cover histories up to 64 elements, front stacks over suitable slices, and draining after growth. Queues (growth mixed with pop_front) are right while no pop_front meets fewer than 66 elements; with 65 it is false. C04_both_ends_partial covers any mixture of calls at both ends up to the calls at which place_run stops; what happens at those calls is stated too: pop_back is wrong, pop_front reverses the rest, and after the two pushes a given continuation is wrong. C04_past_refill_partial goes on past those two pushes, which leave a hole: right until the hole is reached, and C04_hole_reached_wrong shows that reaching it from the front is wrong if what lies behind was kept. C04_past_hole_partial also goes past a hole reached from the back. At a hole reached from the front otherwise, and when the back buffer is handed on after a hole was reached from the back, the counts do not decide: C04_counts_do_not_decide gives two histories with the same counts, one right and one wrong. A pop_back with an empty back buffer and a filled front buffer after a hole was reached from the back is always wrong if all elements ever put in differ (C04_trimmed_pop_back_wrong); otherwise the counts do not decide (C04_trimmed_pop_back_undecided)."
  },
  {
   "property": "C05",
   "status": "partial",
   "theorems": [
    "C05_nested_exact",
    "C05_descending",
    "C05_level",
    "C05_concat_refuted",
    "C05_concat_contents_partial",
    "C05_concat_slices_exact",
    "C05_concat_short_right"
   ],
   "note": "False of the code in general; exact characterisation for slices and every nesting of concatenations of slices, multiset/length law for all assembled vectors."
  },
  {
   "property": "C06",
   "status": "partial",
   "theorems": [
    "C06_split_at_partial",
    "C06_split_after_insert_refuted",
    "C06_split_both_ends_partial",
    "C06_split_then_grow_partial",
    "C06_beyond_2112_refuted",
    "C06_cut_histories_partial",
    "C06_cut_halves_partial"
   ],
   "note": "Proved for all histories at the back end; false after insert. Also proved after growth at both ends up to 2112 elements; 2113 is refuted. Also proved, for any length, after all histories that mix both ends and cuts while the count of PvecViewsSpec goes on."
  },
  {
   "property": "C07",
   "status": "partial",
   "theorems": [
    "C07_take_skip_partial",
    "C07_take_after_insert_refuted",
    "C07_take_skip_both_ends_partial",
    "C07_cut_views_partial"
   ],
   "note": "As C06. Also proved after growth at both ends up to 2112 elements; 2113 is refuted. Also after histories that mix both ends and cuts, as C06."
  },
  {
   "property": "C08",
   "status": "partial",
   "theorems": [
    "C08_one_edit_partial",
    "C08_insert_chain_refuted",
    "C08_insert_after_push_front_refuted",
    "C08_edit_after_cuts_partial",
    "C08_insert_in_front",
    "C08_remove_in_front"
   ],
   "note": "One edit after any back-end history, then growth, is right; chains are wrong in the code. Also right after histories that mix both ends and cuts, behind the front buffer; within it the parts are swapped, stated exactly."
  },
  {
   "property": "C09",
   "status": "proved",
   "theorems": [
    "C09_map_filter",
    "C09_zip",
    "C09_partition",
    "C09_fold",
    "C09_dedup",
    "C09_sorted",
    "C09_chunk",
    "C09_chunk_zero",
    "C09_zip_asks",
    "C09_any",
    "C09_zip_any"
   ],
   "note": "For every vector: the list is what iterating finds; panics exactly when iterating does."
  },
  {
   "property": "C10",
   "status": "partial",
   "theorems": [
    "C10_functor_laws_partial",
    "C10_laws_any",
    "C10_length_exact",
    "C10_length_refuted"
   ],
   "note": "The two laws hold for every vector. False of the code: the length is not preserved for vectors whose length counts missing elements (witness); exact condition proved."
  },
  {
   "property": "C100",
   "status": "partial",
   "theorems": [
    "C100_complete",
    "C100_validated_partial",
    "C100_validated_refuted",
    "C100_computations_partial",
    "C100_computations_refuted"
   ],
   "note": "Complete for Id, Maybe, Either, Writer, Choice. False of the code for Validated (never two errors) and for State, Reader, Cont and IO (only constants)."
  },
  {
   "property": "C101",
   "status": "proved",
   "theorems": [
    "C101_single",
    "C101_optional",
    "C101_choice",
    "C101_owned",
    "C101_text",
    "C101_vector"
   ],
   "note": ""
  },
  {
   "property": "C102",
   "status": "partial",
   "theorems": [
    "C102_invalid_many_partial",
    "C102_invalid_many_refuted",
    "C102_invalid_vec",
    "C102_choice_new",
    "C102_filter_map_partial",
    "C102_filter_map_refuted",
    "C102_lift2",
    "C102_lift3_partial",
    "C102_lift3_refuted",
    "C102_choice_new_request"
   ],
   "note": "Right for invalid_vec, Choice::new and lift2; invalid_many, filter_map(_collect) and lift3 can panic on reserved memory although the result fits (refuted, with the exact condition)."
  },
  {
   "property": "C103",
   "status": "partial",
   "theorems": [
    "C103_state",
    "C103_state_eval_exec",
    "C103_reader",
    "C103_cont",
    "C103_call_cc",
    "C103_state_t",
    "C103_reader_t",
    "C103_state_calls_in_order",
    "C103_reader_calls_in_order",
    "C103_cont_calls_in_order",
    "C103_every_run_calls_again",
    "C103_monad_laws",
    "C103_state_t_functions_partial",
    "C103_state_t_variants_call_early",
    "C103_building_is_silent_refuted",
    "C103_apply_order_refuted",
    "C103_constructors_and_conversions",
    "C103_lens_calls",
    "C103_prism_calls",
    "C103_lens_fmap_calls",
    "C103_prism_modify_identity",
    "C103_lens_getter_once_refuted",
    "C103_pure_state",
    "C103_pure_reader",
    "C103_pure_optics",
    "C103_state_t_variants_wait"
   ],
   "note": "State, Reader and Cont: proved for every script, every closure with effects or panics, any number of runs. False of StateT built from its Pure and LiftM variants (closures are called while building), of ReaderT::apply (the value's side runs first) and of Lens::modify (the getter is called twice); the exact calls in these cases are proved."
  },
  {
   "property": "C11",
   "status": "partial",
   "theorems": [
    "C11_groupings",
    "C11_associativity_exact",
    "C11_identity",
    "C11_associativity_refuted",
    "C11_associativity_partial"
   ],
   "note": "Identities proved, associativity false in the code; exactly which lengths are associative is proved (C11_associativity_exact)."
  },
  {
   "property": "C12",
   "status": "partial",
   "theorems": [
    "C12_equality_sound_partial",
    "C12_equality_slices",
    "C12_equality_refuted",
    "C12_up_to_64_exact",
    "C12_built_alike"
   ],
   "note": "Completeness is false of the code (the generation counter is compared). Exact for histories within 64 elements: same elements and the same number of changes; vectors built the same way compare right at any length."
  },
  {
   "property": "C13",
   "status": "proved",
   "theorems": [
    "C13_update_frame",
    "C13_try_update",
    "C13_update_any",
    "C13_update_any_list"
   ],
   "note": "C13_update_any and C13_update_any_list cover every vector any program can make; persistence of the original is immediate in a value model."
  },
  {
   "property": "C14",
   "status": "partial",
   "theorems": [
    "C14_accessors_partial",
    "C14_iteration_partial",
    "C14_from_get",
    "C14_to_vec_any",
    "C14_next_any",
    "C14_folds_any",
    "C14_walks",
    "C14_all_there",
    "C14_agree",
    "C14_missing_exact",
    "C14_iteration_refuted"
   ],
   "note": "False of the code: a deque history leaves a vector whose length and size_hint count elements iteration never yields (witness). Proved for every vector: each accessor in terms of single reads, agreement of all when nothing is missing, and exactly which positions are missing."
  },
  {
   "property": "C15",
   "status": "partial",
   "theorems": [
    "C15_no_panic_partial",
    "C15_no_panic_history_partial",
    "C15_no_panic_refuted",
    "C15_get_exact",
    "C15_update_exact",
    "C15_split_exact",
    "C15_pop_front_exact",
    "C15_to_vec_exact",
    "C15_pop_back_returns",
    "C15_only_overfull",
    "C15_becomes_overfull",
    "C15_stays_within"
   ],
   "note": "False in general (pop_back after mixed ends); proved for every history without pop_back after a back-end prefix. For any history: the exact panic condition of get, update, split_at, pop_front and to_vec, and the one call that leads there (pop_back)."
  },
  {
   "property": "C16",
   "status": "proved",
   "theorems": [
    "C16_construction",
    "C16_accessors",
    "C16_folds",
    "C16_try_value_panics_refuted"
   ],
   "note": "Also records that the inherited try_value/try_into_value panic on an empty choice."
  },
  {
   "property": "C17",
   "status": "proved",
   "theorems": [
    "C17_fmap",
    "C17_fmap_alternatives"
   ],
   "note": ""
  },
  {
   "property": "C18",
   "status": "partial",
   "theorems": [
    "C18_bind_exact",
    "C18_identities",
    "C18_variants_agree",
    "C18_assoc_partial",
    "C18_assoc_refuted",
    "C18_bind_concat_iff",
    "C18_bind_concat_refuted",
    "C18_bind_lazy"
   ],
   "note": "Identities and agreement of all variants are proved; associativity and \"bind is concatenation\" are false of the code (a Kleisli function that is empty on the primary drops every alternative): both are refuted by witnesses, and proved under the condition that excludes that case."
  },
  {
   "property": "C19",
   "status": "partial",
   "theorems": [
    "C19_apply_exact",
    "C19_laws",
    "C19_composition",
    "C19_lift_exact",
    "C19_lift2_apply_partial",
    "C19_lift2_apply_refuted"
   ],
   "note": "All four laws and the agreement of owned versions proved; lift2 = apply(fmap) is false as equality of sequences (order differs, refuted) and proved up to permutation with the same primary."
  },
  {
   "property": "C20",
   "status": "proved",
   "theorems": [
    "C20_combine_exact",
    "C20_laws",
    "C20_sum",
    "C20_right_zero",
    "C20_left_distribution_refuted",
    "C20_many_guard"
   ],
   "note": "Distribution of bind over mplus (not part of the statement) is refuted."
  },
  {
   "property": "C21",
   "status": "proved",
   "theorems": [
    "C21_remove",
    "C21_swap",
    "C21_primary_kept"
   ],
   "note": ""
  },
  {
   "property": "C22",
   "status": "proved",
   "theorems": [
    "C22_filter",
    "C22_dedup",
    "C22_to_map"
   ],
   "note": "== on keys is assumed to be an equivalence, as Rust's Eq requires."
  },
  {
   "property": "C23",
   "status": "proved",
   "theorems": [
    "C23_flatten",
    "C23_flatten_sorted",
    "C23_sequence"
   ],
   "note": ""
  },
  {
   "property": "C24",
   "status": "partial",
   "theorems": [
    "C24_apply_lift",
    "C24_sequence",
    "C24_collect_partial",
    "C24_traverse"
   ],
   "note": "apply, lift2, lift3, sequence, traverse_validated accumulate exactly, for any number of inputs. collect does so unless an input is Invalid with no errors; for that input the claim is false of the code (see C26_collect_refuted)."
  },
  {
   "property": "C25",
   "status": "proved",
   "theorems": [
    "C25_functor",
    "C25_applicative",
    "C25_monad",
    "C25_bind_short_circuits",
    "C25_apply_is_not_bind_refuted",
    "C25_bifunctor",
    "C25_foldable"
   ],
   "note": "Owned and borrowed methods are modelled by one definition where their bodies coincide; where they differ (apply_owned, lift3_owned) agreement is part of C24_apply_lift. apply is not the ap derived from bind."
  },
  {
   "property": "C26",
   "status": "partial",
   "theorems": [
    "C26_collect_iff_partial",
    "C26_collect_exact",
    "C26_collect_refuted"
   ],
   "note": "False of the code when an input is Invalid with an empty error list: refuted with a witness; exact condition proved."
  },
  {
   "property": "C27",
   "status": "proved",
   "theorems": [
    "C27_laws",
    "C27_exact",
    "C27_combine_errors"
   ],
   "note": ""
  },
  {
   "property": "C28",
   "status": "partial",
   "theorems": [
    "C28_identities_partial",
    "C28_alt_right_identity_refuted",
    "C28_right_zero_refuted",
    "C28_alt_assoc",
    "C28_guard_many"
   ],
   "note": "alt's right identity and the right zero of bind are false of the code (refuted); the remaining identities are proved, and right zero is proved to hold exactly for valid values and mzero itself."
  },
  {
   "property": "C29",
   "status": "partial",
   "theorems": [
    "C29_round_trips",
    "C29_to_result_partial",
    "C29_to_result_panics_refuted",
    "C29_iso_partial",
    "C29_iso_refuted",
    "C29_invalid_constructors",
    "C29_recover"
   ],
   "note": "Round trips proved; conversion to Result panics exactly on an empty error list (refutes \"never panics\") and ResultValidatedIso's second law holds exactly for valid values and single errors (refuted in general)."
  },
  {
   "property": "C30",
   "status": "proved",
   "theorems": [
    "C30_laws",
    "C30_nothing_absorbs"
   ],
   "note": "owned and borrowed forms are one model function (clone is the identity)"
  },
  {
   "property": "C31",
   "status": "partial",
   "theorems": [
    "C31_iso",
    "C31_operations",
    "C31_alternative",
    "C31_results",
    "C31_order_refuted",
    "C31_order_partial"
   ],
   "note": "everything but comparison: the derived order of Maybe is not that of Option (witness), and is preserved exactly when both or neither is present"
  },
  {
   "property": "C32",
   "status": "partial",
   "theorems": [
    "C32_fmap_error_refuted",
    "C32_fmap_error_partial",
    "C32_others"
   ],
   "note": "false of the code for Maybe: a present value is replaced by the mapped error; true for Either, Result and Validated"
  },
  {
   "property": "C33",
   "status": "proved",
   "theorems": [
    "C33_laws",
    "C33_bifunctor",
    "C33_first_left_wins"
   ],
   "note": ""
  },
  {
   "property": "C34",
   "status": "partial",
   "theorems": [
    "C34_alt_mplus_partial",
    "C34_refuted",
    "C34_guard_many"
   ],
   "note": "associativity and one identity each hold; the other identities and agreement are false; exact conditions proved"
  },
  {
   "property": "C35",
   "status": "proved",
   "theorems": [
    "C35_laws",
    "C35_comonad",
    "C35_monoid_fold",
    "C35_join_then"
   ],
   "note": "duplicate returns one layer in the code"
  },
  {
   "property": "C36",
   "status": "proved",
   "theorems": [
    "C36_result_iso",
    "C36_options"
   ],
   "note": ""
  },
  {
   "property": "C37",
   "status": "proved",
   "theorems": [
    "C37_laws",
    "C37_programs",
    "C37_list_log",
    "C37_accessors",
    "C37_monoid"
   ],
   "note": "for every log monoid and every program built from pure, tell, fmap, bind, apply"
  },
  {
   "property": "C38",
   "status": "proved",
   "theorems": [
    "C38_laws",
    "C38_programs",
    "C38_state_laws",
    "C38_from_pure_panics"
   ],
   "note": "also with panicking state functions; a State made from a bare StateT::Pure panics when run"
  },
  {
   "property": "C39",
   "status": "partial",
   "theorems": [
    "C39_laws_partial",
    "C39_bare_pure_refuted",
    "C39_bases",
    "C39_programs",
    "C39_round_trip",
    "C39_functor",
    "C39_lift"
   ],
   "note": "true for everything not built with the bare Pure variant, for which two laws fail (witness); lift keeps the state only if the base value holds it"
  },
  {
   "property": "C40",
   "status": "partial",
   "theorems": [
    "C40_combine_refuted",
    "C40_apply_refuted",
    "C40_combine_partial",
    "C40_second_ignores_first",
    "C40_apply_exact",
    "C40_join_exec"
   ],
   "note": "false of the code: both parts run from the initial state; exact behaviour over the identity base proved"
  },
  {
   "property": "C41",
   "status": "proved",
   "theorems": [
    "C41_laws",
    "C41_programs",
    "C41_local",
    "C41_ask_with"
   ],
   "note": ""
  },
  {
   "property": "C42",
   "status": "proved",
   "theorems": [
    "C42_laws",
    "C42_functor",
    "C42_lift",
    "C42_environment",
    "C42_combine",
    "C42_combine_with",
    "C42_apply_order_refuted"
   ],
   "note": "Monad laws, functor laws, lift and environment laws proved for every lawful base. Beyond the statement: apply runs the argument before the function, unlike the other applicatives (C42_apply_order_refuted)."
  },
  {
   "property": "C43",
   "status": "partial",
   "theorems": [
    "C43_refuted",
    "C43_exact_partial",
    "C43_dangling_result_refuted",
    "C43_bind_with"
   ],
   "note": "false of the code: every run of bind whose function drops or keeps its argument drops a value twice; exact condition proved; bind_with is free of it"
  },
  {
   "property": "C44",
   "status": "proved",
   "theorems": [
    "C44_laws",
    "C44_run",
    "C44_apply_order",
    "C44_call_cc",
    "C44_round_trip"
   ],
   "note": ""
  },
  {
   "property": "C45",
   "status": "partial",
   "theorems": [
    "C45_laws_partial",
    "C45_call_cc",
    "C45_lift_refuted",
    "C45_lift_absorbs"
   ],
   "note": "monad laws hold; lift drops the continuation, so neither morphism law holds"
  },
  {
   "property": "C46",
   "status": "proved",
   "theorems": [
    "C46_functor_laws",
    "C46_monad_laws",
    "C46_derived",
    "C46_applicative_laws",
    "C46_congruence",
    "C46_composition_refuted"
   ],
   "note": "functor, monad and applicative laws up to effects, panics and result; composition law of apply stated with closures of pure values effect-free, the witness shows it fails otherwise because apply on two pure values runs the closure at build time"
  },
  {
   "property": "C47",
   "status": "partial",
   "theorems": [
    "C47_lazy_partial",
    "C47_afresh",
    "C47_lazy_refuted",
    "C47_is_pure"
   ],
   "note": "false as stated: fmap/bind/apply on a pure IO call the closure while building; proved for suspended IO values, and re-running performs the effects afresh"
  },
  {
   "property": "C48",
   "status": "proved",
   "theorems": [
    "C48_sequence",
    "C48_combine",
    "C48_apply",
    "C48_when",
    "C48_delay",
    "C48_sequence_composable"
   ],
   "note": "order and exactly-once of sequence, combine, apply, when, delay; sequence_composable runs all and collects errors in order"
  },
  {
   "property": "C49",
   "status": "partial",
   "theorems": [
    "C49_try_get",
    "C49_recover_partial",
    "C49_no_panic",
    "C49_recover_handler_panics_refuted"
   ],
   "note": "try_get and recover contain every panic of the program; a panic raised by recover's own handler is not contained (witness)"
  },
  {
   "property": "C50",
   "status": "partial",
   "theorems": [
    "C50_once_and_value_partial",
    "C50_after_cached",
    "C50_failure_cause",
    "C50_sequential",
    "C50_shared_refuted",
    "C50_panicking_future"
   ],
   "note": "false as stated: a second thread that finds the future taken before the result is cached panics (witness); awaited at most once, all returned values agree, and once cached every run returns it"
  },
  {
   "property": "C51",
   "status": "proved",
   "theorems": [
    "C51_returns_current",
    "C51_once_per_clear",
    "C51_value",
    "C51_answers",
    "C51_progress",
    "C51_terminates",
    "C51_all_answered"
   ],
   "note": "all interleavings of any number of threads; every returned value is the one computed since the last clear, one computation per key between clears, no deadlock, termination, every call answered once"
  },
  {
   "property": "C52",
   "status": "partial",
   "theorems": [
    "C52_no_panic_partial",
    "C52_poisoned_forever",
    "C52_other_keys_refuted"
   ],
   "note": "false as stated: a panicking computation poisons the lock and every later call on any key panics; without panicking functions no call panics"
  },
  {
   "property": "C53",
   "status": "proved",
   "theorems": [
    "C53_sequencing",
    "C53_async_laws",
    "C53_laws",
    "C53_owned_agree",
    "C53_recover_with",
    "C53_from_result_or_default",
    "C53_combination",
    "C53_join_ready",
    "C53_apply_laws",
    "C53_join_results",
    "C53_join_independent",
    "C53_join_panic",
    "C53_recover_eager_refuted"
   ],
   "note": "Poll by poll, for every environment and every branch order of join!. A panic of a function applied eagerly to two pure values happens while building and is not recoverable (C53_recover_eager_refuted)."
  },
  {
   "property": "C54",
   "status": "proved",
   "theorems": [
    "C54_set_is_set_always",
    "C54_set_is_set_always_only_if",
    "C54_equal_value_skips",
    "C54_laws",
    "C54_fmap_laws",
    "C54_fmap_functor",
    "C54_coarse_equality_refuted"
   ],
   "note": "For lenses whose user-supplied getter/setter are lawful and whose PartialEq is sound; with a coarser equality the statement is false (C54_coarse_equality_refuted)."
  },
  {
   "property": "C55",
   "status": "proved",
   "theorems": [
    "C55_modify",
    "C55_modify_no_match",
    "C55_set_if_different",
    "C55_set_keeps_unmatched_refuted"
   ],
   "note": "For a sound PartialEq of the focus. Also records that set on a non-matching value replaces it (C55_set_keeps_unmatched_refuted)."
  },
  {
   "property": "C56",
   "status": "partial",
   "theorems": [
    "C56_whole_laws",
    "C56_modify_focus",
    "C56_set_focus_partial",
    "C56_set_focus_lawful_iso",
    "C56_set_focus_refuted",
    "C56_set_focus_lawful_iso_only_if",
    "C56_compose"
   ],
   "note": "set_focus holds only for isos with a constant context (exact characterisation proved); refuted for general lawful isos."
  },
  {
   "property": "C57",
   "status": "proved",
   "theorems": [
    "C57_laws",
    "C57_compose",
    "C57_compose_not_iso"
   ],
   "note": "The composite obeys the prism laws; it is never a lawful iso."
  },
  {
   "property": "C58",
   "status": "proved",
   "theorems": [
    "C58_compose",
    "C58_category",
    "C58_inverse",
    "C58_modify",
    "C58_map",
    "C58_verify_laws",
    "C58_result_either"
   ],
   "note": "verify_laws for types with an exact PartialEq."
  },
  {
   "property": "C59",
   "status": "partial",
   "theorems": [
    "C59_lawful_arithmetic",
    "C59_functor",
    "C59_groupings_agree",
    "C59_product_groupings_agree",
    "C59_unsigned_sum_partial",
    "C59_positive_product_partial",
    "C59_signed_sum_refuted",
    "C59_product_with_zero_refuted",
    "C59_identity",
    "C59_wrapping_sum",
    "C59_wrapping_product",
    "C59_float_sum_refuted",
    "C59_float_identity",
    "C59_sum_fits",
    "C59_product_fits"
   ],
   "note": "Proved for lawful, unsigned checked, positive-product and wrapping arithmetic; the grouping claim is refuted for signed checked sums, products containing zero and floats."
  },
  {
   "property": "C60",
   "status": "partial",
   "theorems": [
    "C60_min_semigroup",
    "C60_max_semigroup",
    "C60_min_empty_partial",
    "C60_max_empty_partial",
    "C60_min_numbers_refuted",
    "C60_max_signed_refuted",
    "C60_max_unsigned",
    "C60_functor"
   ],
   "note": "Semigroup part proved for every total order; empty() is the identity exactly when default is the extremum, refuted for the numeric types (except Max on unsigned)."
  },
  {
   "property": "C61",
   "status": "proved",
   "theorems": [
    "C61_first_monoid",
    "C61_last_monoid",
    "C61_first_of_list",
    "C61_last_of_list",
    "C61_unwrap",
    "C61_functor",
    "C61_from"
   ],
   "note": ""
  },
  {
   "property": "C62",
   "status": "proved",
   "theorems": [
    "C62_laws_with_panics",
    "C62_boolean_algebra",
    "C62_monoid",
    "C62_combine_list",
    "C62_commutative_with_panics_refuted"
   ],
   "note": "Most laws also hold for predicates that panic; commutativity then fails, with a witness."
  },
  {
   "property": "C63",
   "status": "partial",
   "theorems": [
    "C63_combines_unique",
    "C63_copies",
    "C63_combine_n_zero",
    "C63_combine_n_owned_doubles",
    "C63_combine_n_owned_refuted",
    "C63_combine_n_owned_partial",
    "C63_repeat_adds"
   ],
   "note": "combine_n_owned doubles in each round (2^(n-1) copies), refuted from n = 3; combine_n(0) is one copy. The rest is proved."
  },
  {
   "property": "C64",
   "status": "proved",
   "theorems": [
    "C64_combine",
    "C64_agree",
    "C64_split",
    "C64_is_empty"
   ],
   "note": ""
  },
  {
   "property": "C65",
   "status": "proved",
   "theorems": [
    "C65_vec",
    "C65_string",
    "C65_tuples_and_option",
    "C65_hashmap",
    "C65_hashmap_associative",
    "C65_hashset",
    "C65_hashset_associative",
    "C65_btreemap",
    "C65_btreemap_associative",
    "C65_btreeset",
    "C65_btreeset_associative",
    "C65_componentwise"
   ],
   "note": "Hash-based instances up to lookup/membership, for every iteration order; BTree instances as equalities."
  },
  {
   "property": "C66",
   "status": "proved",
   "theorems": [
    "C66_lengths",
    "C66_queries",
    "C66_folds",
    "C66_fold_option",
    "C66_sums",
    "C66_reduce",
    "C66_extrema",
    "C66_is_sorted",
    "C66_instances"
   ],
   "note": "Extrema and is_sorted for every total preorder; folds for every container."
  },
  {
   "property": "C67",
   "status": "partial",
   "theorems": [
    "C67_option_vec",
    "C67_result_partial",
    "C67_result_right_identity_refuted",
    "C67_result_right_zero_refuted",
    "C67_vec_alt_concat_refuted",
    "C67_monad_error",
    "C67_guard"
   ],
   "note": "Result's mzero is no right identity (exact condition proved)"
  },
  {
   "property": "C68",
   "status": "proved",
   "theorems": [
    "C68_history",
    "C68_history_with_code",
    "C68_map_core",
    "C68_most_recent_first",
    "C68_free_functions",
    "C68_error_chain"
   ],
   "note": "any history of with_context/with_contexts/set_code/map_core"
  },
  {
   "property": "C69",
   "status": "partial",
   "theorems": [
    "C69_result",
    "C69_context_on_ok",
    "C69_own_contexts_first",
    "C69_contexts_partial",
    "C69_stale_context_refuted"
   ],
   "note": "refuted as stated: recover keeps pending contexts, so they are reported on later unrelated errors; everything else holds"
  },
  {
   "property": "C70",
   "status": "proved",
   "theorems": [
    "C70_sequence",
    "C70_traverse",
    "C70_traverse_validated",
    "C70_families_agree",
    "C70_sequence_with_error",
    "C70_to_result",
    "C70_collect_errors"
   ],
   "note": "FnMut closures modelled with explicit state, so call order and early stop are covered"
  },
  {
   "property": "C71",
   "status": "proved",
   "theorems": [
    "C71_preserve",
    "C71_round_trips",
    "C71_split",
    "C71_error_ops",
    "C71_app_error"
   ],
   "note": ""
  },
  {
   "property": "C72",
   "status": "proved",
   "theorems": [
    "C72_compose_all",
    "C72_pipeline_option",
    "C72_pipeline_result",
    "C72_short_circuit",
    "C72_compose_pipe",
    "C72_macros",
    "C72_filter_map",
    "C72_zip_with",
    "C72_fan_out",
    "C72_sequence_options",
    "C72_sequence_results",
    "C72_fold_with",
    "C72_option_result_helpers",
    "C72_transform"
   ],
   "note": ""
  },
  {
   "property": "C73",
   "status": "proved",
   "theorems": [
    "C73_category",
    "C73_extensional",
    "C73_conditional",
    "C73_sequence_app"
   ],
   "note": ""
  },
  {
   "property": "C74",
   "status": "proved",
   "theorems": [
    "C74_arrow_laws",
    "C74_derived",
    "C74_combine_functorial",
    "C74_both"
   ],
   "note": ""
  },
  {
   "property": "C75",
   "status": "partial",
   "theorems": [
    "C75_std",
    "C75_defaults_partial",
    "C75_refuted",
    "C75_vector",
    "C75_vector_any"
   ],
   "note": "true of Option and Result; the inherited default panics exactly on absent values for Maybe, Either, Choice, Validated"
  },
  {
   "property": "C76",
   "status": "proved",
   "theorems": [
    "C76_option",
    "C76_result",
    "C76_vec",
    "C76_vec_exact",
    "C76_vec_choice_order_refuted"
   ],
   "note": ""
  },
  {
   "property": "C77",
   "status": "proved",
   "theorems": [
    "C77_monads",
    "C77_join",
    "C77_defaults"
   ],
   "note": ""
  },
  {
   "property": "C78",
   "status": "proved",
   "theorems": [
    "C78_try_map",
    "C78_filter_map",
    "C78_try_map_exact"
   ],
   "note": ""
  },
  {
   "property": "C79",
   "status": "proved",
   "theorems": [
    "C79_sequencing",
    "C79_replace_void",
    "C79_sequencing_types",
    "C79_sequencing_owned",
    "C79_any_applicative",
    "C79_replace_types",
    "C79_void_types",
    "C79_replace_vector",
    "C79_replace_any"
   ],
   "note": "Exact results for Option, Result, Vec, Maybe, Either, Id, Choice, Validated, Writer, the wrappers and vectors; laws for every lawful applicative or functor."
  },
  {
   "property": "C80",
   "status": "proved",
   "theorems": [
    "C80_state",
    "C80_state_t",
    "C80_map_error",
    "C80_reader_t"
   ],
   "note": ""
  },
  {
   "property": "C81",
   "status": "proved",
   "theorems": [
    "C81_order",
    "C81_panic",
    "C81_laws",
    "C81_no_caching"
   ],
   "note": ""
  },
  {
   "property": "C82",
   "status": "proved",
   "theorems": [
    "C82_accessors",
    "C82_recover_all_at_once"
   ],
   "note": ""
  },
  {
   "property": "C83",
   "status": "proved",
   "theorems": [
    "C83_join_all_results",
    "C83_join_all_ready",
    "C83_join_all_sync",
    "C83_methods",
    "C83_errors_mapped",
    "C83_sync_agree",
    "C83_async_laws",
    "C83_join_all_independent"
   ],
   "note": "join_all visits its futures in an arbitrary order at every poll; the real one (futures crate) is not modelled further."
  },
  {
   "property": "C84",
   "status": "partial",
   "theorems": [
    "C84_wrapping_is_harmless",
    "C84_wrapping_faithful",
    "C84_short_histories_partial",
    "C84_update_limit",
    "C84_long_history_refuted",
    "C84_exact"
   ],
   "note": "False with overflow checks: 2^32 updates of a one-element vector panic (C84_long_history_refuted; exact limit C84_update_limit; C84_exact says for every history exactly when it panics). Wrapping builds behave exactly like the unbounded counter (C84_wrapping_is_harmless); histories whose cost stays below 2^32 never notice it (C84_short_histories_partial)."
  },
  {
   "property": "C85",
   "status": "partial",
   "theorems": [
    "C85_maybe",
    "C85_id",
    "C85_either",
    "C85_left_mut",
    "C85_validated",
    "C85_errors",
    "C85_two_passes",
    "C85_error_buffer_partial",
    "C85_emptied_refuted"
   ],
   "note": "Access is exact on every container; but error_buffer_mut lets the caller empty the errors of an invalid value, after which to_result panics (C85_emptied_refuted)."
  },
  {
   "property": "C86",
   "status": "proved",
   "theorems": [
    "C86_helpers_are_applicative",
    "C86_instances"
   ],
   "note": ""
  },
  {
   "property": "C87",
   "status": "proved",
   "theorems": [
    "C87_helpers",
    "C87_identity_natural"
   ],
   "note": ""
  },
  {
   "property": "C88",
   "status": "proved",
   "theorems": [
    "C88_unwrap_or_else",
    "C88_tap",
    "C88_from_iterator",
    "C88_try_unwrap",
    "C88_shrink"
   ],
   "note": ""
  },
  {
   "property": "C89",
   "status": "partial",
   "theorems": [
    "C89_pvec_error",
    "C89_io_error",
    "C89_maybe_error",
    "C89_maybe_error_refuted",
    "C89_wrappers",
    "C89_wrapper_kinds",
    "C89_choice_partial",
    "C89_choice_refuted",
    "C89_small_vector_debug_partial",
    "C89_vector_debug_refuted",
    "C89_error_texts",
    "C89_app_error_partial",
    "C89_app_error_refuted",
    "C89_parse_error_partial",
    "C89_parse_error_position",
    "C89_parse_error_refuted",
    "C89_parse_error_built"
   ],
   "note": "Holds for errors, wrappers, choices of plain elements and vectors of at most 64 elements; refuted for custom MaybeError texts, elements, application error messages and parse error texts containing separators, and larger vectors."
  },
  {
   "property": "C90",
   "status": "partial",
   "theorems": [
    "C90_with_context_result",
    "C90_context_fn",
    "C90_accumulate",
    "C90_pipeline_partial",
    "C90_success_builds_nothing",
    "C90_runner_results",
    "C90_runners_build_always",
    "C90_runners_refuted",
    "C90_runner_order"
   ],
   "note": "True of with_context_result, context_fn, accumulate_context and every ErrorPipeline; the try_*_with_context runners of State, StateT and ReaderT build the message on success as well (C90_runners_refuted)."
  },
  {
   "property": "C91",
   "status": "partial",
   "theorems": [
    "C91_total_order",
    "C91_small",
    "C91_slices_partial",
    "C91_refuted",
    "C91_hash",
    "C91_hash_refuted",
    "C91_hash_distinct"
   ],
   "note": "Total order agreeing with equality; lexicographic on slices of equal length or at most 64 elements; refuted in general (representation and change counter enter the derived comparison and hash)."
  },
  {
   "property": "C92",
   "status": "proved",
   "theorems": [
    "C92_vector",
    "C92_vector_folds",
    "C92_choice",
    "C92_choice_alternatives",
    "C92_choice_bind",
    "C92_choice_bind_empty",
    "C92_choice_bind_lazy",
    "C92_choice_products",
    "C92_vec",
    "C92_vec_products",
    "C92_foldable",
    "C92_foldable_instances",
    "C92_traverse",
    "C92_filter_map_zip",
    "C92_pipelines",
    "C92_validated",
    "C92_pure_vector",
    "C92_pure_choice",
    "C92_pure_products",
    "C92_pure_helpers",
    "C92_log",
    "C92_log_all",
    "C92_walk_list"
   ],
   "note": "For every vector, also those whose reads find nothing or panic somewhere."
  },
  {
   "property": "C93",
   "status": "partial",
   "theorems": [
    "C93_total_order",
    "C93_equality",
    "C93_which_order",
    "C93_conversions_partial",
    "C93_keeps_order",
    "C93_conversions_refuted",
    "C93_map_strict",
    "C93_map_monotone_partial",
    "C93_map_monotone_refuted",
    "C93_least_greatest",
    "C93_hash",
    "C93_hash_respects",
    "C93_equality_is_order",
    "C93_partial_cmp",
    "C93_incomparable"
   ],
   "note": "Order, equality and hash laws proved for every type. Refuted: Either/Result, Maybe/Option, Maybe/Vec and Validated/Option conversions reverse the order; mapping an increasing but not strictly increasing function can reverse choices and error lists."
  },
  {
   "property": "C94",
   "status": "partial",
   "theorems": [
    "C94_collected_partial",
    "C94_push_back",
    "C94_append",
    "C94_push_front",
    "C94_concat",
    "C94_push_back_refuted",
    "C94_append_refuted",
    "C94_push_front_refuted",
    "C94_concat_refuted",
    "C94_counts",
    "C94_push_front_bound",
    "C94_one_element",
    "C94_one_element_refuted",
    "C94_collected",
    "C94_append_short"
   ],
   "note": "Proved for collected vectors (C94_collected_partial); exact cost and refutation for vectors grown by push_back, push_front, append or concat: their depth grows linearly, and a one-element remainder keeps the depth, so the documented logarithmic bound is false of the code. C94_counts ties the step counts to runs of the modelled operations."
  },
  {
   "property": "C95",
   "status": "proved",
   "theorems": [
    "C95_push",
    "C95_update",
    "C95_pop",
    "C95_split",
    "C95_concat",
    "C95_edit",
    "C95_collect",
    "C95_append",
    "C95_short",
    "C95_long",
    "C95_join",
    "C95_empty",
    "C95_counted",
    "C95_last_one"
   ],
   "note": ""
  },
  {
   "property": "C96",
   "status": "partial",
   "theorems": [
    "C96_run_async_partial",
    "C96_future_partial",
    "C96_ordinary_thread",
    "C96_inside_task",
    "C96_panicking_future",
    "C96_run_refuted",
    "C96_delay_partial"
   ],
   "note": "False of the code: run of an IO made from a future panics on an ordinary thread (the future is lost) and inside a task (the future runs, its value is lost). Proved for IOs that do not use the runtime and for futures started through run_async or on the blocking pool."
  },
  {
   "property": "C97",
   "status": "partial",
   "theorems": [
    "C97_thread_limit",
    "C97_fewer_calls_partial",
    "C97_many_calls_refuted",
    "C97_parallel"
   ],
   "note": "False of the code: with as many calls as pool threads the runs can block each other for ever (C97_many_calls_refuted). Proved for fewer calls than threads."
  },
  {
   "property": "C98",
   "status": "partial",
   "theorems": [
    "C98_transparency_partial",
    "C98_consistency",
    "C98_clear",
    "C98_commutativity_partial",
    "C98_after_panic",
    "C98_recursion",
    "C98_recursion_refuted",
    "C98_commutativity_refuted",
    "C98_sequence",
    "C98_history"
   ],
   "note": "False of the code: a function that asks the same Memoizer blocks for ever (the write lock is held while it runs), and after a panic every call panics, so commutativity fails. Proved for functions that return without using the Memoizer; consistency holds for all functions."
  },
  {
   "property": "C99",
   "status": "partial",
   "theorems": [
    "C99_round_trip_partial",
    "C99_containers",
    "C99_injective",
    "C99_first_last_refuted",
    "C99_other_forms",
    "C99_reads",
    "C99_values",
    "C99_null_inside",
    "C99_not_finite_refuted"
   ],
   "note": "Holds exactly for the values with no non-finite float inside and no Option, First or Last holding a value that is written as null, and so for exactly the types with no floats where no Option, First or Last is directly around a type that can be written as null; First(Some(None)) and First(Some(NaN)) read back as First(None)."
  },
  {
   "property": "C104",
   "status": "proved",
   "theorems": [
    "C104_functions",
    "C104_functions_once_each",
    "C104_same_by_other_names",
    "C104_helpers",
    "C104_category_laws",
    "C104_reordering_shows",
    "C104_macros",
    "C104_predicates",
    "C104_predicates_at_most_once",
    "C104_predicate_laws",
    "C104_predicate_reordering_shows",
    "C104_isos",
    "C104_iso_laws",
    "C104_pure",
    "C104_pure_predicates_and_isos"
   ],
   "note": ""
  },
  {
   "property": "C105",
   "status": "proved",
   "theorems": [
    "C105_fmap",
    "C105_bind",
    "C105_apply",
    "C105_lift2",
    "C105_lift3",
    "C105_failures",
    "C105_recoveries",
    "C105_both_sides",
    "C105_choosing",
    "C105_id",
    "C105_derived",
    "C105_laws",
    "C105_lift2_by_bind",
    "C105_writer",
    "C105_writer_laws",
    "C105_writer_order_shows",
    "C105_maybe_errors",
    "C105_once",
    "C105_pure_sums",
    "C105_pure_others"
   ],
   "note": ""
  },
  {
   "property": "C106",
   "status": "partial",
   "theorems": [
    "C106_owned_maps",
    "C106_owned_applying",
    "C106_owned_two",
    "C106_owned_three",
    "C106_owned_chains",
    "C106_owned_flat",
    "C106_owned_recoveries",
    "C106_owned_alternatives",
    "C106_owned_wrappers",
    "C106_owned_validated",
    "C106_owned_choices",
    "C106_owned_pure",
    "C106_borrowed_maps",
    "C106_borrowed_applying",
    "C106_borrowed_two",
    "C106_borrowed_three",
    "C106_borrowed_chains",
    "C106_borrowed_flat",
    "C106_borrowed_recoveries",
    "C106_borrowed_alternatives",
    "C106_borrowed_wrappers",
    "C106_borrowed_many",
    "C106_borrowed_validated",
    "C106_borrowed_choices",
    "C106_vec_owned_copies",
    "C106_choice_owned_copies",
    "C106_choice_bind_copies",
    "C106_choice_join_copies",
    "C106_choice_conversion_copies",
    "C106_choice_sum_copies",
    "C106_fold_copies",
    "C106_fold_log",
    "C106_repetition",
    "C106_repetition_log",
    "C106_map_copies",
    "C106_pure",
    "C106_to_result_copies",
    "C106_faithful_lists",
    "C106_faithful_choices",
    "C106_result_fmap_owned_refuted",
    "C106_result_fmap_owned",
    "C106_pure_owned_refuted",
    "C106_pure_owned_default",
    "C106_vec_owned_refuted",
    "C106_choice_owned_refuted",
    "C106_combined_owned_refuted",
    "C106_each_once_refuted",
    "C106_kept_only_refuted"
   ],
   "note": "False of the code in part: C106_*_refuted give the by-value operations that copy and the borrowing ones that copy more than once or more than they keep; for those the exact copies are proved instead (C106_vec_owned_copies, C106_choice_*_copies, C106_fold_log, C106_repetition_log, C106_map_copies, C106_to_result_copies, C106_pure). For all other modelled operations the claim is proved."
  },
  {
   "property": "C107",
   "status": "partial",
   "theorems": [
    "C107_items",
    "C107_together",
    "C107_laws",
    "C107_repetition",
    "C107_lists",
    "C107_chains",
    "C107_brackets",
    "C107_ends",
    "C107_steady",
    "C107_returns",
    "C107_many_returns_partial",
    "C107_many_endless",
    "C107_many_returns_refuted",
    "C107_forever"
   ],
   "note": "All combinators as stated. Missing: that every parser returns; a repetition does only if each parse uses something (C107_many_returns_partial), and many(many(p)) runs for ever (C107_many_returns_refuted)."
  },
  {
   "property": "C108",
   "status": "partial",
   "theorems": [
    "C108_reads",
    "C108_only_queries",
    "C108_whole_text_partial",
    "C108_one_reading",
    "C108_returns",
    "C108_condition_dropped_refuted"
   ],
   "note": "Completeness, uniqueness and termination as stated. Missing: a WHERE whose condition is not understood is read as a WHERE without conditions (C108_condition_dropped_refuted), so texts ending in such a WHERE are accepted too (C108_whole_text_partial)."
  },
  {
   "property": "C109",
   "status": "partial",
   "theorems": [
    "C109_reading",
    "C109_note_has_alternatives_refuted",
    "C109_dedup_fold_add",
    "C109_map",
    "C109_remove_position",
    "C109_remove_value_exact",
    "C109_remove_refuted",
    "C109_swap_exact",
    "C109_swap_refuted",
    "C109_filter_exact",
    "C109_filter_refuted",
    "C109_fmap_exact",
    "C109_fmap_refuted",
    "C109_sorted_exact",
    "C109_sorted_refuted",
    "C109_bind_lazy_exact",
    "C109_bind_lazy_refuted",
    "C109_map_refuted",
    "C109_value",
    "C109_try_value_exact",
    "C109_try_value_refuted",
    "C109_errors"
   ],
   "note": "Proved for the replacements that are one; false for the others, each refuted with a witness and with the exact condition under which it agrees."
  },
  {
   "property": "C110",
   "status": "partial",
   "theorems": [
    "C110_parse",
    "C110_prints",
    "C110_prints_second",
    "C110_recovery",
    "C110_latest_first_refuted",
    "C110_bulk"
   ],
   "note": "Everything is proved except that the latest context comes first, which is refuted: contexts of the pipeline stand before those of the error it carries."
  },
  {
   "property": "C111",
   "status": "proved",
   "theorems": [
    "C111_state_adds",
    "C111_state_at_most",
    "C111_state_loop",
    "C111_reader_adds",
    "C111_reader_at_most",
    "C111_io_adds",
    "C111_io_at_most",
    "C111_io_pure_maps",
    "C111_io_sequence",
    "C111_io_loop",
    "C111_cont_exact",
    "C111_morphism_reaches",
    "C111_morphism_at_most",
    "C111_sequence",
    "C111_compose_all",
    "C111_predicate_reaches",
    "C111_predicate_at_most",
    "C111_writer_flat",
    "C111_pipeline_flat",
    "C111_same_values_state",
    "C111_same_values_reader",
    "C111_same_values_cont",
    "C111_same_values_io",
    "C111_same_values_morphism",
    "C111_same_values_predicate",
    "C111_same_values_writer",
    "C111_same_values_pipeline",
    "C111_trees_values",
    "C111_chains_values"
   ],
   "note": ""
  },
  {
   "property": "C112",
   "status": "proved",
   "theorems": [
    "C112_released_exactly",
    "C112_state_chain_depth",
    "C112_cont_chain_depth",
    "C112_clone_then_drop",
    "C112_kept_argument",
    "C112_all_released",
    "C112_reader_chain_depth",
    "C112_depth_at_most",
    "C112_depth_unshared"
   ],
   "note": ""
  }
 ]
}