{
 "claims": [
  {
   "property": "C01",
   "status": "proved",
   "theorems": [
    "C01_one_end_per_block"
   ],
   "note": "Sinks and exception rendering assumed quiet, as in the statement; sync and async modes."
  },
  {
   "property": "C02",
   "status": "proved",
   "theorems": [
    "C02_begin_at_most_once",
    "C02_begin_created_before_end"
   ],
   "note": "Any reachable history, arbitrary raising sinks."
  },
  {
   "property": "C03",
   "status": "proved",
   "theorems": [
    "C03_status_reflects_outcome"
   ],
   "note": ""
  },
  {
   "property": "C04",
   "status": "proved",
   "theorems": [
    "C04_exceptions_propagate"
   ],
   "note": "Even allows on_exception hooks that raise ordinary exceptions."
  },
  {
   "property": "C05",
   "status": "proved",
   "theorems": [
    "C05_active_parent_restored",
    "C05_child_has_block_as_parent",
    "C05_precreated_actions_refuted"
   ],
   "note": "Also a refutation for actions created in one block and entered in another."
  },
  {
   "property": "C06",
   "status": "proved",
   "theorems": [
    "C06_ids_increase_with_creation",
    "C06_ids_unique",
    "C06_parent_id_smaller"
   ],
   "note": ""
  },
  {
   "property": "C07",
   "status": "proved",
   "theorems": [
    "C07_block_duration",
    "C07_block_duration_early_end_refuted",
    "C07_duration_nonnegative",
    "C07_atomic_duration_zero"
   ],
   "note": ""
  },
  {
   "property": "C08",
   "status": "proved",
   "theorems": [
    "C08_sync_dispatch"
   ],
   "note": ""
  },
  {
   "property": "C09",
   "status": "proved",
   "theorems": [
    "C09_registration"
   ],
   "note": ""
  },
  {
   "property": "C10",
   "status": "proved",
   "theorems": [
    "C10_async_same_as_sync"
   ],
   "note": ""
  },
  {
   "property": "C11",
   "status": "proved",
   "theorems": [
    "C11_queue_keeps_newest",
    "C11_queue_bounded"
   ],
   "note": ""
  },
  {
   "property": "C12",
   "status": "proved",
   "theorems": [
    "C12_flush_outcome",
    "C12_flushes_in_order_without_repetition"
   ],
   "note": ""
  },
  {
   "property": "C17",
   "status": "proved",
   "theorems": [
    "C17_parent_depth"
   ],
   "note": ""
  },
  {
   "property": "C18",
   "status": "proved",
   "theorems": [
    "C18_raising_exception_sink"
   ],
   "note": ""
  },
  {
   "property": "C19",
   "status": "partial",
   "theorems": [
    "C19_begin_hook_leaks_parent",
    "C19_end_hook_leaks_parent",
    "C19_restored_with_raising_sinks_refuted",
    "C19_restored_partial"
   ],
   "note": "The desired property is refuted; the leaks are characterised for begin and end hooks; restoration holds when begin/end hooks do not raise (partial)."
  },
  {
   "property": "C20",
   "status": "proved",
   "theorems": [
    "C20_last_write_wins"
   ],
   "note": ""
  },
  {
   "property": "C21",
   "status": "proved",
   "theorems": [
    "C21_compare_by_value",
    "C21_strict_total_order",
    "C21_equality_refuted"
   ],
   "note": "Comparison of levels, names and numbers goes by numeric value and is a strict total order on values; equality of distinct levels sharing a value is a separate finding (C21_equality_refuted)."
  },
  {
   "property": "C22",
   "status": "proved",
   "theorems": [
    "C22_alias_resolution",
    "C22_found_by_name_or_value"
   ],
   "note": "Resolution of every alias form of a level key."
  },
  {
   "property": "C23",
   "status": "proved",
   "theorems": [
    "C23_level_list_sorted",
    "C23_next_and_previous",
    "C23_saturating_delta",
    "C23_shared_values_refuted",
    "C23_negative_delta_refuted"
   ],
   "note": "Sorted level list, neighbours, saturation. Findings: levels sharing a value, negative delta."
  },
  {
   "property": "C24",
   "status": "proved",
   "theorems": [
    "C24_exact_counts",
    "C24_ranges_partition",
    "C24_counts_sum",
    "C24_index_error",
    "C24_nan_bounds"
   ],
   "note": "Exact per-bucket counts for every history, partition, sum, IndexError exactly for +inf and NaN, ValueError exactly for NaN bounds."
  },
  {
   "property": "C25",
   "status": "partial",
   "theorems": [
    "C25_keeps_largest_refuted",
    "C25_sorted_sample_partial",
    "C25_single_partial",
    "C25_increasing_partial"
   ],
   "note": "The full claim is refuted (the maximum itself can be lost). Proved instead: a sorted sample of at most N added values for every input; the claim for N = 1 and for strictly increasing input."
  },
  {
   "property": "C26",
   "status": "proved",
   "theorems": [
    "C26_head_is_minimum",
    "C26_n_smallest_refuted"
   ],
   "note": "Sorted, bounded, drawn from the input, head is the minimum; N-smallest is refuted."
  },
  {
   "property": "C27",
   "status": "proved",
   "theorems": [
    "C27_count_and_mean",
    "C27_variance",
    "C27_std_dev",
    "C27_skewness",
    "C27_kurtosis",
    "C27_degenerate",
    "C27_empty"
   ],
   "note": "Real arithmetic; uses the standard library axioms of Reals. Degenerate cases (one or equal observations, none) are stated as well."
  },
  {
   "property": "C28",
   "status": "proved",
   "theorems": [
    "C28_order_independent",
    "C28_shift",
    "C28_variance_nonneg",
    "C28_min_max"
   ],
   "note": "Real arithmetic. The whole accumulator state is permutation invariant."
  },
  {
   "property": "C29",
   "status": "proved",
   "theorems": [
    "C29_uncapped_keeps_all",
    "C29_iter_sorted"
   ],
   "note": ""
  },
  {
   "property": "C30",
   "status": "proved",
   "theorems": [
    "C30_capped_bounded",
    "C30_count_refuted"
   ],
   "note": "Every outcome of the random source; that count, min and max ignore rejected values is stated as C30_count_refuted."
  },
  {
   "property": "C31",
   "status": "proved",
   "theorems": [
    "C31_quantile_interpolates",
    "C31_quantile_monotone",
    "C31_quantile_errors"
   ],
   "note": "Rational arithmetic (no float rounding in the interpolation)."
  },
  {
   "property": "C32",
   "status": "proved",
   "theorems": [
    "C32_quantiles_monotone",
    "C32_single_precision_refuted"
   ],
   "note": "Monotone without storage rounding; the single precision violation is C32_single_precision_refuted."
  },
  {
   "property": "C33",
   "status": "proved",
   "theorems": [
    "C33_p2_estimates",
    "C33_ranks_track",
    "C33_p2_too_short"
   ],
   "note": "Rational arithmetic. C33_ranks_track ties each marker to its quantile."
  },
  {
   "property": "C34",
   "status": "partial",
   "theorems": [
    "C34_p2acc_describes_refuted",
    "C34_p2acc_describes_partial"
   ],
   "note": "The claim is refuted: the first len(q_points)+2 values are not counted. Proved: count/min/max describe exactly the later values, and nothing raises."
  },
  {
   "property": "C35",
   "status": "proved",
   "theorems": [
    "C35_accepts_sound",
    "C35_accepts_complete",
    "C35_rejects"
   ],
   "note": "Sound, complete and ValueError otherwise."
  },
  {
   "property": "C36",
   "status": "proved",
   "theorems": [
    "C36_histogram_tiles",
    "C36_histogram_counts"
   ],
   "note": "For any accumulator; the bound holds for small totals too."
  },
  {
   "property": "C63",
   "status": "proved",
   "theorems": [
    "C63_p2acc_warm_up",
    "C63_p2acc_estimating",
    "C63_p2acc_get_quantiles",
    "C63_get_quantiles_ascending_refuted"
   ],
   "note": "Rational arithmetic. Finding (C63_get_quantiles_ascending_refuted): the list of points answered need not ascend."
  },
  {
   "property": "C64",
   "status": "proved",
   "theorems": [
    "C64_quartiles_iqr_trimean"
   ],
   "note": "Rational arithmetic."
  },
  {
   "property": "C37",
   "status": "proved",
   "theorems": [
    "C37_moving_average",
    "C37_rates_between",
    "C37_steady_stream",
    "C37_due_read_measures"
   ],
   "note": "Real arithmetic; uses the standard library axioms of Reals. Finding: a due first read does not clear the force flag, so one later read may measure a short interval."
  },
  {
   "property": "C38",
   "status": "partial",
   "theorems": [
    "C38_reads_succeed_refuted",
    "C38_reads_succeed_partial",
    "C38_constructor"
   ],
   "note": "The claim is refuted for a clock that has not advanced. Proved: reads succeed whenever the clock advances between readings; the constructor rejects exactly non-positive intervals."
  },
  {
   "property": "C39",
   "status": "proved",
   "theorems": [
    "C39_total_and_recent"
   ],
   "note": ""
  },
  {
   "property": "C40",
   "status": "proved",
   "theorems": [
    "C40_window_rate",
    "C40_lifetime_rate",
    "C40_truncated_window",
    "C40_empty_window",
    "C40_no_events",
    "C40_events_after_end_excluded_refuted"
   ],
   "note": "All four regimes of the window; that events after end_time are excluded is refuted. Rational arithmetic."
  },
  {
   "property": "C41",
   "status": "proved",
   "theorems": [
    "C41_totals",
    "C41_same_named_loggers_refuted"
   ],
   "note": "Events whose getter raised are not counted; the sum law is refuted for loggers sharing a name."
  },
  {
   "property": "C42",
   "status": "proved",
   "theorems": [
    "C42_groups",
    "C42_to_dict_after_getter_failure_refuted",
    "C42_report"
   ],
   "note": "For every accumulator type. Reading the sink raises if a group only saw getter failures (refuted variant)."
  },
  {
   "property": "C43",
   "status": "proved",
   "theorems": [
    "C43_sums_over_members"
   ],
   "note": "For every accumulator type and history; rational arithmetic."
  },
  {
   "property": "C44",
   "status": "proved",
   "theorems": [
    "C44_counts",
    "C44_undercount_within_threshold_refuted"
   ],
   "note": "The counter class is boltons ThresholdCounter, an external library modelled from its source. The bound is total // int(1/threshold); threshold*total is refuted."
  },
  {
   "property": "C45",
   "status": "proved",
   "theorems": [
    "C45_sink_keeps_most_recent",
    "C45_emitter_keeps_most_recent",
    "C45_clear"
   ],
   "note": ""
  },
  {
   "property": "C65",
   "status": "proved",
   "theorems": [
    "C65_rates_are_grouped_sums"
   ],
   "note": "Rational arithmetic."
  },
  {
   "property": "C46",
   "status": "proved",
   "theorems": [
    "C46_interval_within_bounds",
    "C46_default_bounds",
    "C46_backoff",
    "C46_recovers_in_eight",
    "C46_inverted_bounds_refuted"
   ],
   "note": "Rational arithmetic. The inverted max_interval case is the refuted variant."
  },
  {
   "property": "C47",
   "status": "proved",
   "theorems": [
    "C47_at_most_one_worker",
    "C47_joined_is_quiet",
    "C47_stop_takes_effect",
    "C47_stop_terminates",
    "C47_join_without_timeout",
    "C47_start_after_join",
    "C47_start_after_end",
    "C47_start_after_idle_stop",
    "C47_start_after_fork",
    "C47_restart_without_join_refuted",
    "C47_start_with_dead_worker_refuted"
   ],
   "note": "One controlling thread, any interleaving, forks included. A restart without join and a stop racing with a dying worker are the refuted variants."
  },
  {
   "property": "C48",
   "status": "proved",
   "theorems": [
    "C48_failures_do_not_halt",
    "C48_daemon_swallows_exit",
    "C48_raising_note_halts_refuted"
   ],
   "note": "A raising note callback is the refuted variant."
  },
  {
   "property": "C49",
   "status": "proved",
   "theorems": [
    "C49_in_order_at_most_once",
    "C49_working_stream_gets_everything",
    "C49_written_once",
    "C49_failure_drops",
    "C49_stale_retry_once",
    "C49_standard_streams_not_reopened"
   ],
   "note": "For every stream world in which a write is accepted in full or not at all; notes must not raise."
  },
  {
   "property": "C50",
   "status": "proved",
   "theorems": [
    "C50_emit_raises_only_after_stale",
    "C50_unencodable_entry_refuted",
    "C50_flush_and_close_never_raise",
    "C50_emit_after_close",
    "C50_raising_note_handler_refuted"
   ],
   "note": "Exceptions deriving from Exception. A raising note handler is the refuted variant."
  },
  {
   "property": "C51",
   "status": "partial",
   "theorems": [
    "C51_unbuffered_file_loses_nothing_partial",
    "C51_loss_bounded_partial",
    "C51_no_incident_partial",
    "C51_buffered_file_refuted"
   ],
   "note": "False for buffered files (refuted for every buffer size of two bytes or more). Proved: unbuffered files lose nothing, buffered ones at most one buffer of whole entries per incident. BufferedWriter is external and modelled from its source."
  },
  {
   "property": "C52",
   "status": "proved",
   "theorems": [
    "C52_priorities",
    "C52_graded",
    "C52_custom_level_key_error",
    "C52_unregistered_level_like_debug"
   ],
   "note": ""
  },
  {
   "property": "C53",
   "status": "proved",
   "theorems": [
    "C53_constructor",
    "C53_filter_decisions",
    "C53_comments",
    "C53_monotone_in_level",
    "C53_antitone_in_threshold",
    "C53_default_filter_blocks",
    "C53_unknown_level_is_debug"
   ],
   "note": "verbose_check is a total predicate. The all-blocking default filter and the meaning of misspelt names are separate theorems."
  },
  {
   "property": "C54",
   "status": "proved",
   "theorems": [
    "C54_unknown_subscription_rejected",
    "C54_emits_exactly",
    "C54_sequence",
    "C54_exception_subscription_refuted"
   ],
   "note": "For arbitrary filters, formatter and emitter. on=\"exception\" never emitting is the refuted variant."
  },
  {
   "property": "C55",
   "status": "proved",
   "theorems": [
    "C55_format_total",
    "C55_isolated",
    "C55_default_text",
    "C55_only_malformed_fails",
    "C55_keyerror_defaulter_refuted"
   ],
   "note": "for every template, quoter, defaulter not raising KeyError, getter outcome; a defaulter raising KeyError makes format raise (refuted variant); Python formatting of a value is an arbitrary partial function"
  },
  {
   "property": "C56",
   "status": "proved",
   "theorems": [
    "C56_quote_round_trip",
    "C56_quote_delimits",
    "C56_printable_ascii",
    "C56_distinct",
    "C56_surrogate_pair_refuted"
   ],
   "note": "for all code point lists without a high surrogate directly followed by a low one; the excluded case is refuted"
  },
  {
   "property": "C57",
   "status": "proved",
   "theorems": [
    "C57_read_back",
    "C57_one_line",
    "C57_unquoted_refuted"
   ],
   "note": "for templates whose fields are all quoted; for unquoted fields a data map value can add lines (refuted variant)"
  },
  {
   "property": "C58",
   "status": "proved",
   "theorems": [
    "C58_grammar",
    "C58_unambiguous",
    "C58_template",
    "C58_field_quoting",
    "C58_extra_fields_win",
    "C58_other_fields_stay",
    "C58_keywords_first",
    "C58_data_second",
    "C58_getter_third",
    "C58_unknown_is_none",
    "C58_failure_is_default",
    "C58_builtin_table",
    "C58_builtin_unquoted"
   ],
   "note": "parser sound and complete for a declarative grammar; resolution order, positional arguments, built-in field table, extra fields, quoting, templates as written by their author; nested specs and Python formatting of one value are arbitrary partial functions"
  },
  {
   "property": "C66",
   "status": "proved",
   "theorems": [
    "C66_own_or_base",
    "C66_empty_line",
    "C66_construction",
    "C66_missing_base_refuted"
   ],
   "note": "the line None without base is a finding"
  },
  {
   "property": "C67",
   "status": "proved",
   "theorems": [
    "C67_verbatim",
    "C67_escaped",
    "C67_template",
    "C67_stable",
    "C67_raises_iff_malformed",
    "C67_any_text_refuted",
    "C67_escape_closing_refuted",
    "C67_empty_message_refuted"
   ],
   "note": "stray braces raise, doubling closing braces only, empty messages recomputed: refuted variants"
  },
  {
   "property": "C59",
   "status": "proved",
   "theorems": [
    "C59_guid_value",
    "C59_unique",
    "C59_sortable",
    "C59_length",
    "C59_fork",
    "C59_sortable_refuted"
   ],
   "note": "string order across a change of length is refuted"
  },
  {
   "property": "C13",
   "status": "proved",
   "theorems": [
    "C13_flush_each",
    "C13_isolation",
    "C13_note_refuted"
   ],
   "note": "registration order over any history, isolation, and the raising note handler refuted variant"
  },
  {
   "property": "C14",
   "status": "partial",
   "theorems": [
    "C14_enable_refuted",
    "C14_created_later_partial",
    "C14_disable_partial",
    "C14_disable_refuted"
   ],
   "note": "enable_async makes existing loggers synchronous (refuted); loggers created later are asynchronous; disable_async empties the queues of loggers whose hooks do not raise, a raising hook strands events (refuted)"
  },
  {
   "property": "C60",
   "status": "proved",
   "theorems": [
    "C60_application_handler_kept",
    "C60_preexisting_handler_kept",
    "C60_disable_restores",
    "C60_enable_installs"
   ],
   "note": ""
  },
  {
   "property": "C68",
   "status": "partial",
   "theorems": [
    "C68_transparent_partial",
    "C68_transparent_refuted"
   ],
   "note": "transparent only where atexit._exithandlers exists (Python 2); on Python 3 the process exits with 143: refuted"
  },
  {
   "property": "C69",
   "status": "proved",
   "theorems": [
    "C69_enable_off_main_thread_refuted",
    "C69_disable_off_main_thread_refuted",
    "C69_off_main_thread"
   ],
   "note": "the raising cases are stated as refuted variants"
  },
  {
   "property": "C15",
   "status": "proved",
   "theorems": [
    "C15_one_deliverer",
    "C15_fifo_at_most_once",
    "C15_no_loss",
    "C15_flush_is_barrier",
    "C15_sink_order",
    "C15_synchronous_inline",
    "C15_asynchronous_never_inline",
    "C15_program_order",
    "C15_flush_raises_only_hook_errors",
    "C15_queue_bounded",
    "C15_no_deadlock",
    "C15_terminates"
   ],
   "note": "Any number of threads, any schedule of atomic steps: single deliverer, FIFO at most once, no loss up to QUEUE_LIMIT, program order, queue bound, no deadlock, termination. Hooks do not re-enter the logger in this model: see C95."
  },
  {
   "property": "C16",
   "status": "partial",
   "theorems": [
    "C16_stranded_refuted",
    "C16_reordered_refuted",
    "C16_conserved_partial",
    "C16_quiet_switch_partial"
   ],
   "note": "The full statement is refuted twice (stranded event, reordered events). Proved: nothing is duplicated or disappears under any switch; with no logging call between reading the mode and queueing, disable_async delivers everything exactly once."
  },
  {
   "property": "C61",
   "status": "proved",
   "theorems": [
    "C61_same_outcome",
    "C61_transparent",
    "C61_one_begin_one_end",
    "C61_action",
    "C61_injected",
    "C61_keeps_name",
    "C61_nesting",
    "C61_disabled"
   ],
   "note": "Calls of decorated functions, nested to any depth, on any reachable logger state: the outcome, the action of the call and its fields, what is injected, one begin and one end event, the name kept."
  },
  {
   "property": "C62",
   "status": "proved",
   "theorems": [
    "C62_default_target_refuted",
    "C62_unwrap_all_undoes",
    "C62_touches_only_functions",
    "C62_wraps_the_functions",
    "C62_names_and_levels",
    "C62_returns",
    "C62_target_functions",
    "C62_skip_exc",
    "C62_refusal_escapes",
    "C62_bad_skip",
    "C62_inherited_refuted",
    "C62_staticmethod_refuted",
    "C62_classmethod_refuted"
   ],
   "note": "Heaps of modules and classes of any shape, any depth, skip rule and level map, also when wrap_all raises half-way. Names, levels, the returned list, skip and skip_exc are proved on every heap where nothing is wrapped yet. Domain of the undo theorem: functions that are not skipped are own plain functions; inherited methods, staticmethods and classmethods are stated as refuted variants. Without an explicit target wrap_all and unwrap_all always raise ValueError (refuted variant)."
  },
  {
   "property": "C70",
   "status": "proved",
   "theorems": [
    "C70_warn",
    "C70_begin",
    "C70_success_failure",
    "C70_exception",
    "C70_comment"
   ],
   "note": "Hooks do not raise (raising hooks: C08)."
  },
  {
   "property": "C71",
   "status": "proved",
   "theorems": [
    "C71_action_records_its_events"
   ],
   "note": ""
  },
  {
   "property": "C72",
   "status": "proved",
   "theorems": [
    "C72_preflush",
    "C72_interrupt_refuted"
   ],
   "note": "Note handlers do not raise; a preflush hook raising KeyboardInterrupt or SystemExit stops the flush (refuted variant)."
  },
  {
   "property": "C73",
   "status": "proved",
   "theorems": [
    "C73_elapsed_time"
   ],
   "note": ""
  },
  {
   "property": "C74",
   "status": "proved",
   "theorems": [
    "C74_threads",
    "C74_first_call_alone",
    "C74_after_first_reseed",
    "C74_threads_after_fork_refuted",
    "C74_guid_fixed",
    "C74_guid_across_fork_refuted"
   ],
   "note": "Each step is one read or write of the two globals. Threads racing in a forked child before the first reseed has finished: refuted variant."
  },
  {
   "property": "C75",
   "status": "proved",
   "theorems": [
    "C75_statistics",
    "C75_time_not_negative"
   ],
   "note": ""
  },
  {
   "property": "C76",
   "status": "proved",
   "theorems": [
    "C76_exit_delivers",
    "C76_two_sigterms_refuted",
    "C76_failed_enable_refuted"
   ],
   "note": "Exit functions, SIGTERM and both kinds of atexit modelled. Two refuted corners: on Python 2 two SIGTERMs before the exit functions run lose what waits; an enable_async that raised (off the main thread) registers nothing."
  },
  {
   "property": "C77",
   "status": "proved",
   "theorems": [
    "C77_status_of_calls",
    "C77_raising_begin_refuted"
   ],
   "note": "Requires begin hooks and exception hooks that do not raise; a raising begin hook is a refuted corner (the outcome is lost)."
  },
  {
   "property": "C78",
   "status": "proved",
   "theorems": [
    "C78_lines",
    "C78_same_file",
    "C78_published",
    "C78_same_file_data_refuted"
   ],
   "note": "Sink, logger and file emitter together. The last clause of the statement (templates showing data) is C78_same_file_data_refuted. File incidents (rotation, stale handles) are C49-C51. Sinks here have filters and formatters that do not raise."
  },
  {
   "property": "C79",
   "status": "proved",
   "theorems": [
    "C79_private_parents",
    "C79_own_loggers",
    "C79_hooks_by_thread",
    "C79_shared_logger_refuted",
    "C79_stale_parent_refuted",
    "C79_ids_and_no_cycle"
   ],
   "note": "With the default hooks the claim is for loggers that are not shared between threads, as the comment in context.py says; C79_shared_logger_refuted and C79_stale_parent_refuted show what happens otherwise. Ids and acyclicity hold always."
  },
  {
   "property": "C80",
   "status": "proved",
   "theorems": [
    "C80_bounds",
    "C80_exact_without_overlap",
    "C80_lost_update_refuted",
    "C80_lost_accumulator_refuted"
   ],
   "note": "Exactness without overlapping calls; the two refutations show the two races. Steps are single dict and attribute operations; setdefault is taken to be atomic."
  },
  {
   "property": "C81",
   "status": "proved",
   "theorems": [
    "C81_encoding_total",
    "C81_utf8_reads_back",
    "C81_escapes_recoverable",
    "C81_file_reads_back",
    "C81_ambiguous_refuted",
    "C81_utf16_refuted",
    "C81_settings_checked",
    "C81_check_result_refuted"
   ],
   "note": "Totality for every non-strict handler, exact failure condition for strict, UTF-8 round trip against an independent strict decoder, composition with the file emitter; ambiguity of escapes, utf-16 marks and the check's None result as findings."
  },
  {
   "property": "C82",
   "status": "proved",
   "theorems": [
    "C82_utc_reads_back",
    "C82_utc_sorts",
    "C82_fixed_width",
    "C82_local_with_offset",
    "C82_local_repeat_refuted",
    "C82_local_order_refuted",
    "C82_noms_reads_back",
    "C82_two_seconds_refuted"
   ],
   "note": "Exact reading back of UTC stamps, order, fixed width, exact error of local stamps; refutations for repeated local hours, local order, and the two roundings. Domain: years 1970 to 9999, offsets of whole minutes."
  },
  {
   "property": "C83",
   "status": "proved",
   "theorems": [
    "C83_cached",
    "C83_cached_same_file",
    "C83_cache_visible_refuted",
    "C83_same_file",
    "C83_status_char",
    "C83_warn_char_refuted",
    "C83_raw_refuted",
    "C83_same_file_refuted"
   ],
   "note": "The condition on lines (line_ok) is the claim's own exception; C83_same_file_refuted shows it is needed. Refuted corners: warn_char, event_message_raw. Messages have no positional arguments and do not show other messages. Also with the cache of Event.message shared by several sinks (C83_cached, C83_cached_same_file); without the condition the cache is visible (C83_cache_visible_refuted)."
  },
  {
   "property": "C84",
   "status": "proved",
   "theorems": [
    "C84_durations",
    "C84_duration_auto",
    "C84_unfinished",
    "C84_import_delta",
    "C84_timestamps",
    "C84_timestamp_order",
    "C84_integers",
    "C84_texts",
    "C84_auto_unit_refuted",
    "C84_auto_negative_refuted",
    "C84_timestamp_distinct_refuted"
   ],
   "note": "Times are exact rationals; the rounding of floating point sums and products before formatting is not modelled. Data of the action with the name of a field is shown instead of it, so the theorems ask that there is none."
  },
  {
   "property": "C85",
   "status": "proved",
   "theorems": [
    "C85_begin",
    "C85_success_failure",
    "C85_exception",
    "C85_given",
    "C85_brace_in_name_refuted",
    "C85_exception_text_refuted",
    "C85_late_data_refuted"
   ],
   "note": "Braces in a name or in the text of an exception are read as template fields: the message is lost or another field is shown (refuted variants). Data first given to the call that ends the action is not in its message (refuted variant)."
  },
  {
   "property": "C86",
   "status": "proved",
   "theorems": [
    "C86_callpoints",
    "C86_lines",
    "C86_own_frames_refuted",
    "C86_module",
    "C86_factory_refuted",
    "C86_self_variable_refuted"
   ],
   "note": "Comments and calls of decorated functions are always shown as a line of logger.py (refuted variant, for every stack). The receiver of a method is recognised by the variable name self only: class-method factories and application variables named self are refuted corners. One thread's stack; generators are not modelled."
  },
  {
   "property": "C87",
   "status": "proved",
   "theorems": [
    "C87_ieee",
    "C87_exact_arithmetic",
    "C87_p2_estimates",
    "C87_quartiles",
    "C87_quantile_error",
    "C87_between_refuted"
   ],
   "note": "Floats are rationals with a bounded mantissa and no largest exponent: overflow, infinities and NaN are not modelled. Storage in the array of single floats is any function with single precision results. The natural claim that every quantile is between the stored values is false (refuted variant)."
  },
  {
   "property": "C88",
   "status": "proved",
   "theorems": [
    "C88_exact_arithmetic",
    "C88_mean_between",
    "C88_mean_error",
    "C88_variance",
    "C88_equal_values",
    "C88_order_refuted",
    "C88_kurtosis_refuted",
    "C88_ewma_reads",
    "C88_ewma_between",
    "C88_ewma_between_refuted"
   ],
   "note": "x ** 2 is the rounded square; x ** 0.5, x ** 1.5 and math.exp are arbitrary functions (exp with values between 0 and 1). No overflow, infinities or NaN. Order independence and the lower bound 1 of the kurtosis hold in exact arithmetic only (refuted variants)."
  },
  {
   "property": "C89",
   "status": "proved",
   "theorems": [
    "C89_program_log",
    "C89_program_log_async",
    "C89_nested"
   ],
   "note": "Full statement for programs whose blocks are `with logger.action(...)` without explicit parent. Actions created outside a with statement or shared between blocks are covered by C01-C16 and C70-C73 only."
  },
  {
   "property": "C90",
   "status": "proved",
   "theorems": [
    "C90_rate_totals",
    "C90_quantile_groups",
    "C90_counter",
    "C90_async_same_events"
   ],
   "note": "Logger names are assumed distinct and not '__all__' (see C41_same_named_loggers_refuted). Getters answer for every event."
  },
  {
   "property": "C91",
   "status": "proved",
   "theorems": [
    "C91_program_file",
    "C91_program_file_async",
    "C91_plain_sink"
   ],
   "note": "Templates that show the data map, times, durations or the depth are outside `line_based`: their lines do not follow from the program text alone (clock) or may change between event and flush. C91_plain_sink shows that a SensibleSink over status_str, level_name and action_name is line-based as long as no data uses these names. Entries must be encodable and the file name must not be one of the stream names (C51)."
  },
  {
   "property": "C92",
   "status": "proved",
   "theorems": [
    "C92_not_covered",
    "C92_program_log",
    "C92_covered_block",
    "C92_covered_call",
    "C92_comes_out_refuted"
   ],
   "note": "The claim one reads into the argument, that covered exceptions come out, is false for blocks with reraise=False (C92_comes_out_refuted): __exit__ notes and drops what the sink raises. The post-mortem prompt is assumed to return."
  },
  {
   "property": "C93",
   "status": "proved",
   "theorems": [
    "C93_registered_get_it",
    "C93_only_registered",
    "C93_once",
    "C93_order",
    "C93_listed",
    "C93_double_add_refuted",
    "C93_replacing_misses_refuted",
    "C93_lost_hook_refuted"
   ],
   "note": "Proved for every schedule of every set of programs that do not replace the sinks. The three _refuted theorems show what happens without the hypotheses: the same sink added by two threads is called twice; events published during set_sinks() can miss sinks that are in both the old and the new list; add_sink() racing with set_sinks() can leave a sink listed but without hooks, and adding it again does nothing."
  },
  {
   "property": "C94",
   "status": "proved",
   "theorems": [
    "C94_never_stuck",
    "C94_warnings",
    "C94_begins",
    "C94_begun",
    "C94_ends",
    "C94_one_ender",
    "C94_block",
    "C94_two_begins_refuted",
    "C94_end_first_refuted",
    "C94_lost_outcome_refuted",
    "C94_stale_last_refuted",
    "C94_warn_events_refuted"
   ],
   "note": "Each positive claim is proved for every schedule under the hypotheses its text names; the five _refuted theorems are schedules of ordinary programs in which the claims without those hypotheses fail."
  },
  {
   "property": "C95",
   "status": "proved",
   "theorems": [
    "C95_one_flusher",
    "C95_at_most_once",
    "C95_in_order",
    "C95_barrier",
    "C95_conserved",
    "C95_synchronous",
    "C95_no_deadlock",
    "C95_ends",
    "C95_flush_does_not_raise",
    "C95_order_refuted",
    "C95_effect_before_cause_refuted",
    "C95_deadlock_refuted",
    "C95_endless_refuted",
    "C95_preflush_flush_refuted"
   ],
   "note": "The reactions are arbitrary functions of the past. Barrier and conservation assume that hooks do not raise and that the queue stays below QUEUE_LIMIT (C15 covers both without re-entrant hooks); one deliverer, at most once and order hold without these assumptions. The _refuted theorems are findings about re-entrant hooks. The stack depth is not limited in the model."
  },
  {
   "property": "C96",
   "status": "proved",
   "theorems": [
    "C96_read",
    "C96_bounds",
    "C96_exact",
    "C96_fails_only_on_new_groups",
    "C96_all_delivered",
    "C96_never_fails_refuted",
    "C96_monotone_refuted",
    "C96_snapshot_refuted"
   ],
   "note": "C96_read, C96_bounds, C96_exact and C96_fails_only_on_new_groups hold for every schedule. C96_never_fails_refuted: a read raises RuntimeError ('dictionary changed size during iteration') when another thread delivers the first event of a new group meanwhile. C96_monotone_refuted: with two deliverers an update is lost and a later read reports less. C96_snapshot_refuted: a result can include a delivery and miss one that returned before it was called."
  },
  {
   "property": "C97",
   "status": "proved",
   "theorems": [
    "C97_whole_lines",
    "C97_only_grows",
    "C97_no_incident",
    "C97_complete",
    "C97_one_incident",
    "C97_incident_order_refuted",
    "C97_never_raises_refuted"
   ],
   "note": "Proved for every schedule. Two findings are stated as refuted theorems: lines of one thread out of order after two threads reopen the stale file (C97_incident_order_refuted), and an exception leaving emit_entry when close() comes between reopening and the retry (C97_never_raises_refuted)."
  },
  {
   "property": "C98",
   "status": "proved",
   "theorems": [
    "C98_one_worker",
    "C98_start_works",
    "C98_joined_is_quiet",
    "C98_start_after_join",
    "C98_stop_takes_effect",
    "C98_one_context_worker",
    "C98_disable_async",
    "C98_enable_async",
    "C98_disable_flushes",
    "C98_disable_returns",
    "C98_one_worker_refuted",
    "C98_joined_is_quiet_refuted",
    "C98_start_works_refuted",
    "C98_start_after_join_refuted",
    "C98_stop_takes_effect_refuted",
    "C98_one_context_worker_refuted",
    "C98_enable_async_refuted"
   ],
   "note": "Proved for every schedule under the stated restrictions on overlapping calls; each restriction is shown to be needed by a _refuted theorem, which are findings. The actors of the application are those numbered below n; the context creates the others (own_actors: the application does not call start, stop or join of the actor of the context directly). No forks here (C47 has them)."
  },
  {
   "property": "C99",
   "status": "proved",
   "theorems": [
    "C99_alone",
    "C99_thread_log",
    "C99_told_apart",
    "C99_synchronous",
    "C99_asynchronous",
    "C99_nothing_else",
    "C99_no_deadlock",
    "C99_parents_refuted"
   ],
   "note": "Proved for every schedule, for hooks that do not raise, actions used by the thread that made them, and sinks and mode that do not change while the threads run. C99_alone ties the interleaved text of the code to the sequential model of C89. The parents claim is proved where threads do not disturb each other (C99_told_apart: always with hooks by thread) and refuted for the default hooks on shared loggers, a finding."
  },
  {
   "property": "C100",
   "status": "proved",
   "theorems": [
    "C100_created",
    "C100_raised",
    "C100_written",
    "C100_lost_silently",
    "C100_text_stream_refuted",
    "C100_console_encoding_refuted",
    "C100_failed_overwrite_refuted",
    "C100_file",
    "C100_file_created"
   ],
   "note": "C100_text_stream_refuted, C100_console_encoding_refuted and C100_failed_overwrite_refuted are findings about the code. The codecs and the standard streams are arguments of the model."
  },
  {
   "property": "C101",
   "status": "proved",
   "theorems": [
    "C101_sums",
    "C101_bounds",
    "C101_exact",
    "C101_add_alone",
    "C101_read_alone",
    "C101_read_ends",
    "C101_one_reader",
    "C101_lost_add_refuted",
    "C101_lost_in_update_refuted",
    "C101_counted_again_refuted",
    "C101_negative_rate_refuted"
   ],
   "note": "C101_lost_add_refuted, C101_lost_in_update_refuted, C101_counted_again_refuted and C101_negative_rate_refuted are findings about the code: exactness needs calls that do not overlap (C101_exact). Real arithmetic."
  },
  {
   "property": "C102",
   "status": "proved",
   "theorems": [
    "C102_observed",
    "C102_ends",
    "C102_add_returns",
    "C102_kept",
    "C102_full",
    "C102_one_reader",
    "C102_exact",
    "C102_cap_refuted",
    "C102_count_refuted",
    "C102_bounds_refuted",
    "C102_lost_refuted",
    "C102_stale_refuted",
    "C102_add_raises_refuted",
    "C102_readers_refuted"
   ],
   "note": "What holds under every schedule, for threads that only add, for one reader, and for calls that do not overlap is proved; the refuted theorems give schedules that exceed the cap, lose counts and values, leave wrong bounds or a wrong median, and raise IndexError in add and in the quantiles."
  },
  {
   "property": "C103",
   "status": "proved",
   "theorems": [
    "C103_mean_unbounded_refuted",
    "C103_observed",
    "C103_variance",
    "C103_ends",
    "C103_exact",
    "C103_mean_refuted",
    "C103_min_refuted",
    "C103_variance_refuted"
   ],
   "note": "What holds under every schedule and for calls that do not overlap is proved, in exact arithmetic; the refuted theorems give schedules with a mean above the maximum and a lost count, a wrong minimum, and a wrong variance."
  },
  {
   "property": "C104",
   "status": "proved",
   "theorems": [
    "C104_form",
    "C104_fixed",
    "C104_distinct",
    "C104_processes",
    "C104_fork_refuted",
    "C104_fork_after_seq"
   ],
   "note": "The claim a reader of the docstring would expect of forks is false: C104_fork_refuted. SHA-1 is an arbitrary function; absence of collisions is assumed only for the two texts at hand."
  },
  {
   "property": "C105",
   "status": "proved",
   "theorems": [
    "C105_sample",
    "C105_kept",
    "C105_window",
    "C105_quiet",
    "C105_total",
    "C105_norm",
    "C105_ends",
    "C105_negative_refuted",
    "C105_raises_refuted",
    "C105_early_refuted",
    "C105_order_refuted",
    "C105_norm_raises_refuted",
    "C105_norm_first_refuted"
   ],
   "note": "The bound on the steps of a call is for accumulators with a sample size (the default is 128). The wrong rates and exceptions are C105_negative_refuted, C105_raises_refuted, C105_early_refuted, C105_order_refuted, C105_norm_raises_refuted and C105_norm_first_refuted. Lost counts with several adding threads are C80."
  },
  {
   "property": "C106",
   "status": "proved",
   "theorems": [
    "C106_one_text",
    "C106_pieces",
    "C106_silent",
    "C106_delivered",
    "C106_only_handlers_raise",
    "C106_robust_refuted",
    "C106_removed_refuted",
    "C106_endless_refuted"
   ],
   "note": "That errors are robustly ignored is false when a handler raises: C106_robust_refuted (and C106_removed_refuted, C106_endless_refuted). Flags, widths and mapping keys in conversions are not modelled."
  },
  {
   "property": "C107",
   "status": "proved",
   "theorems": [
    "C107_quantile_sink",
    "C107_quantile_sink_raises",
    "C107_logger",
    "C107_logger_fallback",
    "C107_logger_never_raises",
    "C107_aggregate",
    "C107_aggregate_emitter",
    "C107_rate_accumulator",
    "C107_rate_sink",
    "C107_rate_sink_young",
    "C107_logger_young",
    "C107_logger_with_sinks",
    "C107_printing_is_harmless_refuted"
   ],
   "note": "Rates are exact numbers formatted with four digits; float rounding of the division is not modelled. Class names are those of the classes themselves."
  }
 ]
}