{
 "claims": [
  {
   "property": "C01",
   "status": "proved",
   "theorems": [
    "C01_shuffle_exact_cover",
    "C01_local_stage",
    "C01_shuffle_reads_once"
   ],
   "note": "For all stages, task counts, partitionings: the partitions consumers read are exactly the produced ones, each once. C01_local_stage: boundaries whose stage is still local."
  },
  {
   "property": "C02",
   "status": "proved",
   "theorems": [
    "C02_shuffle_colocates",
    "C02_two_shuffles_agree"
   ],
   "note": "Rows hashed alike end up in the same consumer task and partition, also across two shuffles with the same hash."
  },
  {
   "property": "C03",
   "status": "proved",
   "theorems": [
    "C03_broadcast_full_copy",
    "C03_broadcast_reads_once",
    "C03_prescaled_broadcast_refuted"
   ],
   "note": "Every consumer task gets the whole input once. The refuted theorem concerns a producer that already was scaled (not produced by the planner)."
  },
  {
   "property": "C04",
   "status": "proved",
   "theorems": [
    "C04_coalesce_exact_cover",
    "C04_groups_contiguous"
   ],
   "note": "Exact cover and contiguous groups for coalesce boundaries."
  },
  {
   "property": "C05",
   "status": "partial",
   "theorems": [
    "C05_rescale_single_consumer_partial",
    "C05_rescale_several_consumers_refuted"
   ],
   "note": "Rescaling is right for one consumer; with several consumers rows are lost (refuted)."
  },
  {
   "property": "C06",
   "status": "partial",
   "theorems": [
    "C06_head_preparation_partial",
    "C06_coalesce_strips_repartition_refuted"
   ],
   "note": "Preparation of the stage head; a RepartitionExec head below a coalesce is stripped (refuted)."
  },
  {
   "property": "C07",
   "status": "proved",
   "theorems": [
    "C07_union_allocation",
    "C07_union_allocation_any_weight",
    "C07_bad_requests",
    "C07_huge_weight_refuted",
    "C07_largest_remainders_first"
   ],
   "note": "Allocation theorem for the weights the planner produces (budget*(2n+3) < 2^53) and for any weights whose floors fit; a huge finite weight panics (refuted) but the planner cannot produce it. C07_largest_remainders_first: rounding as the documentation says, with IEEE doubles."
  },
  {
   "property": "C08",
   "status": "proved",
   "theorems": [
    "C08_union_reads_once",
    "C08_union_rows",
    "C08_with_new_children"
   ],
   "note": "Every child partition read exactly once over all tasks of a distributed union."
  },
  {
   "property": "C09",
   "status": "partial",
   "theorems": [
    "C09_trimming_partial",
    "C09_lone_variant_refuted",
    "C09_declared_feeds"
   ],
   "note": "Trimming a plan for a task preserves what it yields, its partition count and serialisability, and declares exactly the running feeds. Partial: a per-task leaf that is alone in its slot executes its original when untrimmed, so its lone variant must agree with it (refuted otherwise)."
  },
  {
   "property": "C10",
   "status": "proved",
   "theorems": [
    "C10_merge_laws",
    "C10_merge_is_tightest",
    "C10_order_independent",
    "C10_limit"
   ],
   "note": "Algebra of annotations, folds are order independent."
  },
  {
   "property": "C11",
   "status": "proved",
   "theorems": [
    "C11_every_stage_within_limits",
    "C11_final_plan_within_limits",
    "C11_the_maximum"
   ],
   "note": "For every plan, handler and setting: every stage and every union child has 1..max tasks and respects all hard maxima announced in it; also for the numbers in the final plan. Handlers must not ask for zero tasks; tasks*(2*children+3) < 2^53."
  },
  {
   "property": "C12",
   "status": "proved",
   "theorems": [
    "C12_boundaries_exactly_at_cuts",
    "C12_nothing_else_changes"
   ],
   "note": "Boundaries exactly at hash repartitions, broadcasts and below coalescing nodes; the outline of the plan is unchanged."
  },
  {
   "property": "C13",
   "status": "proved",
   "theorems": [
    "C13_prepared_boundaries",
    "C13_final_plan_numbered"
   ],
   "note": "Numbering, query id, elision and producer heads after preparation of any plan (injected or user-made boundaries); numbers and ids survive the later passes."
  },
  {
   "property": "C14",
   "status": "partial",
   "theorems": [
    "C14_visit",
    "C14_rewrite_with_context",
    "C14_rewrite_terminates",
    "C14_rewrite_sees",
    "C14_rewrite_up_partial",
    "C14_jump_refuted",
    "C14_up_sees",
    "C14_rewrite_with_count",
    "C14_down_count_sees"
   ],
   "note": "All four tree walks compute what explicit context passing computes. Partial: a bottom-up callback that jumps misaligns the stack (refuted; no callback in the code jumps)."
  },
  {
   "property": "C15",
   "status": "proved",
   "theorems": [
    "C15_single_task_joins_dynamic",
    "C15_single_task_joins"
   ],
   "note": "For every plan: the joins of C17/C18 that cannot be spread run in one task of the final plan."
  },
  {
   "property": "C16",
   "status": "proved",
   "theorems": [
    "C16_broadcast_join",
    "C16_broadcast_cross_join",
    "C16_types",
    "C16_only_safe_joins_broadcast"
   ],
   "note": "For every condition and every split of the right side over any number of tasks; the admitted types are exactly those of the code."
  },
  {
   "property": "C17",
   "status": "proved",
   "theorems": [
    "C17_unsafe_types",
    "C17_exactly_the_safe_types",
    "C17_slices_are_wrong",
    "C17_null_aware"
   ],
   "note": "For each excluded type a witness; with C16 this shows the admitted set is exactly right. Also: slicing the left side is wrong for every type, and null-aware anti joins can be neither broadcast nor partitioned."
  },
  {
   "property": "C18",
   "status": "proved",
   "theorems": [
    "C18_partitioned_join",
    "C18_needs_equal_hashes",
    "C18_which_joins"
   ],
   "note": "For every join type, hash function and partition count, given that matching rows hash alike (shown to be needed)."
  },
  {
   "property": "C19",
   "status": "partial",
   "theorems": [
    "C19_running_plan_limit",
    "C19_running_plan_offset",
    "C19_running_plan_order_by_limit",
    "C19_running_plan_order_by_offset",
    "C19_running_stages_are_limited_refuted",
    "C19_push_keeps_results",
    "C19_stages_are_limited",
    "C19_overflow_not_pushed",
    "C19_smaller_limit_kept",
    "C19_limit",
    "C19_offset",
    "C19_order_by_limit",
    "C19_order_by_offset",
    "C19_sort_above_boundary_refuted"
   ],
   "note": "The pass refines every plan in which no sort reads directly from a coalescing boundary, limits reach the stages, offsets are added without overflow; LIMIT/OFFSET/ORDER BY queries over plans that qualify for C48 return a window of the single-node rows. Refuted for a SortExec with a fetch directly above a boundary placed by the caller: the limit is pushed below the sort. With task counts chosen while the query runs the same windows are returned (C19_running_plan_limit, _offset, _order_by_limit, _order_by_offset), but the pass is not applied to the stages made then: they are not limited (C19_running_stages_are_limited_refuted)."
  },
  {
   "property": "C20",
   "status": "partial",
   "theorems": [
    "C20_limited_build_partial",
    "C20_limited_build_refuted"
   ],
   "note": "Every consumer task joins against a window of the build rows of the same length (and all rows where nothing is cut off), but different consumers may keep different rows: refuted with a query whose distributed result is impossible on one node."
  },
  {
   "property": "C21",
   "status": "partial",
   "theorems": [
    "C21_partial_reduce",
    "C21_two_phases",
    "C21_repartitioned_again",
    "C21_grouping_sets_refuted",
    "C21_only_adds",
    "C21_where"
   ],
   "note": "Holds for plain GROUP BY with any associative-commutative merge. Refuted for grouping sets (ROLLUP/CUBE), where the inserted aggregation multiplies the states (the pass is off by default)."
  },
  {
   "property": "C22",
   "status": "partial",
   "theorems": [
    "C22_preset_scan",
    "C22_scaled_scan_reads_once",
    "C22_scaling_succeeds_iff",
    "C22_every_task_count_refuted"
   ],
   "note": "Preset scans always scale; other scans scale iff the task count divides the number of groups (so 'every task count' is refuted); in both cases every group is read once."
  },
  {
   "property": "C23",
   "status": "partial",
   "theorems": [
    "C23_positive_bytes_partial",
    "C23_empty_scan_refuted"
   ],
   "note": "At least one task for scans with bytes; empty scans ask for zero tasks and a zero setting panics (refuted)."
  },
  {
   "property": "C24",
   "status": "partial",
   "theorems": [
    "C24_scaled_leaf_partial",
    "C24_single_task_refuted"
   ],
   "note": "Holds for two or more tasks; with one task the original is executed while the variant's partitions are advertised (refuted)."
  },
  {
   "property": "C25",
   "status": "proved",
   "theorems": [
    "C25_default_routing_balances",
    "C25_single_task",
    "C25_no_workers",
    "C25_one_url_per_task"
   ],
   "note": "Default routing: one known worker per task, balanced; single-task rules; no workers fail; wrong number of URLs from a user handler is rejected."
  },
  {
   "property": "C26",
   "status": "partial",
   "theorems": [
    "C26_user_first_partial",
    "C26_reverse_order_refuted",
    "C26_rewrites_compose"
   ],
   "note": "User handlers first holds; the documented reverse registration order is refuted (registration order is what is implemented)."
  },
  {
   "property": "C27",
   "status": "proved",
   "theorems": [
    "C27_every_consumer_sees_everything",
    "C27_answers",
    "C27_input_executed_once",
    "C27_pending_only_when_caught_up",
    "C27_announcements_wake",
    "C27_polling_ends",
    "C27_no_deadlock"
   ],
   "note": "Every consumer stream sees the input up to its first error exactly once in order, input executed once, no lost wake-up, polling always ends; for all schedules."
  },
  {
   "property": "C28",
   "status": "partial",
   "theorems": [
    "C28_broadcast_refuted",
    "C28_broadcast_only_crashes_truncate_partial",
    "C28_only_crashes_truncate_partial",
    "C28_worker_task_refuted",
    "C28_client_task_refuted"
   ],
   "note": "Refuted: a panic of the task feeding a broadcast, of the worker's per-partition task or of the client's demultiplexing task ends the consumer's stream normally with data missing. What holds: only such a crash truncates a stream, and what was delivered is a beginning of the data; for a connection only the client's task and the worker's task of that very partition matter (C28_broadcast_only_crashes_truncate_partial, C28_only_crashes_truncate_partial)."
  },
  {
   "property": "C29",
   "status": "proved",
   "theorems": [
    "C29_one_request_per_task",
    "C29_one_answer_per_task",
    "C29_right_stream",
    "C29_streams_handed_out_once",
    "C29_second_caller_fails",
    "C29_failure_reaches_everyone",
    "C29_fitting_calls_succeed",
    "C29_calls_can_be_polled",
    "C29_shuffle_calls_fit",
    "C29_broadcast_calls_fit",
    "C29_coalesce_calls_fit"
   ],
   "note": "For all interleavings of calls, answers and polls: one request per producer task, streams handed out once and the right ones, failures reach every caller; the calls of all three boundaries fit together, so none fails because of another."
  },
  {
   "property": "C30",
   "status": "proved",
   "theorems": [
    "C30_own_messages_in_order",
    "C30_normal_end_is_complete",
    "C30_errors_reach_everyone",
    "C30_failure_reaches_everyone",
    "C30_every_run_ends",
    "C30_drains"
   ],
   "note": "For all schedules of worker tasks, demultiplexer and consumers: own messages in order, complete on normal end, errors reach every stream, every run is finite and drains."
  },
  {
   "property": "C31",
   "status": "partial",
   "theorems": [
    "C31_dropping_partial",
    "C31_stall",
    "C31_refuted"
   ],
   "note": "Holds as long as less than the byte budget was buffered for dropped streams; otherwise every sibling stalls forever (refuted, with the general stall theorem)."
  },
  {
   "property": "C32",
   "status": "partial",
   "theorems": [
    "C32_bound",
    "C32_accounting_partial",
    "C32_refuted"
   ],
   "note": "The bound (budget plus one message) holds in every state; the exact accounting is off by everything buffered for streams when they were dropped (refuted)."
  },
  {
   "property": "C33",
   "status": "proved",
   "theorems": [
    "C33_first_write_wins",
    "C33_reads_return_first_write",
    "C33_timeout_only_if_unwritten",
    "C33_written_is_read",
    "C33_reads_end"
   ],
   "note": "For all schedules of writes, reads, polls and clock ticks. The doc comment of write ('subsequent calls overwrite silently') is wrong, the code rejects them."
  },
  {
   "property": "C34",
   "status": "partial",
   "theorems": [
    "C34_plan_of_that_task",
    "C34_plan_below_own_head",
    "C34_errors_are_of_that_task",
    "C34_same_answer",
    "C34_one_plan_per_entry",
    "C34_closing_forgets_partial",
    "C34_leftovers_wait_for_eviction",
    "C34_refuted"
   ],
   "note": "A request gets the plan of its own task or an error of its own task. Clean-up holds when a channel closes; a failing plan or a late data request leaves the task registered until idle eviction (refuted)."
  },
  {
   "property": "C35",
   "status": "partial",
   "theorems": [
    "C35_wait_is_stable",
    "C35_executed_tasks_partial",
    "C35_stuck",
    "C35_refuted"
   ],
   "note": "Ends when every expected task produced its final plan before the end of its coordinator stream; otherwise it waits forever (refuted, with the general stuck theorem)."
  },
  {
   "property": "C36",
   "status": "partial",
   "theorems": [
    "C36_attribution_partial",
    "C36_variant_with_children_refuted"
   ],
   "note": "Metrics shown at a node are those of that node in all tasks running it. Partial: per-task variants must be single nodes; variants with children shift metrics (refuted)."
  },
  {
   "property": "C37",
   "status": "partial",
   "theorems": [
    "C37_stream_unchanged",
    "C37_stream_or_first_error_partial",
    "C37_can_be_read_to_the_end",
    "C37_executed_once",
    "C37_error_hides_rows_refuted"
   ],
   "note": "Streams without errors pass unchanged, and can be read to the end, executed exactly once. With errors: either that, or the consumer gets the first error alone; refuted that the rows before an error survive: an error in the first chunk hides the batches in front of it."
  },
  {
   "property": "C38",
   "status": "partial",
   "theorems": [
    "C38_each_feed_once",
    "C38_delivery",
    "C38_shared_id_refuted"
   ],
   "note": "Every feed index is asked for exactly once over the tasks; what a leaf read is always a prefix of its feed, and all of it once it saw the end, unless the connection broke, the query was dropped or a feed of the task failed. Needs distinct feed ids per task: refuted for two nodes sharing an id (units are mixed, the second leaf fails), which nothing rejects."
  },
  {
   "property": "C39",
   "status": "proved",
   "theorems": [
    "C39_feed_error_fails_query",
    "C39_errors_have_a_cause"
   ],
   "note": "A query never ends successfully after a feed handed out an error; an error outcome is a feed's error or a broken connection. The worker sees a clean end of the feed; the error surfaces when the coordinator drains its tasks."
  },
  {
   "property": "C40",
   "status": "partial",
   "theorems": [
    "C40_clocks_agree_partial",
    "C40_clock_skew_refuted"
   ],
   "note": "Holds when the worker's clock is not behind the coordinator's; refuted otherwise: panic with overflow checks, latency off by 2^64 ns without."
  },
  {
   "property": "C41",
   "status": "partial",
   "theorems": [
    "C41_options_restored_partial",
    "C41_distributed_config_restored",
    "C41_capital_letter_refuted",
    "C41_unset_option_refuted",
    "C41_repeated_prefix_refuted",
    "C41_nested_prefixes_refuted"
   ],
   "note": "Proved in full for the engine's own configuration on a worker with defaults, and for every extension with plain keys. Refuted in general: keys with capital letters are lost, options switched off come back with the worker's default, keys starting with the own prefix and extensions with nested prefixes overwrite each other."
  },
  {
   "property": "C42",
   "status": "partial",
   "theorems": [
    "C42_no_effect_partial",
    "C42_user_header_changes_config_refuted"
   ],
   "note": "Accepted headers whose names do not start with the extension's prefix and a dot change nothing; refuted for a header named like an option without the reserved prefix, which is accepted and read as that option."
  },
  {
   "property": "C43",
   "status": "proved",
   "theorems": [
    "C43_set_plan",
    "C43_work_units",
    "C43_data_requests",
    "C43_batch_metadata",
    "C43_load_reports",
    "C43_nodes"
   ],
   "note": "Over a model of protobuf's wire format as prost implements it (WireModel). A weight of -0 arrives as +0, the same number. Plans, partitionings, schemas, URLs and sketches are encoded by other crates, whose codecs are parameters assumed to parse what they print. Children of a node are sent by DataFusion."
  },
  {
   "property": "C44",
   "status": "partial",
   "theorems": [
    "C44_kept_partial",
    "C44_stages_partial",
    "C44_arrival_partial",
    "C44_other_failures",
    "C44_avro_refuted",
    "C44_deep_refuted",
    "C44_changed_refuted"
   ],
   "note": "Refuted in three ways: an Avro error loses kind, text and context (tag 21 is not among the tags read); 51 nested contexts exceed prost's recursion limit and all is lost; JoinErrors, FFI errors, unlisted kinds, names of unknown object stores, invalid paths and NotImplemented operations change kind or text. Partial: all others (ErrorSpec.kept) arrive unchanged through any number of stages, nested in at most 95 messages. Errors held as dyn Error are their texts; diagnostics' contents, spans of columns and numbers of OS errors are not sent. Not modelled: a limit of HTTP/2 on the size of a status."
  },
  {
   "property": "C45",
   "status": "partial",
   "theorems": [
    "C45_minimum",
    "C45_maximum",
    "C45_gauge",
    "C45_bytes",
    "C45_average",
    "C45_order",
    "C45_first_seen_partial",
    "C45_first_seen_refuted"
   ],
   "note": "Minimum, maximum, gauge, bytes and average: proved for every order of merging. First-seen: refuted, the result is the one merged first (C45_first_seen_refuted); partial: it is some task's first recording and 0 only if there is none. Percentiles (kept by another crate's sketches) are not modelled."
  },
  {
   "property": "C46",
   "status": "proved",
   "theorems": [
    "C46_task_count_in_range",
    "C46_task_count_exists",
    "C46_task_count_enough",
    "C46_every_stage_within_limits",
    "C46_running_plan_within_limits"
   ],
   "note": "For all observed costs: range, existence for plans with partitions, sufficiency for the configured bytes per partition; every stage of the running plan within the limits. Inherits the Reals axioms of the planner (floor bound)."
  },
  {
   "property": "C47",
   "status": "partial",
   "theorems": [
    "C47_fallback_partial",
    "C47_no_progress_inflated",
    "C47_no_progress_refuted",
    "C47_no_progress_panics_refuted"
   ],
   "note": "Refuted: a sample taken before any announced leaf row was counted divides by zero progress and gives 2^64-1 rows (C47_no_progress_refuted, in general C47_no_progress_inflated), and panics on overflow (or wraps without overflow checks) as soon as the sample has 2 bytes. Partial: if the sampled partitions ended or no leaf announces rows, the estimate is at most five times the sample (C47_fallback_partial)."
  },
  {
   "property": "C48",
   "status": "partial",
   "theorems": [
    "C48_distributed_plan_same_rows",
    "C48_with_single_partition_operators",
    "C48_rowwise_operators_qualify",
    "C48_grouped_aggregates_qualify",
    "C48_file_scans_qualify",
    "C48_unsplit_leaf_refuted",
    "C48_round_robin_refuted"
   ],
   "note": "Plans without limits; every operator gets an input it can work with (typed/fed, what DataFusion guarantees), scans keep their rows when scaled (proved for file scans), unions have several inputs and no round-robin repartition directly below a coalescing operator or at the root. Executions are relational (any interleaving of rows); errors end an execution. That last condition is needed: ProducerHead::insert takes the repartition away when it prepares the stage, the boundary still reads as many partitions as the repartition had, and the rows of the others are lost without an error (C48_round_robin_refuted). The condition on scans (every_scan faithful_scan) is needed too: a leaf for which a handler asks for several tasks but which no scale-up handler splits is read in full by each task, so its rows come out as many times as there are tasks, without an error (C48_unsplit_leaf_refuted)."
  },
  {
   "property": "C49",
   "status": "proved",
   "theorems": [
    "C49_unchanged_or_distributed",
    "C49_one_task_per_stage_changes_nothing",
    "C49_already_distributed",
    "C49_analyze"
   ],
   "note": "Result is the given plan or has a boundary; with one task per stage it is always the given plan; distributed plans are untouched; EXPLAIN ANALYZE follows its input."
  },
  {
   "property": "C50",
   "status": "partial",
   "theorems": [
    "C50_unread_sibling_stall",
    "C50_refuted",
    "C50_small_siblings_partial"
   ],
   "note": "Refuted in general: the byte budget is shared, so an existing but unread stream stalls its siblings (C50_refuted, C50_unread_sibling_stall). C50_small_siblings_partial: as long as the data of all unread partitions fits into the budget, every other stream receives all its data, in every run."
  },
  {
   "property": "C51",
   "status": "partial",
   "theorems": [
    "C51_zero_budget_refuted",
    "C51_positive_budget_partial"
   ],
   "note": "Holds for every positive budget; a budget of zero, which is accepted, never lets a message through (refuted)."
  },
  {
   "property": "C52",
   "status": "partial",
   "theorems": [
    "C52_coalescing_in_one_task_dynamic_partial",
    "C52_coalescing_in_one_task_partial",
    "C52_coalesce_above_shuffle_refuted"
   ],
   "note": "Holds unless the coalescing node is directly above a hash repartition in a later stage, where it runs once per task (refuted)."
  },
  {
   "property": "C53",
   "status": "proved",
   "theorems": [
    "C53_swapped_join",
    "C53_swapped_is_broadcastable",
    "C53_every_join_is_covered"
   ],
   "note": "Swap theorem for all ten join types; coverage of all joins by the three strategies."
  },
  {
   "property": "C54",
   "status": "partial",
   "theorems": [
    "C54_single_partition_operators_refuted",
    "C54_folded_input_partial",
    "C54_folded_input_dynamic_partial"
   ],
   "note": "C54_folded_input_partial: an operator that needs its whole input and stands above a coalescing node of its stage runs in one task, unless that node reads a shuffle or broadcast; C54_folded_input_dynamic_partial: the same for task counts chosen at run time. Without a coalescing node it is false: the planner ignores required distributions, an operator needing a single partition over a one-partition scan runs in several tasks below a broadcast (C54_single_partition_operators_refuted)."
  },
  {
   "property": "C55",
   "status": "partial",
   "theorems": [
    "C55_ended_queries_waited",
    "C55_satisfied_query_waits_refuted"
   ],
   "note": "Refuted: ended queries have waited for the end of every feed; a LIMIT over a feed that stays open never returns."
  },
  {
   "property": "C56",
   "status": "partial",
   "theorems": [
    "C56_complete_feeds_partial",
    "C56_lost_connection_refuted"
   ],
   "note": "Proved with metrics collection on (default); refuted with metrics collection off, where a connection that fails after the worker's answers ended truncates feeds silently."
  },
  {
   "property": "C57",
   "status": "partial",
   "theorems": [
    "C57_coordinator_requests_partial",
    "C57_between_workers_refuted"
   ],
   "note": "Requests of the coordinator carry all user headers; refuted for requests between workers: a worker's session has none unless its session builder copies them."
  },
  {
   "property": "C58",
   "status": "proved",
   "theorems": [
    "C58_reports_are_true",
    "C58_everyone_reports"
   ],
   "note": "A chunk with an error reports nothing (zeros). Random choice of sampled rows is any increasing list of the given length."
  },
  {
   "property": "C59",
   "status": "proved",
   "theorems": [
    "C59_memory_is_what_is_held"
   ],
   "note": "Reservation per partition; an erroneous chunk holds nothing."
  },
  {
   "property": "C60",
   "status": "proved",
   "theorems": [
    "C60_over_the_network",
    "C60_same_rows_for_all_observations"
   ],
   "note": "Observations are arbitrary per position of the plan (cost, unknown cost, failure). Scale-up handlers must not answer for boundaries (C62). Inherits the Reals axioms of the planner. C60_over_the_network says the same with all boundaries read through the connection pools, connections and streams of C89."
  },
  {
   "property": "C61",
   "status": "partial",
   "theorems": [
    "C61_user_placed_boundaries_do_not_run",
    "C61_user_placed_boundaries_refuted"
   ],
   "note": "Refuted, for every plan with a user-placed stage of several tasks: the stage stays local and its execution is refused."
  },
  {
   "property": "C62",
   "status": "partial",
   "theorems": [
    "C62_handlers_asked_about_leaves_only",
    "C62_handlers_asked_about_leaves_only_refuted"
   ],
   "note": "Proved for task counts chosen at planning; refuted for task counts chosen at run time, where remote boundaries are childless and count as leaves."
  },
  {
   "property": "C63",
   "status": "proved",
   "theorems": [
    "C63_shown_plan_is_running_plan"
   ],
   "note": "For stages with different numbers (the counter of the injection); fuel of the model's recursion is shown sufficient."
  },
  {
   "property": "C64",
   "status": "partial",
   "theorems": [
    "C64_row_estimate",
    "C64_byte_estimate_partial",
    "C64_complete_sample",
    "C64_overflow_checks",
    "C64_bytes_refuted"
   ],
   "note": "Rows proved for at most 2^20 partitions and any reports (relative error 2^-21). Bytes: the factor is truncated to an integer before it is multiplied (C64_bytes_refuted), so only the truncated scaling is proved (C64_byte_estimate_partial). Complete samples of at most 2^24 rows are exact. With overflow checks the theorems are about runs without an overflow; without checks the same results are obtained (C64_overflow_checks)."
  },
  {
   "property": "C65",
   "status": "partial",
   "theorems": [
    "C65_stall",
    "C65_no_infinite_run",
    "C65_small_input_partial",
    "C65_refuted"
   ],
   "note": "Refuted for every connection budget: eight partitions read through one connection, the first partition's later messages use up the budget after it has reported, the others get nothing and the coordinator waits for ever (C65_refuted; in general C65_stall). Partial: if all data of the connection is less than the budget, every run ends with all partitions having reported (C65_small_input_partial, C65_no_infinite_run). Modelled: one task reading one connection, partition i of the stage yields what partition i of the connection yields; nothing breaks or is dropped."
  },
  {
   "property": "C66",
   "status": "proved",
   "theorems": [
    "C66_counts_within_rows",
    "C66_reported_ratios"
   ],
   "note": "Proved for reports whose ratios are between 0 and 1 (C66_reported_ratios shows that the sampler's reports are such) and at most 2^24 reports."
  },
  {
   "property": "C67",
   "status": "partial",
   "theorems": [
    "C67_exact_zero_partial",
    "C67_exact_refuted"
   ],
   "note": "Refuted: an empty batch followed by a pause makes the stage's row count Exact(0) although rows follow (C67_exact_refuted). Partial: only 0 is ever marked exact, and then no report that was used had rows."
  },
  {
   "property": "C68",
   "status": "partial",
   "theorems": [
    "C68_parts_cost_no_more_partial",
    "C68_cross_join_refuted"
   ],
   "note": "Refuted: the cross join of two tables of 2^32 bytes or more overflows when its saturated cost is added to its inputs' costs: the estimate panics with overflow checks and without them is one less than the inputs' (C68_cross_join_refuted). Partial: whenever the checked estimate succeeds, every subplan costs at most as much (C68_parts_cost_no_more_partial). DataFusion's statistics of an operator are a parameter."
  },
  {
   "property": "C69",
   "status": "partial",
   "theorems": [
    "C69_more_bytes_cost_no_less_refuted",
    "C69_more_bytes_cost_no_less_partial",
    "C69_no_fewer_tasks"
   ],
   "note": "Cost: C69_more_bytes_cost_no_less_partial, for plans whose estimates do not overflow; C69_more_bytes_cost_no_less_refuted: the cross join of two tables of 4 GiB costs less and gets fewer tasks than that of two tables of 2 GiB (the sum wraps, or panics with overflow checks). The sizes at each operator, filled in as in C71, are compared. The task count: proved without restrictions."
  },
  {
   "property": "C70",
   "status": "proved",
   "theorems": [
    "C70_cpu_cost",
    "C70_sort_cost",
    "C70_unknown_cost",
    "C70_memory_cost",
    "C70_network_cost"
   ],
   "note": "Against an independent counting of bytes (CostSpec.work, reads). For operators whose constants (literals' and operators' counts) are at most 2^24, where 32-bit floats are exact. Sorts: the product size times log2 must not overflow. The f32 log2 is a parameter: no operator of the code uses it."
  },
  {
   "property": "C71",
   "status": "partial",
   "theorems": [
    "C71_known_kept",
    "C71_rows_of_inputs",
    "C71_bytes_of_rows",
    "C71_total_of_columns",
    "C71_unknown_is_free_refuted"
   ],
   "note": "The filling in is proved (types whose sizes fit, FixedSize types with non-negative sizes). Refuted for its last sentence: a source about which nothing is known has size 0, costs nothing and asks for one task (C71_unknown_is_free_refuted)."
  },
  {
   "property": "C72",
   "status": "partial",
   "theorems": [
    "C72_messages_partial",
    "C72_nodes_refuted",
    "C72_nodes_partial",
    "C72_error_reports"
   ],
   "note": "Proved for all messages (C72_messages_partial) and reports of errors (C72_error_reports). Refuted for nodes of plans: the tag 3, reserved for a node of earlier versions, is listed among the node's tags but has no variant; prost panics on it (C72_nodes_refuted); without such a key in its bytes no node panics, whatever its children (C72_nodes_partial)."
  },
  {
   "property": "C73",
   "status": "partial",
   "theorems": [
    "C73_metrics_partial",
    "C73_metrics_are_sent",
    "C73_metrics_refuted"
   ],
   "note": "Refuted: a time of zero arrives as 1 ns and a custom metric that is not of this crate is left out without notice (C73_metrics_refuted). Partial: all others arrive as recorded (C73_metrics_partial)."
  },
  {
   "property": "C74",
   "status": "partial",
   "theorems": [
    "C74_different_processes",
    "C74_distinct_workers",
    "C74_same_process",
    "C74_no_sharing_partial",
    "C74_union_numbers",
    "C74_shared_shuffle_one_reader",
    "C74_no_sharing_refuted"
   ],
   "note": "Proved for tasks that do not both run inside the coordinator's process. Refuted for those that do (custom routing, or fewer workers than planned tasks): the plan is handed over as it is, and subtrees nothing in which is adapted to the task are the same allocation for all tasks; a shuffle then gives one task the other one's partition (C74_no_sharing_refuted). C74_same_process says exactly what is shared; partial: nothing, if all leaves are adapted. Identity of allocations is a ghost of the model; DataFusion's transform_down allocating only what changed is assumed."
  },
  {
   "property": "C75",
   "status": "partial",
   "theorems": [
    "C75_own_worker",
    "C75_failures_not_remembered",
    "C75_connection_shared",
    "C75_connections_counted",
    "C75_calls_return",
    "C75_working_connection_kept_refuted"
   ],
   "note": "Proved: own worker, sharing, failures not remembered, number of connections, calls return. Refuted: a call that waited for a failed connection and is late to notice removes the entry of the URL even if a new, working connection was made meanwhile (C75_working_connection_kept_refuted). Moka's per-key atomicity and futures' Shared are assumed."
  },
  {
   "property": "C76",
   "status": "partial",
   "theorems": [
    "C76_memory_accounted",
    "C76_memory_bounded",
    "C76_order_kept",
    "C76_end_means_all_read_partial",
    "C76_schedules_are_finite",
    "C76_no_deadlock",
    "C76_stream_ends",
    "C76_memory_released",
    "C76_release_is_finite",
    "C76_panic_truncates_refuted"
   ],
   "note": "Memory, order, termination and release are proved. That the end of the stream means that all was sent is refuted if a partition panics while it is polled: its task's result is not looked at and the stream ends cleanly (C76_panic_truncates_refuted); partial: proved if none panics. Messages are values with a size (the size the code reserves); tokio's channels and tasks are assumed."
  },
  {
   "property": "C77",
   "status": "proved",
   "theorems": [
    "C77_whole_stage",
    "C77_unknown",
    "C77_equal_shares",
    "C77_powers_of_two",
    "C77_monotone",
    "C77_exact_claims"
   ],
   "note": "Proved. Exact figures: proved for the statistics the coordinator gathers, whose exact figures are zero; for others, which only a program building a stage itself could pass, an exact figure is announced truncated as exact (Example C77_exact_figures_truncated). A local stage asks DataFusion, a parameter. The number of partitions is that of one consumer task."
  },
  {
   "property": "C78",
   "status": "proved",
   "theorems": [
    "C78_can_run_over_the_network",
    "C78_running_plan_can_run",
    "C78_distributed_plan_can_run",
    "C78_single_partition_operators_can_run",
    "C78_file_scans_can_run"
   ],
   "note": "Progress for the plans of C48: an execution (runs) of the returned plan exists whenever every scan can be read (readable, readable_scan in RunSpec.v), and it has the rows of the execution on one node, which exists too. The refusals modelled are those of the crate's execute functions (partition and task ranges, missing children of an isolated union, unscaled leaves) and DataFusion's own refusals of joins with inputs of different numbers of partitions, of collected build sides with more than one partition and of merges of no partitions. In the model errors never depend on the rows, so that one execution exists says as much as that all attempts succeed; errors of expressions on rows and failures of workers or the network are outside. C78_file_scans_can_run shows that file scans split by the built-in handler meet the hypotheses. C78_can_run_over_the_network and C78_running_plan_can_run: the plan can be executed with every boundary read over connections (C89), and so can the plan that runs when task counts are chosen during execution (C60), if the sort-preserving merges of the plan compare any two rows and every operator has an answer for every input."
  },
  {
   "property": "C79",
   "status": "proved",
   "theorems": [
    "C79_planning_succeeds",
    "C79_analyze_succeeds",
    "C79_query_succeeds",
    "C79_factors",
    "C79_ranges_refuted",
    "C79_zero_factor_refuted"
   ],
   "note": "Proved for regular plans (regular, TotalSpec.v): right numbers of children, at least one partition everywhere, collecting joins with one left partition, no range repartition directly below a coalescing node or at the root; no boundaries placed by the user. The handlers answer (answering_handlers), scale nothing to zero partitions, and announce sane task counts; the model's fits hypothesis excludes sums of task counts beyond 2^53. C79_query_succeeds puts C48, C49, C78 and C79 together. Refuted without the two conditions: a range repartition below a merge makes planning fail with an error instead of falling back to one node (C79_ranges_refuted), and so does a cardinality factor of zero, which the configuration accepts, below a union of shuffles (C79_zero_factor_refuted)."
  },
  {
   "property": "C80",
   "status": "partial",
   "theorems": [
    "C80_per_task",
    "C80_aggregated",
    "C80_no_panic",
    "C80_order",
    "C80_header",
    "C80_in_process",
    "C80_kinds_refuted",
    "C80_user_label_refuted",
    "C80_header_gap_refuted",
    "C80_moving_counter_refuted"
   ],
   "note": "Proved if all metrics of a name are of one variant and none already has a label 'task_id' (one_kind, unlabelled). Without the first the display panics (C80_kinds_refuted); without the second a value is shown as that of another task (C80_user_label_refuted). The header leaves out tasks behind one that has not reported (C80_header_gap_refuted); a counter that moved on after it was reported is counted twice when worker and coordinator share a process (C80_moving_counter_refuted). DataFusion's MetricValue (variants, aggregate, sort key, text) is a parameter; that merging its values does not depend on the order is a hypothesis of C80_order (see C45 for the crate's own metrics). Which node a task's metrics belong to is C36."
  },
  {
   "property": "C81",
   "status": "partial",
   "theorems": [
    "C81_plans_arrive",
    "C81_codecs_registered_one_by_one",
    "C81_missing_codec",
    "C81_adding_codecs",
    "C81_plans_are_sent",
    "C81_partitionings_arrive",
    "C81_order_refuted",
    "C81_user_keys_refuted",
    "C81_functions_refuted",
    "C81_untidy_refuted"
   ],
   "note": "Proved for codecs that decode what they encode and write nothing when they refuse (honest), functions the worker knows by name, and plans whose boundaries are not partitioned by users' expressions. Each condition is needed: another order of the same codecs makes the worker run another plan without an error (C81_order_refuted); a boundary partitioned by a user's expression cannot be sent although its codec is registered, as the crate encodes partitionings of boundaries with its own codec only (C81_user_keys_refuted); users' codecs are never asked about functions, as the crate's codec comes first and accepts every function by default (C81_functions_refuted); a codec that writes before refusing spoils the next one's bytes (C81_untidy_refuted). DataFusion's ComposedPhysicalExtensionCodec, the defaults of its codec trait and where its conversion asks the codec are modelled as understood (its source is not in the sandbox); its encoding of its own nodes is a parameter assumed faithful (faithful_plans, faithful_partitionings)."
  },
  {
   "property": "C82",
   "status": "partial",
   "theorems": [
    "C82_every_stage_shown_partial",
    "C82_text_tells_the_plan_partial",
    "C82_text_tells_the_numbers_partial",
    "C82_partitions_of_a_stage_partial",
    "C82_planned_queries_shown",
    "C82_stage_not_shown_refuted",
    "C82_partitions_refuted"
   ],
   "note": "Proved if no stage's plan (and not the head) consists of a boundary alone, and operators' texts are on one line. DataFusion's one-line texts and the metrics' texts are parameters; metrics are those of C80. Without the first condition the stage below is not shown, because find_input_stages starts at the children (C82_stage_not_shown_refuted; the planner makes such a plan for a hash repartition into one partition at the root). The header's number of partitions is that of one task when a hash-partitioned stage feeds a coalescing boundary (C82_partitions_refuted; also in the project's own snapshots). Not modelled: the Graphviz text, stages already sent (Remote). C82_planned_queries_shown: for plans made by the planner of a query without a round-robin repartition directly below a merge and not beginning with a repartition, no stage is such a boundary, so all stages are shown."
  },
  {
   "property": "C83",
   "status": "proved",
   "theorems": [
    "C83_runs_the_query",
    "C83_errors_reported"
   ],
   "note": "The stream of the query and the two texts are given; that the texts wait for the metrics of all tasks is C36/C80. The answer's batch is a list of pairs."
  },
  {
   "property": "C84",
   "status": "partial",
   "theorems": [
    "C84_kept_while_running",
    "C84_comes_to_rest",
    "C84_workers_are_told",
    "C84_ended_well",
    "C84_feeds_awaited_refuted"
   ],
   "note": "Proved for the model of the coordinator's task, the two tasks of each channel and the worker's loop as one transition system, with any number of channels. Bounded work: C84_comes_to_rest; what holds at rest: C84_workers_are_told. After the last row the result waits for the work unit feeds although nobody reads them any more, so with an endless (or slow) feed a query with a LIMIT does not end until the caller drops it (C84_feeds_awaited_refuted); that is why the theorems ask for the feeds to be over. Assumed: tokio's Notify wakes every Notified made before notify_waiters, dropping a JoinSet aborts its tasks, a dropped call to another process is reset there, and load reports end (C65). A worker whose building of a plan was cancelled or failed keeps an entry until it is evicted (cf. C34)."
  },
  {
   "property": "C85",
   "status": "partial",
   "theorems": [
    "C85_times_are_true",
    "C85_start_is_kept",
    "C85_started_before_ended_partial",
    "C85_started_before_ended_refuted",
    "C85_clock_set_back_refuted"
   ],
   "note": "C85_times_are_true and C85_start_is_kept hold for clocks that are not set back. The execution begins before it ends if no request is between checking for the first request and writing its time when the task ends (C85_started_before_ended_partial); two requests can both find that they are the first (a check and a write without a lock), and the slower one may then write its time after the end was written (C85_started_before_ended_refuted). The clock is the wall clock: if it is set back, a task ends before it began (C85_clock_set_back_refuted); if the coordinator's clock is ahead of the worker's, all times are 1 ns, which is within the definition of since."
  },
  {
   "property": "C86",
   "status": "partial",
   "theorems": [
    "C86_last_answer_shown",
    "C86_completed_is_true",
    "C86_bounded",
    "C86_completed_shown_partial",
    "C86_worker_comes_back",
    "C86_rates_are_true",
    "C86_completed_shown_refuted",
    "C86_keys_are_safe",
    "C86_escape_refuted",
    "C86_chosen_worker_refuted",
    "C86_cursor_in_range",
    "C86_clear",
    "C86_keys"
   ],
   "note": "C86_last_answer_shown, C86_completed_is_true, C86_bounded, C86_worker_comes_back, C86_rates_are_true, C86_cursor_in_range and C86_keys_are_safe hold for all histories in which an answer lists a task at most once (C87_listed_is_open shows that the workers do so). A finished task is shown as completed if no task of another query runs on the worker or one of its own query is still listed (C86_completed_shown_partial); otherwise it is cleared in the same poll (C86_completed_shown_refuted). Esc does nothing when the worker shown in detail is gone (C86_escape_refuted), and the view shows another worker when one before it is gone (C86_chosen_worker_refuted). Not modelled: drawing, the 50 ms limit on a poll (a worker that hangs keeps its last tasks shown), sorting (any order), overflow of the sum of rows. C86_keys and C86_clear say what the keys do."
  },
  {
   "property": "C87",
   "status": "partial",
   "theorems": [
    "C87_listed_is_open",
    "C87_open_is_listed_partial",
    "C87_closed_is_not_listed",
    "C87_open_is_listed_refuted"
   ],
   "note": "C87_listed_is_open and C87_closed_is_not_listed hold for all schedules. An open task is listed if one plan was sent for it and its entry was not evicted (C87_open_is_listed_partial); an entry that nobody asked for during ten minutes is evicted, and the task is then not listed although it is open and may be running (C87_open_is_listed_refuted). The status is always Running. Going through the cache is modelled as one step."
  },
  {
   "property": "C88",
   "status": "partial",
   "theorems": [
    "C88_running_plan_keeps_orders_partial",
    "C88_running_plan_over_the_network_partial",
    "C88_over_the_network_partial",
    "C88_promised_orders_hold",
    "C88_distributed_plan_keeps_orders_partial",
    "C88_with_single_partition_operators_partial",
    "C88_file_scans_qualify",
    "C88_order_through_a_shuffle_refuted",
    "C88_dealt_files_refuted"
   ],
   "note": "Proved for plans that do not rely on a repartition to keep the order of a single input partition (C88_distributed_plan_keeps_orders_partial, C88_with_single_partition_operators_partial) and whose scans are split into sorted parts (C88_file_scans_qualify: DataFusion's partitioner, or a single group). Refuted otherwise: DataFusion lets a repartition of one partition keep its order, the planner makes it a shuffle from several tasks, which interleaves (C88_order_through_a_shuffle_refuted: DISTINCT returns a value twice); files of a scan with a partitioning of its own are dealt without regard to their order (C88_dealt_files_refuted: ORDER BY returns unsorted rows). preserve_order of RepartitionExec and sort-merge joins are not modelled. The same holds of plans whose task counts are chosen while the query runs (C88_running_plan_keeps_orders_partial, C88_running_plan_over_the_network_partial)."
  },
  {
   "property": "C89",
   "status": "proved",
   "theorems": [
    "C89_shuffle_over_the_network",
    "C89_broadcast_over_the_network",
    "C89_coalesce_over_the_network",
    "C89_errors_are_seen",
    "C89_boundaries_over_the_network",
    "C89_query_over_the_network",
    "C89_plans_over_the_network",
    "C89_can_run_over_the_network"
   ],
   "note": "Composition of the connection pool (C29), connections (C30) and boundaries (C01-C04) with C48: histories of pools, connections and in-process streams deliver exactly what ExecModel's boundaries do, and conversely every outcome allowed there is the outcome of some history (C89_boundaries_over_the_network, C89_plans_over_the_network). A message carries the rows of one batch; crashes of background tasks are excluded (see C28). C89_can_run_over_the_network: a plan that can be executed with direct reads has an execution over the network (answerable: sort orders total, right sides of joins with partitions)."
  },
  {
   "property": "C90",
   "status": "partial",
   "theorems": [
    "C90_lines_by_stage_task",
    "C90_leaves_outside_unions_partial",
    "C90_aggregated_metrics",
    "C90_text",
    "C90_below_unions_refuted"
   ],
   "note": "Proved for leaves read by all tasks of their stage (C90_leaves_outside_unions_partial) and, in general, that line i shows what task i of the stage recorded (C90_lines_by_stage_task). Refuted below a union whose children have tasks of their own: parts are numbered by the child's tasks, metrics by those of the stage, so the rows of one part stand beside another and some are shown nowhere (C90_below_unions_refuted)."
  },
  {
   "property": "C91",
   "status": "partial",
   "theorems": [
    "C91_counts_the_streamed_side",
    "C91_streamed_leaves",
    "C91_no_row_counted_twice",
    "C91_expected_rows_partial",
    "C91_progress_at_most_all",
    "C91_small_leaves_refuted",
    "C91_silent_leaves_refuted",
    "C91_failing_statistics_refuted"
   ],
   "note": "Proved: which leaves count (C91_counts_the_streamed_side, C91_streamed_leaves), no row twice and how many are missed (C91_no_row_counted_twice), the rows expected if no leaf's statistics fail (C91_expected_rows_partial), never more than finished if all leaves announce enough (C91_progress_at_most_all). Refuted: leaves with fewer rows than partitions never count, and the stage is estimated at 2^64-1 rows (C91_small_leaves_refuted); leaves that announce nothing count as read but not as expected (C91_silent_leaves_refuted); failing statistics hide the leaves after them (C91_failing_statistics_refuted)."
  },
  {
   "property": "C92",
   "status": "partial",
   "theorems": [
    "C92_no_infinite_run",
    "C92_stall",
    "C92_small_siblings_partial",
    "C92_refuted"
   ],
   "note": "Refuted: for every budget, channel capacity and prefetch depth, one producer task with two partitions of which the second yields more than the budget (beyond what the merge prefetches) before the first yields anything: the connection stops reading and nothing is ever merged (C92_refuted; in general C92_stall). Proved: there are no infinite runs, and all is merged if nothing fails and the data of the siblings of any stream is less than the budget, in particular with one partition per task (C92_small_siblings_partial)."
  },
  {
   "property": "C93",
   "status": "partial",
   "theorems": [
    "C93_boxes",
    "C93_names",
    "C93_arrows_within_tasks",
    "C93_arrows_between_tasks_partial",
    "C93_ports_partial",
    "C93_labels",
    "C93_broadcasts_refuted",
    "C93_after_broadcasts_refuted",
    "C93_coalesces_refuted",
    "C93_unions_refuted"
   ],
   "note": "Proved: boxes, names, arrows within tasks, labels; arrows between tasks agree with the calls that boundaries make (the model of execution) and all arrows join drawn ports for plans without broadcasts, without boundaries at the head of a stage, with coalesces into single tasks and operators whose children have no more partitions than the first. Refuted: nothing is drawn for broadcasts (C93_broadcasts_refuted); arrows to boxes that do not exist, in stages with a broadcast (C93_after_broadcasts_refuted); wrong arrows for coalesces into several tasks (C93_coalesces_refuted); arrows to missing ports of unions (C93_unions_refuted)."
  },
  {
   "property": "C94",
   "status": "partial",
   "theorems": [
    "C94_tasks_know_their_place",
    "C94_usual_builders_are_careful",
    "C94_stage_reads_all",
    "C94_rewrites_in_order",
    "C94_extensions_arrive_partial",
    "C94_shuffle_batch_size",
    "C94_session_options_refuted",
    "C94_inherited_batch_size_refuted",
    "C94_replaced_session_refuted"
   ],
   "note": "Proved: task number, count, feeds and worker URL for builders that add to the given session (all that the documentation shows); the stage then reads a shuffle exactly once (through C01); order of rewrite handlers; a non-zero shuffle_batch_size arrives. Partial: extensions arrive under the conditions of C41. Refuted: DataFusion's own options never reach workers (C94_session_options_refuted); shuffle_batch_size=0 means DataFusion's default, not the coordinator's batch size as documented (C94_inherited_batch_size_refuted); a builder that makes its own session is accepted and every task acts as task 0 of 1, so rows are repeated (C94_replaced_session_refuted)."
  },
  {
   "property": "C95",
   "status": "partial",
   "theorems": [
    "C95_feeds_reach_their_operators_partial",
    "C95_stage_reads_each_feed_once",
    "C95_feed_of_a_variant_refuted",
    "C95_variants_in_process_refuted",
    "C95_feed_inside_a_variant_refuted"
   ],
   "note": "Proved for plans whose per-task variants have no feeds and whose running operators do not share feeds: the plan that arrives (decoded on a remote worker, or the coordinator's own tree in process) has every fed operator that runs, and each of its partitions reads the provider's units of its own feed index with the right fan-out; over the tasks each feed index once. Refuted for per-task variants with feeds, a combination the documentation shows: a feed at the root of a variant is neither declared nor fed (remote workers fail, in-process tasks all read the first feeds with fan-out one), a feed below the root of a variant is declared but never fed and ends empty without an error."
  },
  {
   "property": "C96",
   "status": "proved",
   "theorems": [
    "C96_running_plan_complete",
    "C96_running_plan_unreadable_scans",
    "C96_shuffle_failures_reach_everyone",
    "C96_broadcast_failures_reach_everyone",
    "C96_coalesce_failures_are_seen",
    "C96_ended_results_are_complete",
    "C96_unreadable_scans_fail_the_query",
    "C96_undisturbed_executions"
   ],
   "note": "Proved for the plans of C48 and C89. Every partition of every node in every task has an outcome: ended normally with its rows, or not. Assumed of DataFusion's operators: one that ended normally in all its partitions has read its inputs to their normal ends; operators with a limit and joins that stop early are therefore out of scope. Workers that crash without an error (C28, C76) are excluded as in C89. With task counts chosen while the query runs: C96_running_plan_complete, C96_running_plan_unreadable_scans."
  },
  {
   "property": "C97",
   "status": "partial",
   "theorems": [
    "C97_dynamic_own_plans",
    "C97_dynamic_never_refused",
    "C97_dynamic_own_operators",
    "C97_dynamic_own_metrics",
    "C97_static_right_plans",
    "C97_again_after_cleanup",
    "C97_again_refuted",
    "C97_after_failure_refuted",
    "C97_together_refuted",
    "C97_metrics_refuted"
   ],
   "note": "Proved with dynamic task counts, where every execution has a query id of its own: own plans, never refused, no shared operators, own metrics. Without them all executions of a plan use the query id made at planning: proved that data requests still get the right plan for their task and that an execution is taken as the first was once the workers have cleaned up after the earlier ones (C97_again_after_cleanup). Refuted: an execution started after the end of an earlier one was seen can be refused, because a worker removes the task from its registry only after the message that lets the earlier execution end, or, without metrics, independently of it (C97_again_refuted); after an execution whose plan could not be built it is refused until the idle eviction (C97_after_failure_refuted); of two concurrent executions one gets the other's operators (C97_together_refuted); waiting for metrics returns at once with the earlier execution's (C97_metrics_refuted)."
  },
  {
   "property": "C98",
   "status": "proved",
   "theorems": [
    "C98_executions_are_beginnings",
    "C98_undisturbed_executions",
    "C98_rows_so_far",
    "C98_limit",
    "C98_offset",
    "C98_orders_so_far",
    "C98_running_plan_rows_so_far",
    "C98_running_plan_limit",
    "C98_rows_so_far_of_readable_scans",
    "C98_running_plan_rows_so_far_of_readable_scans"
   ],
   "note": "At every point of every execution, whatever failed or was abandoned, what was read of the partitions is the beginning of a complete execution (C98_executions_are_beginnings), hence C48 for the rows returned so far, C19 for LIMIT and OFFSET queries that ended or not, and C88 for the order. Hypotheses besides those of C48/C19/C88: DataFusion's operators are causal (node_reads in CutModel.v) and the plan has a complete execution at all (delivers \u2026 f0). With task counts chosen while the query runs: C98_running_plan_rows_so_far. C98_running_plan_limit: LIMIT with such task counts. C98_rows_so_far_of_readable_scans derives the existence of a complete execution from the scans instead of assuming it. C98_running_plan_rows_so_far_of_readable_scans: the same with task counts chosen while the query runs."
  },
  {
   "property": "C99",
   "status": "partial",
   "theorems": [
    "C99_only_what_was_asked_for",
    "C99_available_partitions_are_served",
    "C99_unavailable_partitions_are_refused",
    "C99_answered_or_refused_partial",
    "C99_backwards_panics",
    "C99_wide_requests",
    "C99_boundaries_are_served",
    "C99_boundaries_ask_forwards",
    "C99_started_streams_once",
    "C99_answered_or_refused_refuted",
    "C99_refused_without_effect_refuted"
   ],
   "note": "C99_only_what_was_asked_for (all requests), C99_available_partitions_are_served, C99_unavailable_partitions_are_refused; the requests of shuffles, broadcasts and coalesces are served (C99_boundaries_are_served, C99_boundaries_ask_forwards). Refuted that every request is answered or refused: a backwards range panics with overflow checks, a range of 2^60 partitions panics in any case (capacity overflow), and one of 2^40 ends the process if 16 TiB cannot be allocated, because the vector of streams is allocated before the number of partitions is looked at (C99_answered_or_refused_refuted; otherwise C99_answered_or_refused_partial). Refuted that a refused request has no effect: partitions in front of the missing one are executed, also if the compression setting is unknown, and those of a SamplerExec are then gone (C99_refused_without_effect_refuted). Streams of a sampled stage are handed out once (C99_started_streams_once)."
  },
  {
   "property": "C100",
   "status": "partial",
   "theorems": [
    "C100_limit",
    "C100_offset",
    "C100_order_by_limit",
    "C100_order_by_offset",
    "C100_over_the_network",
    "C100_can_run",
    "C100_ended_results_are_complete",
    "C100_rows_so_far",
    "C100_user_placed_same_rows",
    "C100_rows_or_an_error",
    "C100_constructors_qualify",
    "C100_partial_reduction_tree_qualifies",
    "C100_file_scans_qualify",
    "C100_variant_partitions_refuted",
    "C100_several_partitions_refuted",
    "C100_broadcast_for_its_readers_refuted"
   ],
   "note": "C100_user_placed_same_rows for plans in which every operator gets rows it can work with (SitedSpec.sited: keyed operators above a shuffle or in one task, operators on their whole input in one task, build sides broadcast, gatherings that know the consumers' task count) and whose leaves keep their partition count; C100_constructors_qualify (the exported constructors build such plans), C100_partial_reduction_tree_qualifies (the documented example, for all N and M), C100_file_scans_qualify. Refuted: leaf variants with another partition count than the leaf below a gathering boundary, which the documentation allows, lose rows silently (C100_variant_partitions_refuted); a root with several partitions is refused when executed (C100_several_partitions_refuted); a BroadcastExec made for its M readers duplicates rows (C100_broadcast_for_its_readers_refuted). With dynamic_task_count no such plan runs (C61). Not covered: limits in such plans (push_fetch is the identity on plans without limits). Over the network (C100_over_the_network), with failures anywhere (C100_ended_results_are_complete) and for reads that stopped early (C100_rows_so_far); if the scans can be read the plan can be executed (C100_can_run), so the theorems are about executions that exist. Queries with a limit: C100_limit, C100_offset (any window of the rows), C100_order_by_limit and C100_order_by_offset (the window of the sorted rows), where no sort reads from a gathering boundary directly (C19_sort_above_boundary_refuted). C100_rows_or_an_error: whatever number of partitions the plan has, a client gets the right rows or an error."
  },
  {
   "property": "C101",
   "status": "partial",
   "theorems": [
    "C101_memory_accounted",
    "C101_memory_bounded",
    "C101_release_is_finite",
    "C101_memory_released",
    "C101_readers_are_independent",
    "C101_readers_can_go_on",
    "C101_memory_limit_refuted",
    "C101_stops_without_readers_refuted"
   ],
   "note": "C101_memory_accounted and C101_memory_bounded (each batch once, in every reachable state), C101_memory_released with C101_release_is_finite, C101_readers_are_independent and C101_readers_can_go_on. Rust's reference counts are written out in the model. Refuted: the pool's limit is not respected, because the reservation is grown without asking (C101_memory_limit_refuted, for every limit; GreedyMemoryPool and FairSpillPool add without a check in grow); when all readers have taken and dropped their streams the input is read and cached to its end as long as the plan exists, which on a worker is until the coordinator closes the task (C101_stops_without_readers_refuted)."
  },
  {
   "property": "C102",
   "status": "partial",
   "theorems": [
    "C102_rows_in_order_partial",
    "C102_rows_in_order_refuted",
    "C102_totals",
    "C102_average",
    "C102_longest",
    "C102_rate_bounded",
    "C102_rate_approaches",
    "C102_paused",
    "C102_rate_counts_partial",
    "C102_rate_refuted",
    "C102_order_keys",
    "C102_order_is_visible_refuted",
    "C102_enter_opens_the_row",
    "C102_chosen_worker_moves_refuted"
   ],
   "note": "Proved: the totals, the order of rows (if the CPU usages are numbers), the average and the longest duration, the bounds and the convergence of the rate in exact arithmetic (f64 rounding is left out), the keys. Refuted: a worker that reports a CPU usage that is no number makes the comparison inconsistent, for which the standard library's sort may panic (C102_rows_in_order_refuted); the rows of new tasks are not counted while others end (C102_rate_refuted); on a narrow terminal the chosen column may not be drawn (C102_order_is_visible_refuted); the chosen row stays, not the chosen worker (C102_chosen_worker_moves_refuted)."
  },
  {
   "property": "C103",
   "status": "partial",
   "theorems": [
    "C103_bytes",
    "C103_rows",
    "C103_durations",
    "C103_rates",
    "C103_colours",
    "C103_next_unit_refuted"
   ],
   "note": "C103_bytes, C103_rows, C103_durations, C103_rates and C103_colours hold for all amounts, with IEEE doubles. The number shown may reach that of the next unit (C103_next_unit_refuted: 1024.0 KB, 1000.0K). The decimal form of doubles is Rust's library's, modelled as correctly rounded."
  },
  {
   "property": "C104",
   "status": "proved",
   "theorems": [
    "C104_inputs_first",
    "C104_route_send_sample",
    "C104_once",
    "C104_whole_plan",
    "C104_ends",
    "C104_succeeds",
    "C104_branches"
   ],
   "note": "Proved for all timings of a transition system of the futures of the planner: order, once, completeness, end, independence of branches. After a failure the model lets other branches go on for a while, since try_join_all looks at failures at once only with up to 30 children; so no claim is made that nothing is sent after a failure elsewhere (nothing above the failed stage is)."
  },
  {
   "property": "C105",
   "status": "proved",
   "theorems": [
    "C105_all_sent",
    "C105_inputs_first",
    "C105_once",
    "C105_stops",
    "C105_succeeds",
    "C105_numbers"
   ],
   "note": "Proved for all plans and all outcomes of routing and sending. Stages are taken to be local (a plan executed for the first time; C97 is about the others). That the head starts only after the sending returned is the order of two lines of DistributedExec::execute and not part of the model."
  }
 ]
}