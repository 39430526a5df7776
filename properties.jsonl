{"id": "C01", "title": "A hash shuffle loses and duplicates nothing", "statement": "Executing every partition of a network shuffle in every consumer task reads every partition of every producer task exactly once, and never asks a producer for a partition its stage head does not have. Hence the bag of rows seen by all consumers equals the bag of rows produced by all producers. A stage of several tasks that was not handed to workers is refused, never read in part.", "quantifier": "all numbers of producer tasks, consumer tasks and partitions, all rows, all hash functions", "why_tests_cant": "Tests fix a handful of task/partition counts; an offset or range mistake shows only for particular combinations.", "anchors": ["src/execution_plans/network_shuffle.rs: NetworkShuffleExec::execute, producer_head", "src/execution_plans/common.rs: scale_partitioning", "src/distributed_planner/network_boundary.rs: ProducerHead::insert", "src/worker/impl_execute_task.rs: Worker::execute_task"]}
{"id": "C02", "title": "Rows with equal keys meet in the same consumer partition", "statement": "For a network shuffle, all rows whose key hashes equally, whichever producer task emits them, are delivered to one single (consumer task, partition) pair; and two shuffles with the same partition count feeding the same consumer stage (the two sides of a partitioned join) send equal hashes to the same pair.", "quantifier": "all task counts, partition counts, hash values and rows", "why_tests_cant": "Depends on the arithmetic relation between the producer-side modulus and the consumer-side offsets for all sizes.", "anchors": ["src/execution_plans/network_shuffle.rs: execute, producer_head", "src/distributed_planner/prepare_network_boundaries.rs: prepare_network_boundaries"]}
{"id": "C03", "title": "Every broadcast consumer receives the whole build side exactly once", "statement": "Executing all partitions of a network broadcast inside one consumer task yields every row of every producer task exactly once, for each consumer task, and never asks for a partition that does not exist.", "quantifier": "all numbers of producer tasks, consumer tasks, partitions, all data", "why_tests_cant": "Offsets, virtual partition numbering and the modulo inside the broadcast operator must agree for all sizes.", "anchors": ["src/execution_plans/network_broadcast.rs: execute, producer_head", "src/execution_plans/broadcast.rs: BroadcastExec::new, execute", "src/distributed_planner/network_boundary.rs: ProducerHead::insert"]}
{"id": "C04", "title": "A task coalesce reads every producer partition exactly once", "statement": "When a network coalesce is created for N producer tasks and M consumer tasks, executing all its output partitions in all M consumer tasks reads every (producer task, partition) pair exactly once; surplus partitions are empty; groups of producer tasks are contiguous, ordered and their sizes differ by at most one.", "quantifier": "all N, M>=1, all partition counts >=1, all data", "why_tests_cant": "Uneven group sizes and padding create boundary cases for infinitely many (N, M) pairs.", "anchors": ["src/execution_plans/network_coalesce.rs: try_from_stage, execute, task_group"]}
{"id": "C05", "title": "Rescaling a coalesce to another producer task count keeps it exact", "statement": "Replacing the input stage of a network coalesce by one with a different number of tasks leaves it reading every producer partition exactly once (documented: the properties are rescaled with the stage).", "quantifier": "all old and new producer task counts, consumer task counts, partition counts", "why_tests_cant": "Integer division in the rescaling is exact only for some combinations.", "anchors": ["src/execution_plans/network_coalesce.rs: with_input_stage, execute", "src/coordinator/prepare_dynamic_plan.rs: PlanReconstructor"]}
{"id": "C06", "title": "Preparing the head of a stage never removes an operator the boundary did not add", "statement": "Giving a stage the head its network boundary asks for keeps the stage's own output: for a coalesce (no specific head) the plan that is executed has the same partitions and rows as the plan the user or planner put below it.", "quantifier": "all stage plans", "why_tests_cant": "Only plans whose top operator is a repartition or broadcast expose it.", "anchors": ["src/distributed_planner/network_boundary.rs: ProducerHead::insert", "src/execution_plans/network_coalesce.rs: producer_head, try_new", "src/worker/task_data.rs: TaskData::plan"]}
{"id": "C07", "title": "A union spreads every child over its tasks exactly once, within caps", "statement": "Distributing a union with any list of weighted children over a task budget gives exactly `budget` slots; every child gets a task count of at least 1 and never above its cap; and each of its task indexes 0..count-1 appears in exactly one slot with that same count. A child gets at least the whole tasks of its share of the budget, up to its cap, and the tasks left over go to the children with the largest remainders first. No slot arithmetic goes out of bounds.", "quantifier": "all child lists, non-negative finite weights, caps and budgets (weights as the planner produces them)", "why_tests_cant": "Largest-remainder allocation over floating point shares: rounding, ties and caps interact for infinitely many inputs.", "anchors": ["src/execution_plans/children_isolator_union.rs: split_children, from_children_and_weights, child_task_counts", "src/distributed_planner/inject_network_boundaries.rs: propagate_task_count_until_network_boundaries"]}
{"id": "C08", "title": "A distributed union returns every child's rows exactly once", "statement": "Executing all advertised partitions of the union in all its tasks executes every partition of every child task exactly once, with the child's own task context, and everything else is an empty stream.", "quantifier": "all children, partition counts, weights, budgets", "why_tests_cant": "Sequential partition offsets across a per-task subset of children; advertised count is a maximum over tasks.", "anchors": ["src/execution_plans/children_isolator_union.rs: execute, from_children_and_weights"]}
{"id": "C09", "title": "Sending a task only its own part of the plan does not change what the task computes", "statement": "Trimming a plan for one task (other union children replaced by empty placeholders, per-task leaf variants selected) yields a plan that, executed by that task, returns for every partition exactly what the untrimmed plan would return in that task; and the trimmed plan contains no per-task leaf holder that cannot be serialised.", "quantifier": "all plan trees, all task contexts, all partitions", "why_tests_cant": "Nested unions change the task context recursively; needs induction over plans.", "anchors": ["src/coordinator/query_coordinator.rs: task_specialized_plan", "src/execution_plans/children_isolator_union.rs: to_task_specialized", "src/execution_plans/distributed_leaf.rs: to_task_specialized, execute", "src/common/recursion.rs: transform_down_with_dt_ctx"]}
{"id": "C10", "title": "Combining task-count wishes is order independent and caps always win", "statement": "Merging task count annotations is commutative, associative and idempotent; any hard maximum beats any wish, the smallest maximum wins, otherwise the largest wish; limiting to a maximum never raises a count and never exceeds the limit (for limits >= 1).", "quantifier": "all annotations and limits, all orders of children", "why_tests_cant": "Algebraic laws over all values.", "anchors": ["src/events/desired_task_count.rs: TaskCountAnnotation::merge, limit, as_usize"]}
{"id": "C11", "title": "Planning respects task limits", "statement": "In any plan produced by the planner, every stage's task count is at least 1 and at most the configured maximum, and never above a hard maximum announced by any leaf of that stage (other than below a union, whose children are isolated).", "quantifier": "all plan trees, all leaf annotations >= 1, all limits >= 1", "why_tests_cant": "Induction over arbitrary plans and arbitrary leaf answers.", "anchors": ["src/distributed_planner/inject_network_boundaries.rs: _inject_network_boundaries", "src/events/desired_task_count.rs"]}
{"id": "C12", "title": "Planning cuts stages exactly at shuffles, broadcasts and coalesces", "statement": "Injecting boundaries adds network boundaries only, and exactly: above every hash repartition, above every broadcast marker, and below every coalesce/sort-merge; removing the boundaries gives back the input plan (up to leaf scaling and union weights).", "quantifier": "all plan trees", "why_tests_cant": "Structural induction over all plans.", "anchors": ["src/distributed_planner/inject_network_boundaries.rs"]}
{"id": "C13", "title": "Boundaries between single tasks are elided, the remaining stages are numbered uniquely", "statement": "After preparation, no boundary joins a one-task producer to a one-task consumer, all stage numbers are distinct and consecutive from 1 in bottom-up order, every stage carries the query id, and every producer head is scaled for the task count of the stage that consumes it.", "quantifier": "all plan trees with boundaries", "why_tests_cant": "The consumer task count is threaded through an explicit stack while the tree is rewritten.", "anchors": ["src/distributed_planner/prepare_network_boundaries.rs", "src/common/recursion.rs: transform_up_with_task_count"]}
{"id": "C14", "title": "Tree walks hand every node the right task context", "statement": "The stack-based rewrites and visits used by the planner and coordinator visit the nodes in pre-order (resp. post-order), give every node the task context / task count of the stage or union slot it runs in, and skip exactly the union children that the task does not run and everything below network boundaries.", "quantifier": "all plan trees, all callbacks that keep the number of children", "why_tests_cant": "Implicit stack discipline across recursion; one wrong push misaligns all later nodes.", "anchors": ["src/common/recursion.rs: apply_with_dt_ctx, transform_down_with_dt_ctx, transform_up_with_task_count, transform_down_with_task_count"]}
{"id": "C15", "title": "Joins that need the whole build side and cannot be broadcast run in one task", "statement": "In the plan produced by the planner, a collect-left hash join, nested loop join or cross join that is not broadcast-safe (or when broadcasting is off) belongs to a stage with one task.", "quantifier": "all plan trees, join types and settings", "why_tests_cant": "Induction over plans; a missed case gives silently duplicated rows.", "anchors": ["src/distributed_planner/inject_network_boundaries.rs", "src/distributed_planner/insert_broadcast.rs: can_broadcast_left_input, is_left_broadcast_safe"]}
{"id": "C16", "title": "Broadcast joins return the single-node result for the join types that are allowed", "statement": "For inner, right, right-semi, right-anti and right-mark joins: giving each task the full left side and a disjoint share of the right side and concatenating the task results gives the single-node join result, whatever the join condition and the split.", "quantifier": "all left and right tables, all join conditions, all splits over all task counts", "why_tests_cant": "Algebraic equivalence over all data.", "anchors": ["src/distributed_planner/insert_broadcast.rs: is_left_broadcast_safe, insert_broadcast"]}
{"id": "C17", "title": "The join types excluded from broadcasting are exactly the unsafe ones", "statement": "For every other join type (left, full, left-semi, left-anti, left-mark) there is data on which broadcasting would return a different bag of rows than a single node.", "quantifier": "all join types (existence of data)", "why_tests_cant": "Completeness of a decision table.", "anchors": ["src/distributed_planner/insert_broadcast.rs: is_left_broadcast_safe"]}
{"id": "C18", "title": "Turning a collect-left join into a partitioned join preserves the result", "statement": "Hash partitioning both sides on the join keys and joining partition by partition gives the same bag as joining the whole tables, for every join type and every number of partitions, when the condition implies equal keys.", "quantifier": "all tables, hash functions, partition counts, join types", "why_tests_cant": "Equivalence over all data and hash functions, including outer joins and NULL-like unmatched rows.", "anchors": ["src/distributed_planner/normalize_collect_joins.rs: normalize_collect_joins, collect_left_to_partitioned"]}
{"id": "C19", "title": "Pushing a limit below the network returns a valid limit result", "statement": "Pushing the fetch of a limit into each producer task (through a projection, never weakening an existing smaller fetch) still yields at most the limited number of rows, all of them rows of the unlimited result, as many as the limit allows, and the same first rows when the input is merged in sort order; offsets are added to the fetch and an overflowing sum is not pushed.", "quantifier": "all inputs, offsets, fetches, numbers of tasks and partitions", "why_tests_cant": "Needs an argument over all data distributions.", "anchors": ["src/distributed_planner/push_fetch_into_network_coalesce.rs: fetch_required_from_child", "src/execution_plans/network_coalesce.rs: with_fetch_on_input_stage, apply_fetch_through_projection"]}
{"id": "C20", "title": "A broadcast build side with a limit is the same for all consumers", "statement": "When the build side of a broadcast join carries a fetch, all consumer tasks join against the same limited build side.", "quantifier": "all data, all arrival orders", "why_tests_cant": "Depends on arrival order at each consumer.", "anchors": ["src/distributed_planner/insert_broadcast.rs: insert_broadcast (fetch kept on the coalesce above)"]}
{"id": "C21", "title": "Re-aggregating partial aggregates below a shuffle preserves results", "statement": "Inserting an additional partial-reduce aggregation below a shuffle leaves the final aggregate of every group unchanged for any merge operation that is associative and commutative, any split of the rows and any shuffle.", "quantifier": "all rows, groups, splits, commutative-monoid aggregates", "why_tests_cant": "Equivalence over all data.", "anchors": ["src/distributed_planner/partial_reduce_below_network_shuffles.rs"]}
{"id": "C22", "title": "Scaling a file scan reads every file exactly once", "statement": "Splitting a file scan over tasks assigns every file group to exactly one task and every task gets an equally partitioned scan; the tasks together read exactly the original files.", "quantifier": "all lists of file groups, all task counts >= 1", "why_tests_cant": "Group counts not divisible by the task count are the boundary case.", "anchors": ["src/events/defaults/file_scan_config.rs: file_scan_config_scale_up_leaf_node, rebalance_round_robin", "src/execution_plans/distributed_leaf.rs: try_new"]}
{"id": "C23", "title": "A file scan always asks for at least one task", "statement": "The default task count wish for a file scan is at least one, so planning a stage with such a leaf never yields zero tasks.", "quantifier": "all file sizes and settings", "why_tests_cant": "Zero-size inputs and zero settings are corner cases of an arithmetic formula.", "anchors": ["src/events/defaults/file_scan_config.rs: file_scan_config_desired_task_count", "src/distributed_planner/inject_network_boundaries.rs"]}
{"id": "C24", "title": "A scaled leaf honours the partitions it advertises", "statement": "Executing any advertised partition of a scaled leaf in any of its tasks executes an existing partition of the plan chosen for that task.", "quantifier": "all originals, all variant lists, all task contexts", "why_tests_cant": "Original and variants may have different partition counts.", "anchors": ["src/execution_plans/distributed_leaf.rs: try_new, execute"]}
{"id": "C25", "title": "Default routing returns one worker per task and balances load", "statement": "With at least one known worker, default routing returns exactly one known worker URL per task, and the number of tasks given to any two workers differs by at most one; with no workers it fails.", "quantifier": "all worker lists, task counts and random starting points", "why_tests_cant": "Random start offset and wrap-around for all sizes.", "anchors": ["src/events/defaults/routing.rs: random_routing", "src/coordinator/query_coordinator.rs: routed_urls"]}
{"id": "C26", "title": "Event handlers run in reverse registration order with user handlers first", "statement": "As documented, when several user handlers are registered for an event, the last registered is consulted first, and built-in handlers are only consulted if no user handler answers.", "quantifier": "all registration histories and handler behaviours", "why_tests_cant": "Ordering claim over all registration sequences.", "anchors": ["src/events/common.rs: EventHandlerChain", "src/events/route_tasks.rs docs 40-45", "src/events/scale_up_leaf_node.rs docs 39-43"]}
{"id": "C27", "title": "Every broadcast consumer stream sees the full input sequence in order, whatever the interleaving", "statement": "For any interleaving of the producer and the consumers' polls, each consumer stream yields a prefix of the input messages in order; when it ends, it has yielded all of them (up to and including the first error); the input partition is executed once; and asking for one more consumer than declared fails instead of stealing data.", "quantifier": "all schedules, all inputs, all numbers of consumers and partitions", "why_tests_cant": "Notification channel coalesces wake-ups; only exhaustive interleaving reasoning covers lost or stale notifications.", "anchors": ["src/execution_plans/broadcast.rs: BroadcastExec::execute, BroadcastQueue, BroadcastConsumer::poll_next"]}
{"id": "C28", "title": "A stream that ends without error delivered everything, even if a producer crashes", "statement": "If the background task feeding a stream dies (panic), the consumer observes an error rather than a normal end of stream.", "quantifier": "all crash points of broadcast producers and of worker-side partition streams", "why_tests_cant": "Crash points cannot be enumerated by tests.", "anchors": ["src/execution_plans/broadcast.rs: execute (SpawnedTask)", "src/protocol/grpc/spawn_select_all.rs: spawn_select_all", "src/protocol/grpc/worker_client.rs: execute_task demux task"]}
{"id": "C29", "title": "Each remote partition is opened once and handed out once", "statement": "For any order and interleaving of partition requests inside one boundary node, at most one request is sent per producer task; each partition stream is handed to at most one caller; a second caller gets an error, never another caller's rows; a failed connection fails every partition of that producer.", "quantifier": "all interleavings of partition requests", "why_tests_cant": "Concurrency around lazily initialised shared state.", "anchors": ["src/worker/worker_connection_pool.rs: WorkerConnectionPool::execute"]}
{"id": "C30", "title": "Multiplexing partitions over one connection preserves per-partition order and hides nothing", "statement": "For any interleaving of worker-side partition streams and any consumer polling order, each consumer partition receives exactly the messages of its own partition in order; it ends normally only after all of them were delivered; an error in any partition or message reaches every live partition.", "quantifier": "all numbers of partitions, message sequences, interleavings, drops of consumers", "why_tests_cant": "Requires reasoning over every interleaving and drop point.", "anchors": ["src/protocol/grpc/worker_service.rs: execute_task", "src/protocol/grpc/spawn_select_all.rs", "src/protocol/grpc/worker_client.rs: execute_task, fanout"]}
{"id": "C31", "title": "Dropping one partition does not stall its siblings", "statement": "If a consumer drops one partition stream early, the other partitions of the same connection still receive all their data (documented in the code as the reason not to exit).", "quantifier": "all drop points, message sizes, buffer budgets", "why_tests_cant": "Needs a liveness argument over the buffer accounting; stalls show only when dropped bytes exceed the budget.", "anchors": ["src/protocol/grpc/worker_client.rs: execute_task (memory_reservation, buffer_budget_bytes)"]}
{"id": "C32", "title": "Buffered bytes are accounted exactly and bounded", "statement": "At any time the memory reserved for a connection equals the bytes currently buffered for live partitions (zero when everything is consumed) and never exceeds the budget by more than one message.", "quantifier": "all histories of one connection", "why_tests_cant": "Invariant over histories.", "anchors": ["src/protocol/grpc/worker_client.rs: execute_task", "src/protocol/grpc/spawn_select_all.rs"]}
{"id": "C33", "title": "A task's plan is set once and every reader sees that plan", "statement": "The slot for a task's plan accepts only the first write; later writes fail and change nothing; every successful read, before or after waiting, returns that first value; a read fails only by timing out before any write.", "quantifier": "all interleavings of writers and readers", "why_tests_cant": "Concurrency over a watch channel.", "anchors": ["src/worker/single_write_multi_read.rs: write, read", "src/worker/impl_coordinator_channel.rs", "src/worker/impl_execute_task.rs"]}
{"id": "C34", "title": "Data requests and plans may arrive in any order", "statement": "For every interleaving of plan delivery, data requests and end-of-query, a data request for a task either gets streams of the plan that the coordinator sent for that very task, or an error; never another task's plan; and after the query ended the worker keeps no entry for tasks that were not asked for again.", "quantifier": "all histories of requests over many tasks and queries", "why_tests_cant": "History-dependent cache state.", "anchors": ["src/worker/impl_coordinator_channel.rs", "src/worker/impl_execute_task.rs", "src/worker/task_data.rs", "src/worker/worker_service.rs"]}
{"id": "C35", "title": "Collecting metrics after a finished query terminates", "statement": "Once a query's results are fully read, waiting for the metrics of all its tasks terminates.", "quantifier": "all plans and all ways a consumer may stop early", "why_tests_cant": "A task whose output is never requested never reports; needs a reachability argument.", "anchors": ["src/coordinator/distributed.rs: wait_for_metrics", "src/coordinator/metrics_store.rs", "src/worker/impl_coordinator_channel.rs (final_plan)"]}
{"id": "C36", "title": "Metrics are attributed to the node that produced them", "statement": "The metrics a task reports are attached, in the displayed plan, to the same operators that produced them, for every task, including below nested unions.", "quantifier": "all plan trees and task contexts", "why_tests_cant": "Relies on two separate traversals of two different (trimmed vs full) plans being aligned.", "anchors": ["src/worker/impl_coordinator_channel.rs: send_metrics_via_channel", "src/metrics/task_metrics_rewriter.rs: stage_metrics_rewriter", "src/common/recursion.rs: apply_with_dt_ctx"]}
{"id": "C37", "title": "Sampling a stream does not change it", "statement": "A sampled partition yields exactly the messages of its input in order, whatever was peeked before it was executed; sampling is started once.", "quantifier": "all streams, peek amounts and interleavings", "why_tests_cant": "State machine over arbitrary streams.", "anchors": ["src/execution_plans/sampler.rs: SamplerExec, RecordBatchPeek"]}
{"id": "C38", "title": "Work units reach the right partition of the right task, in order, exactly once", "statement": "Each work unit produced by the feed with index i of a node is delivered to partition i mod P of task i / P (P partitions per task), exactly once and in production order, and a partition's feed ends only after all its units were delivered or the query was cut short.", "quantifier": "all partitions, tasks, feeds, batchings and interleavings", "why_tests_cant": "Interleaving, batching and index arithmetic.", "anchors": ["src/coordinator/query_coordinator.rs: coordinator_to_worker_task", "src/work_unit_feed/remote_work_unit_feed.rs", "src/worker/impl_coordinator_channel.rs"]}
{"id": "C39", "title": "A failing work unit feed fails the query", "statement": "If any work unit feed yields an error, the query result stream never ends successfully: when it ends, it ends with an error.", "quantifier": "all feeds and error positions", "why_tests_cant": "Error may race with normal completion.", "anchors": ["src/coordinator/query_coordinator.rs: coordinator_to_worker_task, drain_pending_tasks", "src/coordinator/distributed.rs: execute"]}
{"id": "C40", "title": "Receiving a work unit never fails because of clocks", "statement": "Delivering a work unit succeeds for all clock readings of coordinator and worker.", "quantifier": "all timestamps", "why_tests_cant": "Clock skew is not reproducible in tests.", "anchors": ["src/work_unit_feed/remote_work_unit_feed.rs: RemoteFeedProvider::feed"]}
{"id": "C41", "title": "Configuration set on the coordinator reaches the worker unchanged", "statement": "Reading the propagated headers with the same extension type restores every option value set on the coordinator.", "quantifier": "all option keys and values", "why_tests_cant": "String prefix handling over all keys and values.", "anchors": ["src/config_extension_ext.rs: get_config_extension_propagation_headers, set_distributed_option_extension_from_headers"]}
{"id": "C42", "title": "User headers cannot change engine configuration", "statement": "Passthrough headers accepted from the user never change the configuration restored on the worker.", "quantifier": "all header names and values", "why_tests_cant": "Adversarial names.", "anchors": ["src/passthrough_headers.rs: set_passthrough_headers", "src/config_extension_ext.rs"]}
{"id": "C43", "title": "Plans and messages survive the wire", "statement": "Decoding an encoded stage, union node, task key, data request, work unit or load report returns the same value.", "quantifier": "all values", "why_tests_cant": "Round trip over an infinite domain.", "anchors": ["src/codec/distributed_codec.rs", "src/protocol/grpc/worker_client.rs: encode_*", "src/protocol/grpc/worker_service.rs: decode_*", "src/common/uuid.rs"]}
{"id": "C44", "title": "Errors keep their kind and message across the network", "statement": "An error raised on a worker is reported by the coordinator with the same kind and text, through any nesting of context, collections and shared errors.", "quantifier": "all error values", "why_tests_cant": "Recursive data.", "anchors": ["src/protocol/grpc/errors/datafusion_error.rs", "src/protocol/grpc/errors/mod.rs"]}
{"id": "C45", "title": "Merging task metrics does not depend on order", "statement": "Aggregating minimum, maximum, first-seen, average, byte and gauge metrics of several tasks gives the minimum, maximum, ... over all tasks, independent of merge order and of tasks that recorded nothing.", "quantifier": "all multisets of recorded values, all merge orders", "why_tests_cant": "Algebraic law, including the zero-as-unset encoding.", "anchors": ["src/metrics/latency_metric.rs", "src/metrics/max_gauge_metric.rs", "src/metrics/bytes_metric.rs"]}
{"id": "C46", "title": "Runtime task-count decisions stay within bounds", "statement": "The task count chosen at run time from observed statistics is at least 1 and at most the configured maximum, for all statistics.", "quantifier": "all statistics and settings", "why_tests_cant": "Arithmetic over all inputs, including zero and unknown statistics.", "anchors": ["src/coordinator/prepare_dynamic_plan.rs"]}
{"id": "C47", "title": "Runtime statistics of a stage that made no progress are not inflated", "statement": "If samples arrive before any leaf row was pulled, the estimated row count falls back to a finite estimate (documented in the code comment).", "quantifier": "all sample sets", "why_tests_cant": "Division by a zero progress only in rare timing.", "anchors": ["src/coordinator/prepare_dynamic_plan.rs: gather_runtime_statistics"]}
{"id": "C48", "title": "Distributed execution returns the same rows as single-node execution", "statement": "For every plan built from scans, row-wise operators, hash repartitions, partial/final aggregations, partitioned and broadcast joins, unions and coalesces, executing the distributed plan produced by the planner over any number of tasks returns the same bag of rows as executing the original plan on one node.", "quantifier": "all such plans, data, hash functions, task counts", "why_tests_cant": "The whole-pipeline statement quantifies over all plans and data.", "anchors": ["src/distributed_planner/distributed_query_planner.rs: create_distributed_plan", "src/distributed_planner/inject_network_boundaries.rs", "src/distributed_planner/prepare_network_boundaries.rs", "src/coordinator/query_coordinator.rs", "src/execution_plans/network_*.rs"]}
{"id": "C49", "title": "A plan that does not need distribution is returned unchanged", "statement": "If no network boundary remains after planning, the planner returns the very plan it was given; an already distributed plan is returned as is.", "quantifier": "all plans", "why_tests_cant": "Structural.", "anchors": ["src/distributed_planner/distributed_query_planner.rs: create_distributed_plan"]}
{"id": "C50", "title": "Streams of the same connection do not wait for each other", "statement": "A consumer that polls its partition stream keeps receiving that partition's data even if another partition stream of the same connection exists but is not being polled.", "quantifier": "all data sizes, budgets and polling orders", "why_tests_cant": "Needs a particular order of polls and sizes around the shared byte budget.", "anchors": ["src/protocol/grpc/worker_client.rs: execute_task"]}
{"id": "C51", "title": "Every buffer budget lets the data through", "statement": "Whatever byte budget is configured for worker connections, consumers that keep polling receive all data of their partitions.", "quantifier": "all budgets, including zero, all data and schedules", "why_tests_cant": "Liveness over all schedules and all settings.", "anchors": ["src/protocol/grpc/worker_client.rs: execute_task", "src/distributed_ext.rs: set_distributed_worker_connection_buffer_budget_bytes"]}
{"id": "C52", "title": "Operators that fold all partitions into one run in a single task", "statement": "In the plan produced by the planner, a coalesce or sort-preserving merge belongs to a stage with one task, unless it sits on a broadcast, so that its single output partition is the whole result and not one task's share of it.", "quantifier": "all plan trees and settings", "why_tests_cant": "Depends on the interplay of task-count merging and boundary placement for every plan shape; the shapes where it fails do not occur in the test queries.", "anchors": ["src/distributed_planner/inject_network_boundaries.rs: _inject_network_boundaries, CardinalityBasedNetworkBoundaryBuilder::build"]}
{"id": "C53", "title": "Swapping the sides of a nested loop join preserves the result and makes it distributable", "statement": "A nested loop join whose inputs are exchanged (with the join type mirrored and the columns restored) returns the same bag of rows; the swapped join can be broadcast; and every join is either broadcast, restricted to one task, or partitioned.", "quantifier": "all join types, conditions and tables", "why_tests_cant": "Must hold for every join type, condition and data.", "anchors": ["src/distributed_planner/normalize_collect_joins.rs: normalize_collect_joins", "src/distributed_planner/insert_broadcast.rs: is_left_broadcast_safe", "src/distributed_planner/inject_network_boundaries.rs: _inject_network_boundaries"]}
{"id": "C54", "title": "Operators that need their whole input in one partition run in a single task", "statement": "If an operator requires a single input partition (for example a window function without partitioning, a single-mode aggregation or a global limit) and its input has one partition, then in the distributed plan one task executes it, so that the one partition it sees is the whole input and not one task's share.", "quantifier": "all plan trees that meet DataFusion's distribution requirements, all settings", "why_tests_cant": "the planner never looks at the requirement; whether several tasks execute the operator depends on everything below it in its stage, so sample plans do not settle it", "anchors": ["src/distributed_planner/inject_network_boundaries.rs: inject_network_boundaries, propagate_task_count_until_network_boundaries", "src/distributed_planner/insert_broadcast.rs: insert_broadcast_execs"]}
{"id": "C55", "title": "A satisfied query does not wait for the rest of its work unit feeds", "statement": "Once the head stage has produced all its rows (for example because a LIMIT is satisfied) the result stream ends, even if a work unit feed that no leaf reads any more is still open.", "quantifier": "all feeds, all interleavings of providers, coordinator, workers and readers", "why_tests_cant": "needs a feed that never ends; a test with finite feeds always passes", "anchors": ["src/coordinator/distributed.rs: execute", "src/coordinator/query_coordinator.rs: coordinator_to_worker_task, drain_pending_tasks"]}
{"id": "C56", "title": "A query that ended without an error read complete work unit feeds", "statement": "If the result stream ends without an error then every work unit feed was read to its end, and every leaf that saw the end of its feed was given all its units, also when a connection to a worker fails at any moment.", "quantifier": "all crash points of the coordinator's connections, all settings, all interleavings", "why_tests_cant": "the loss depends on when a connection fails relative to the end of the worker's answers", "anchors": ["src/coordinator/query_coordinator.rs: send_plan_task", "src/worker/impl_coordinator_channel.rs: coordinator_channel", "src/distributed_planner/distributed_config.rs: collect_metrics"]}
{"id": "C57", "title": "User headers accompany every request made for the query", "statement": "Headers set by the user for a query are part of every request made to a worker on behalf of that query, both the requests that send plans and the requests that read data, whether the coordinator or another worker makes them.", "quantifier": "all header maps, all sessions, all requests of a query", "why_tests_cant": "needs a deployment with several stages and requests observed between workers, for all header maps", "anchors": ["src/passthrough_headers.rs: get_passthrough_headers", "src/coordinator/query_coordinator.rs: send_plan_task", "src/worker/worker_connection_pool.rs: get_or_init_worker_connection", "src/worker/impl_coordinator_channel.rs: coordinator_channel"]}
{"id": "C58", "title": "Load reports of sampled partitions are true and complete", "statement": "What a sampled partition reports to the coordinator (rows, bytes per column, distinct and null ratios, end of stream) describes exactly a beginning of that partition's stream, every partition that finished sampling before the stage was read reports, and an end-of-stream mark is only sent when the described rows are all rows of the partition.", "quantifier": "all input streams (batches, pauses, errors), all interleavings of sampling, execution, reading and dropping, all choices of sampled rows", "why_tests_cant": "depends on when the input pauses relative to the sampling task and on the order of execution and sampling", "anchors": ["src/execution_plans/sampler.rs: LoadInfoDropHandler, RecordBatchPeek, PartitionSampler::kick_off, SamplerExec::execute"]}
{"id": "C59", "title": "Memory held by sampling is accounted and given back", "statement": "At every moment the memory accounted for a sampled partition is the size of the batches that were read ahead and not yet handed to the consumer, and it is zero once the consumer has read the partition to its end or dropped it.", "quantifier": "all input streams, all interleavings of sampling, reading and dropping", "why_tests_cant": "leaks show only for particular orders of errors, drops and reads", "anchors": ["src/execution_plans/sampler.rs: RecordBatchPeek, PartitionSampler::kick_off"]}
{"id": "C60", "title": "Task counts chosen at run time do not change the result", "statement": "With task counts chosen while the query runs, the query returns the same bag of rows as on one node, whatever costs are observed in whichever stage and in whichever order the stages are numbered.", "quantifier": "all plans of the supported operators, all data, all settings, all observed costs, all executions", "why_tests_cant": "the chosen plan depends on sizes and timing observed at run time; a test sees one choice", "anchors": ["src/coordinator/prepare_dynamic_plan.rs: prepare_dynamic_plan", "src/distributed_planner/inject_network_boundaries.rs: inject_network_boundaries", "src/coordinator/distributed.rs: execute"]}
{"id": "C61", "title": "Plans with boundaries placed by the user run under run-time task counts", "statement": "A plan with network boundaries placed by the user that the planner accepts also runs when task counts are chosen at run time.", "quantifier": "all plans with user-placed boundaries, all observations", "why_tests_cant": "fails for every such plan with a stage of several tasks, but no test combines the two features", "anchors": ["src/coordinator/prepare_dynamic_plan.rs: prepare_dynamic_plan", "src/stage.rs: LocalStage::execute", "src/distributed_planner/distributed_query_planner.rs"]}
{"id": "C62", "title": "Scale-up handlers are asked about leaves only", "statement": "The handlers that specialize leaves for a task count are asked about leaves of the user's plan; what they would answer for network boundaries has no effect.", "quantifier": "all handlers, plans and settings", "why_tests_cant": "depends on the handler a user writes; the built-in ones recognise their own leaves only", "anchors": ["src/events/scale_up_leaf_node.rs: ScaleUpLeafNodeEvent", "src/distributed_planner/inject_network_boundaries.rs: propagate_task_count_until_network_boundaries"]}
{"id": "C63", "title": "The plan shown for run-time task counts is the plan that ran", "statement": "After the stages were sent to the workers, the plan kept for display (and for attributing metrics) has every stage, each below its boundary, with the task counts and stage heads that were executed.", "quantifier": "all plans, observations and stage numberings without repeated numbers", "why_tests_cant": "the plan is put together from pieces stored in the order in which stages finished", "anchors": ["src/coordinator/prepare_dynamic_plan.rs: PlanReconstructor::reconstruct"]}
{"id": "C64", "title": "Run-time statistics extrapolate the sample", "statement": "The rows estimated for a stage at run time are the rows sampled, scaled to all partitions of the stage and divided by the completed part of the stage (the rows read from leaves that announce how many they have, all of it if the sampled partitions ended, one fifth if nothing is known), up to the rounding of 32-bit floats and never to zero; bytes are scaled like rows; only as many reports are waited for as are needed.", "quantifier": "all reports, partition counts, announced leaf sizes", "why_tests_cant": "32-bit float rounding and integer truncation depend on the numbers observed at run time", "anchors": ["src/coordinator/prepare_dynamic_plan.rs: gather_runtime_statistics", "src/common/vec.rs"]}
{"id": "C65", "title": "Run-time sampling always ends", "statement": "Sampling of a stage always comes to its end: whatever data the stage's input has and however it is distributed over partitions, enough partitions report (or the query fails), so that the query goes on.", "quantifier": "all input data and distributions over partitions, all schedules, all connection budgets", "why_tests_cant": "needs skewed data of more than the connection budget: a test with small data never blocks", "anchors": ["src/coordinator/prepare_dynamic_plan.rs: gather_runtime_statistics", "src/execution_plans/sampler.rs: PartitionSampler::kick_off", "src/protocol/grpc/worker_client.rs: execute_task"]}
{"id": "C66", "title": "Estimated null and distinct counts do not exceed the estimated rows", "statement": "The null counts and distinct counts estimated for each column at run time are at most the estimated number of rows.", "quantifier": "all reports of workers", "why_tests_cant": "float averages and products might round up past the number of rows for particular values", "anchors": ["src/coordinator/prepare_dynamic_plan.rs: gather_runtime_statistics", "src/common/vec.rs: vec_avg_reduce", "src/execution_plans/sampler.rs: PartitionSampler::kick_off"]}
{"id": "C67", "title": "Statistics marked exact are exact", "statement": "When the run-time statistics say that the number of rows of a stage is exactly n, then the stage produces n rows.", "quantifier": "all inputs and all timings of the sampled partitions", "why_tests_cant": "depends on pauses of the input between sampling and execution", "anchors": ["src/coordinator/prepare_dynamic_plan.rs: gather_runtime_statistics, zero_stats", "src/execution_plans/sampler.rs"]}
{"id": "C68", "title": "A plan costs at least what its parts cost", "statement": "The computing, memory and network cost estimated for a plan are each at least the cost estimated for every subplan of it.", "quantifier": "all plans, statistics and sizes", "why_tests_cant": "fails only for sizes whose product exceeds 64 bits; tests use small tables", "anchors": ["src/distributed_planner/statistics/cost.rs: calculate_cost", "src/distributed_planner/statistics/complexity.rs: Complexity::cost"]}
{"id": "C69", "title": "More data never costs less or gets fewer tasks", "statement": "If every operator of a plan handles at least as many bytes, the plan's estimated cost does not get smaller and it gets at least as many tasks; fewer bytes per partition or fewer partitions per task never give fewer tasks.", "quantifier": "all plans, all pairs of statistics, all settings", "why_tests_cant": "monotonicity relates all pairs of inputs", "anchors": ["src/distributed_planner/statistics/cost.rs: calculate_cost", "src/coordinator/prepare_dynamic_plan.rs: compute_based_task_count"]}
{"id": "C70", "title": "The cost of an operator counts the bytes it handles", "statement": "The computing cost of an operator is the number of bytes it handles: each input or output it passes through, the columns its expressions and keys read (once for each operation they pass through), left times right for nested loop joins, one pass per bit of the size for sorts; memory is what it keeps, network what it sends; the sum is cut at the largest 64-bit number; if a size it depends on is unknown, the cost is unknown.", "quantifier": "all operators, expressions and statistics", "why_tests_cant": "expressions are arbitrarily nested; sums and products are simplified symbolically before sizes are known", "anchors": ["src/distributed_planner/statistics/complexity_cpu.rs", "src/distributed_planner/statistics/complexity_memory.rs", "src/distributed_planner/statistics/complexity_network.rs", "src/distributed_planner/statistics/complexity.rs"]}
{"id": "C71", "title": "Unknown statistics are filled in from what is known", "statement": "Statistics known to the engine are kept; an unknown number of rows is the sum over the inputs with a known one; an unknown column size is the number of rows times the size of its type; an unknown total is the sum of the columns. What is unknown is not mistaken for empty.", "quantifier": "all plans, all statistics, all column types", "why_tests_cant": "types nest arbitrarily and any subset of the statistics may be missing", "anchors": ["src/distributed_planner/statistics/plan_statistics.rs", "src/distributed_planner/statistics/default_bytes_for_datatype.rs"]}
{"id": "C72", "title": "Foreign bytes are refused, not fatal", "statement": "Whatever bytes arrive as a message of a coordinator, a request for data, the metadata of a batch, a message of a worker or a node of a plan, reading them gives a value or an error and never panics.", "quantifier": "all byte strings", "why_tests_cant": "the inputs that matter are those nobody wrote: other versions, other programs, corruption", "anchors": ["src/protocol/grpc/worker_service.rs: decode_*", "src/protocol/grpc/worker_client.rs: decode_*", "src/codec/distributed_codec.rs: try_decode"]}
{"id": "C73", "title": "Metrics arrive as recorded", "statement": "Every metric recorded for a task arrives at the coordinator with its node, name, labels, partition and value.", "quantifier": "all lists of metrics of all kinds and values", "why_tests_cant": "27 kinds of metrics with arbitrary values, in any number", "anchors": ["src/protocol/grpc/metrics_proto.rs", "src/protocol/grpc/worker_service.rs: encode_worker_to_coordinator_msg", "src/protocol/grpc/worker_client.rs: decode_worker_to_coordinator_msg"]}
{"id": "C74", "title": "Tasks of a stage do not share operators", "statement": "Two tasks of a stage never run on the same operator instance, so that what one of them reads or keeps has no effect on what the other one sees, wherever they run.", "quantifier": "all plans, all pairs of tasks, all assignments of URLs to tasks", "why_tests_cant": "tests run each task in a worker of its own; sharing depends on which subtrees a rewrite happens to leave untouched", "anchors": ["src/coordinator/query_coordinator.rs: send_plan_task, task_specialized_plan", "src/worker/worker_connection_pool.rs: execute", "src/common/maybe_encoded.rs: MaybeEncoded"]}
{"id": "C75", "title": "Connections to workers are reused and failures are not remembered", "statement": "A call for a worker gets a connection to that worker; calls for the same worker share one connection for as long as it is cached, however many of them run at once; a failure to connect is reported to those who waited for it and never to a later call; a working connection is dropped only when it is idle.", "quantifier": "all sequences and interleavings of calls, connection attempts, failures and evictions", "why_tests_cant": "the cache is shared by all concurrent queries; what matters is the order of events between tasks", "anchors": ["src/protocol/grpc/channel_resolver.rs: DefaultChannelResolver"]}
{"id": "C76", "title": "The memory of a worker's merged partitions is bounded and accounted", "statement": "While a worker sends several partitions over one connection, the memory reserved for them is what it holds, at most one message per partition more than the queues take however slow the reader; each partition's messages arrive in order; the stream does not end before everything was sent and always ends; when the reader goes away the memory is given back.", "quantifier": "all numbers of partitions, messages, sizes and interleavings of producers and reader, including the reader going away", "why_tests_cant": "depends on the interleaving of one task per partition with the reader", "anchors": ["src/protocol/grpc/spawn_select_all.rs: spawn_select_all", "src/worker/impl_execute_task.rs"]}
{"id": "C77", "title": "Announced statistics are equal shares of what was measured", "statement": "For a stage that runs elsewhere, the statistics of the whole are those gathered; each partition is announced with the stage's figures divided by the number of partitions (but for the fraction and a relative error of 2^-21), more rows never announced as fewer; what is unknown stays unknown, and what claims to be exact can be true of the partitions.", "quantifier": "all statistics, all numbers of partitions", "why_tests_cant": "binary32 arithmetic on all 64-bit figures", "anchors": ["src/stage.rs: Stage::partition_statistics, multiply_stats, multiply_precision", "src/execution_plans/network_shuffle.rs: statistics_from_inputs"]}
{"id": "C78", "title": "A query that runs on one node runs distributed", "statement": "If every scan of a plan can be read, on one node and in the tasks it is scaled for, the plan that the distributed planner returns for it can be executed: no stage asks a worker for a task or a partition that does not exist, no join receives inputs with numbers of partitions it refuses, no operator that merges partitions receives none, no isolated union asks for a child it does not have. The distributed execution yields the rows of the execution on one node. The same holds when all boundaries are read over connections, and for the plan that runs when task counts are chosen during execution, whatever is observed.", "quantifier": "all plans of the kind of C48, all settings and handlers with sane answers, all numbers of workers, all scans", "why_tests_cant": "The numbers of partitions and tasks of each stage follow from the whole plan, the settings and the answers of the handlers; a test runs one plan with one set of them", "anchors": ["src/execution_plans/network_shuffle.rs: NetworkShuffleExec::execute", "src/execution_plans/network_coalesce.rs: NetworkCoalesceExec::execute", "src/execution_plans/network_broadcast.rs: NetworkBroadcastExec::execute", "src/execution_plans/children_isolator_union.rs: execute", "src/distributed_planner/distributed_query_planner.rs: create_distributed_plan"]}
{"id": "C79", "title": "The distributed planner never refuses a plan it could run on one node", "statement": "For every physical plan without boundaries whose operators have the inputs they need, whose scans have partitions and whose partitions are not made by ranges right below a merge or at the root, planning succeeds: with any number of workers that is announced, whether task counts are chosen in advance or while the query runs, also for EXPLAIN ANALYZE. It returns a plan, distributed or the given one; it returns no error and does not panic. The handlers of the user must answer without error and the cardinality factor must lie in [1, 2).", "quantifier": "all plans, settings, answers of the handlers, numbers of workers, cardinality factors in [1, 2)", "why_tests_cant": "Each pass of the planner has its own errors (task counts that cannot be divided between children, unknown partitionings, missing stages); whether one is reached depends on the whole plan, the settings and rounding of task counts", "anchors": ["src/distributed_planner/distributed_query_planner.rs: create_distributed_plan", "src/distributed_planner/inject_network_boundaries.rs: inject_network_boundaries, calculate_scale_factor", "src/distributed_planner/prepare_network_boundaries.rs: prepare_network_boundaries", "src/execution_plans/children_isolator_union.rs: split_children", "src/execution_plans/network_coalesce.rs: NetworkCoalesceExec::from_stage"]}
{"id": "C80", "title": "EXPLAIN ANALYZE shows what the tasks recorded", "statement": "For every node of the plan the text names every recorded metric (but timestamps) exactly once, and under it, per task in the order of the tasks, the total of what that task recorded under that name, or, aggregated, the total over all tasks; it shows nothing else, does not depend on the order of recording or of hash maps, and never panics. The header of a stage covers all its tasks, and metrics visible both as reported and in this process are counted once.", "quantifier": "all numbers of tasks, all lists of metrics of all names, kinds and values, all orders of the hash map and of equal elements in the sort", "why_tests_cant": "The text passes through a hash map in arbitrary order, an unstable sort and a merge of neighbours; a test sees one order and one set of names", "anchors": ["src/stage.rs: format_metrics_by_task, aggregate_by_task_id, sorted_for_display_by_task_id, gather_stage_header_metrics", "src/metrics/task_metrics_rewriter.rs: annotate_metrics_set_with_task_id", "src/execution_plans/metrics.rs: MetricsWrapperExec::metrics"]}
{"id": "C81", "title": "A plan with users' nodes arrives at the workers as it was sent", "statement": "Whatever nodes of DataFusion, of this crate and of the user a plan is made of, what the coordinator encodes is decoded by a worker that registered the same codecs in the same order (maybe with others after them) to the same plan, expressions and partitionings included; a worker that lacks codecs fails and never runs another plan; registering further codecs changes nothing in what is sent, so that no codec takes over the crate's own nodes; and every plan whose user-defined parts are taken by a registered codec can be sent.", "quantifier": "all plans, all lists of codecs that decode what they encode, all function registries", "why_tests_cant": "A test sends a few plans with one codec; which codec a node is encoded with, and which one decodes it, depends on all registered codecs, their order, and where in the plan the node or expression is", "anchors": ["src/codec/user_codec.rs: set_distributed_user_codec, get_distributed_user_codecs", "src/codec/distributed_codec.rs: DistributedCodec::new_combined_with_user, try_encode, try_decode", "src/codec/physical_plan.rs: encode_execution_plan, decode_execution_plan, encode_partitioning, decode_partitioning"]}
{"id": "C82", "title": "EXPLAIN shows every stage and every operator of the distributed plan once", "statement": "The text of a distributed plan is the block of the coordinator followed by one block for each stage, each stage before those that feed it and further in than the one it feeds; the block of a stage has its number, tasks and partitions and then one line for each of its operators, children below their parent. Two plans with the same text have the same operators in the same stages, and the same kinds of boundaries, numbers of stages and tasks.", "quantifier": "all distributed plans", "why_tests_cant": "Tests compare the text of a few plans with a stored one; that no stage or operator is left out, shown twice or shown below another one must hold for every nesting of boundaries, unions and joins", "anchors": ["src/stage.rs: display_plan_ascii, display_ascii, display_inner_ascii, display_inner_distributed_leaf, find_input_stages, format_tasks_for_stage", "src/execution_plans/network_shuffle.rs: fmt_as", "src/execution_plans/network_coalesce.rs: fmt_as", "src/execution_plans/network_broadcast.rs: fmt_as"]}
{"id": "C83", "title": "EXPLAIN ANALYZE answers only for a query that ran to its end", "statement": "EXPLAIN ANALYZE of a distributed query reads the query to its end; if the query fails, at any batch, EXPLAIN ANALYZE fails with that error; otherwise it answers with the plan and its metrics and, when verbose, with the metrics per task, the number of rows of the query and the time taken.", "quantifier": "all queries, all points at which they may fail", "why_tests_cant": "A test runs a few queries; an error may come at any batch, after any number of rows", "anchors": ["src/explain_analyze.rs: DistributedAnalyzeExec::execute, create_output_batch"]}
{"id": "C84", "title": "However a query ends, its workers are told and its result ends", "statement": "While the rows of a query are being read, no worker gives up a task of it unless the connection to the worker is lost. Once the query has ended - its last row was read, it failed, or the caller dropped its result - and its work unit feeds are over, then after boundedly many steps every worker that got a plan of it has stopped waiting for it, no background task of it is left, and the caller has the end of the result. A query that ends well has heard out every worker, and the workers that collect metrics have sent them before.", "quantifier": "all queries, all schedules of the coordinator, its background tasks and the workers, all lost connections and refused plans, all points at which the result is dropped", "why_tests_cant": "The signal races with connecting, with the worker building its plan, with work units being sent and with the loss of connections; a signal that came too early or a task awaited before the signal would leave workers and caller waiting forever, only in some schedules", "anchors": ["src/coordinator/distributed.rs: DistributedExec::execute", "src/coordinator/query_coordinator.rs: end_query_guard, drain_pending_tasks, send_plan_task, coordinator_to_worker_task, keep_stream_alive, NotifyGuard", "src/worker/impl_coordinator_channel.rs: Worker::coordinator_channel"]}
{"id": "C85", "title": "The times reported for a task are true and in order", "statement": "The three times reported for a task - when its plan arrived, when its execution began, when it ended - are the times that the worker's clock showed then, counted from the start of the query. If the clock is not set back, neither of the last two is before the first. Once the beginning was written down and no other request is about to write it, it does not change. It is never after the end.", "quantifier": "all schedules of the task's channel and of any number of requests to it, all clocks that are not set back", "why_tests_cant": "Requests for the partitions of a task arrive at once and each checks whether it is the first before writing; only some interleavings of these checks with the end of the task show a wrong order", "anchors": ["src/worker/task_data.rs: TaskDataMetrics", "src/worker/impl_execute_task.rs: execute_task", "src/worker/impl_coordinator_channel.rs: coordinator_channel, collect_task_metrics", "src/metrics/latency_metric.rs: MaxLatencyMetric"]}
{"id": "C86", "title": "The console shows what the workers answered", "statement": "The tasks that the console shows for a worker are those of its last answer, and none once a poll failed; the worker is shown as active exactly if one of them runs. A task shown as completed was listed from one poll on, ran, and was missing at a later one, and the time shown is the time between them; a running task missing from the next answer is shown as completed. A worker that was lost is shown again at the first attempt to connect that it answers, and such an attempt is made once five seconds have passed since the last one. The rate shown is the rows since the previous answer. What is kept per worker is bounded. The chosen row of a table of workers exists. No key crashes the console or leads to a view of a worker that is not there, and a view can be left; the help closes with any key and nothing else happens; clearing forgets what was completed by the workers shown, and nothing else.", "quantifier": "all sequences of discoveries, connections, polls and keys, all answers of the workers, all sort orders", "why_tests_cant": "What is shown depends on the whole history of polls, failures and key presses, with workers and tasks coming and going at any point", "anchors": ["console/src/worker.rs: WorkerConn", "console/src/app.rs: App", "console/src/input.rs: handle_key_event", "console/src/state.rs"]}
{"id": "C87", "title": "The tasks that a worker lists are the open ones", "statement": "When a worker is asked for its tasks, it lists each task once, with the plan that was built for it, and only tasks whose plan has arrived and was built and that the coordinator did not close yet. A task that is open is listed. A task that was closed is not listed.", "quantifier": "all schedules of channels, requests, evictions and questions, any number of tasks", "why_tests_cant": "Tasks are set, requested, closed and evicted concurrently; a stale entry or a lost one shows only in some interleavings", "anchors": ["src/protocol/grpc/observability/service.rs: get_task_progress", "src/worker/impl_coordinator_channel.rs: coordinator_channel", "src/worker/worker_service.rs: TASK_CACHE_TTI", "src/worker/single_write_multi_read.rs: read_now"]}
{"id": "C88", "title": "Orders that operators rely on survive distribution", "statement": "Operators that need their input sorted (window functions, aggregates over sorted groups, streaming DISTINCT) get it sorted in the distributed plan, so that whatever the interleaving of the tasks' streams it returns the rows of the original plan; and it returns them in every order that the original plan promises (ORDER BY).", "quantifier": "all physical plans, settings, task counts and interleavings of the streams of tasks and partitions", "why_tests_cant": "Whether rows arrive in order depends on how the streams of several workers interleave; tests see a few interleavings of a few plans", "anchors": ["src/execution_plans/network_shuffle.rs: NetworkShuffleExec", "src/execution_plans/network_coalesce.rs: NetworkCoalesceExec", "src/distributed_planner/network_boundary.rs: ProducerHead::insert", "src/events/defaults/file_scan_config.rs: file_scan_config_scale_up_leaf_node", "src/distributed_planner/distributed_query_planner.rs"]}
{"id": "C89", "title": "Reading over the network is reading the stage", "statement": "However the calls, connections, messages and polls of a query interleave - concurrent calls sharing one request per producer task, streams multiplexed on one connection or handed over inside a process, any byte budget and message sizes - once every partition of a network boundary has been read to its end without an error, a shuffle has delivered every row of the input stage exactly once to the task and partition of its hash, a broadcast has delivered every row once to every task, a coalesce has delivered the rows in order; a whole distributed query executed this way returns the rows of the original plan, and a stream that failed is never taken for a complete one.", "quantifier": "all plans, task counts, schedules of calls, connections, polls and messages, byte budgets, channel capacities and message sizes, for boundaries whose background tasks do not panic", "why_tests_cant": "Combines every interleaving of several concurrent components on several machines; tests run a few schedules", "anchors": ["src/worker/worker_connection_pool.rs: WorkerConnectionPool::execute", "src/protocol/grpc/worker_client.rs", "src/protocol/grpc/worker_service.rs", "src/protocol/in_process/worker_client.rs: InProcessWorkerClient::execute_task", "src/worker/impl_execute_task.rs: Worker::execute_task", "src/execution_plans/network_shuffle.rs: NetworkShuffleExec::execute", "src/execution_plans/network_broadcast.rs", "src/execution_plans/network_coalesce.rs"]}
{"id": "C90", "title": "EXPLAIN ANALYZE shows beside each part of a leaf what the task reading it recorded", "statement": "When a leaf of the plan is split among tasks, EXPLAIN ANALYZE lists its parts (t0, t1, ...); with metrics per task, beside each part stand the metrics recorded by the task that read this very part, and nothing else; with aggregated metrics all of them stand in the leaf's first line.", "quantifier": "all stage plans, task counts, leaves, positions, recorded metrics", "why_tests_cant": "The numbering of parts and of tasks agree in the plans used by tests and differ in others", "anchors": ["src/stage.rs: display_inner_distributed_leaf, metrics_by_task_id, metrics_suffix", "src/metrics/task_metrics_rewriter.rs: stage_metrics_rewriter", "src/execution_plans/distributed_leaf.rs"]}
{"id": "C91", "title": "The progress reported by sampling is that of the streamed side, each row counted once", "statement": "When the planner measures a running stage, the progress of a task is the rows read so far from the leaves on the streamed side of its joins (never from build sides), each leaf once, shared equally among the task's partitions; the reports of all partitions together count no row twice and miss less than one row per partition and leaf; the rows expected are the sum of what those leaves announce, unknown only if none announces anything; so a stage never seems further than finished, and one that has read all its rows seems finished.", "quantifier": "all plans, leaf counters at any moment, partition and task counts, announced statistics", "why_tests_cant": "Depends on plan shapes and on rounding at every moment of a run", "anchors": ["src/common/recursion.rs: apply_driver_path", "src/execution_plans/sampler.rs: set_rows_pulled_from_leaf", "src/coordinator/prepare_dynamic_plan.rs: estimated_driver_path_leaf_rows"]}
{"id": "C92", "title": "An ORDER BY over the network comes to an end with all its rows", "statement": "A query whose last step merges the sorted partitions of its tasks (ORDER BY) returns all the rows of all the partitions, whatever the amount of data, however it is distributed over the partitions of a task and in whichever order the partitions produce their first rows.", "quantifier": "all numbers of tasks and partitions, message sizes, byte budgets, channel capacities, prefetch depths and schedules of workers, connections and the merge", "why_tests_cant": "The merge takes nothing before every stream has a row, while the streams of one task share a byte budget: whether that comes to an end depends on sizes and schedules", "anchors": ["src/execution_plans/network_coalesce.rs: NetworkCoalesceExec::execute", "src/protocol/grpc/worker_client.rs: WorkerConnection (byte budget of a connection)", "src/distributed_planner/distributed_config.rs: worker_connection_buffer_budget_bytes"]}
{"id": "C93", "title": "The picture of a plan shows its tasks and the data that flows between them", "statement": "display_plan_graphviz draws, for each task of each stage, a box for each operator with a port per partition and no two boxes of the same name; within a task its arrows lead from each partition of an operator to the operator's parent; between tasks there is an arrow from a partition of a producer task to a partition of a network boundary exactly if the boundary reads that partition when the plan runs; every arrow joins ports that are drawn.", "quantifier": "all plans, stage and task counts, partition counts, kinds and positions of boundaries", "why_tests_cant": "Must hold for every plan shape and every combination of task and partition counts; the arithmetic of the arrows is separate from that of execution", "anchors": ["src/stage.rs: display_plan_graphviz", "src/stage.rs: display_plan", "src/stage.rs: display_inter_task_edges", "src/stage.rs: display_single_plan"]}
{"id": "C94", "title": "A task runs in a session that knows its place and the coordinator's settings", "statement": "Whatever session builder a worker has, as long as it adds to the session it is given, a task runs with the task number and task count that the coordinator assigned, finds each declared work unit feed and knows its worker; so the tasks of a stage read a shuffle exactly once. Extensions marked for propagation and read by the builder have the coordinator's values; the worker's options, its batch size in particular, are the coordinator's; plan rewrite handlers of the worker run in the order of their registration, and the first error fails the task.", "quantifier": "all session builders, headers, coordinators' sessions, task and stage counts, chains of handlers", "why_tests_cant": "Session builders and handlers are arbitrary user code, composed in any way; the effect of a lost task context only shows in rows repeated in a cluster of several tasks", "anchors": ["src/worker/impl_coordinator_channel.rs: coordinator_channel", "src/worker/session_builder.rs: WorkerSessionBuilder", "src/worker/session_builder.rs: MappedWorkerSessionBuilder", "src/events/worker_plan_rewrite.rs", "src/events/common.rs: EventHandlerChain", "src/stage.rs: DistributedTaskContext::from_ctx"]}
{"id": "C95", "title": "The operators of a task read the work units of their own feeds, wherever the task runs", "statement": "An operator with a work unit feed that runs in a task of a stage reads, for each of its partitions q, exactly the units its provider makes on the coordinator for feed index partitions * task_index + q, with the fan-out set to the tasks that run the operator; this holds on remote workers and in the coordinator's process, below unions and inside the per-task variants of a scaled-up leaf. Over all tasks every feed index is read exactly once, and the provider runs on the coordinator only.", "quantifier": "all stage plans, task contexts, providers, partition counts and transports", "why_tests_cant": "Plans, task assignments and providers are arbitrary; a feed that nobody serves is empty rather than failing, so that a test on one plan shape and one transport tells nothing about the others", "anchors": ["src/coordinator/query_coordinator.rs: QueryCoordinator::coordinator_to_worker_task", "src/coordinator/query_coordinator.rs: QueryCoordinator::task_specialized_plan", "src/work_unit_feed/work_unit_feed.rs: WorkUnitFeed::feed", "src/work_unit_feed/remote_work_unit_feed.rs: RemoteFeedProvider::feed", "src/execution_plans/distributed_leaf.rs: DistributedLeafExec::to_task_specialized", "src/common/recursion.rs"]}
{"id": "C96", "title": "A failure is never mistaken for the end of the rows", "statement": "When any partition of any stage of a distributed query fails - a scan that cannot be read, a worker that is gone, a connection that breaks - the failure travels through every operator, union and network boundary above it: a shuffle fails every partition of every consumer task, a broadcast fails that partition in every consumer task, a coalesce fails the partition that reads it, and the result of the query does not end normally. If the result did end normally, in all its partitions, it has exactly the rows of the single-process query.", "quantifier": "all plans, numbers of stages, tasks and partitions, all sets of failing partitions, all schedules, all message sizes and transports", "why_tests_cant": "Which partitions fail and when is arbitrary, and a lost failure looks like a shorter result; a test injects one failure at one place", "anchors": ["src/execution_plans/network_shuffle.rs: NetworkShuffleExec::execute", "src/execution_plans/network_broadcast.rs: NetworkBroadcastExec::execute", "src/execution_plans/network_coalesce.rs: NetworkCoalesceExec::execute", "src/execution_plans/children_isolator_union.rs: ChildrenIsolatorUnionExec::execute", "src/worker/worker_connection_pool.rs", "src/protocol/grpc/worker_client.rs", "src/worker/impl_execute_task.rs"]}
{"id": "C97", "title": "A distributed plan can be executed again", "statement": "Executing the same distributed plan a second time, while an earlier execution is still going on or after it has ended, works as the first time: each execution gets the plans it sent itself, none is refused or fed by operators of another, and the metrics shown for it are its own.", "quantifier": "all numbers of executions, workers and tasks, all schedules of plans, data requests, ends, clean-ups, evictions and lost connections", "why_tests_cant": "Executions meet in the workers' registries and in the plan's metrics store; whether they meet depends on when a worker cleans up relative to the next plan's arrival", "anchors": ["src/coordinator/distributed.rs: DistributedExec::execute, wait_for_metrics", "src/coordinator/prepare_static_plan.rs: prepare_static_plan", "src/coordinator/prepare_dynamic_plan.rs: prepare_dynamic_plan", "src/coordinator/query_coordinator.rs: send_plan_task, worker_to_coordinator_task, drain_pending_tasks", "src/coordinator/metrics_store.rs", "src/worker/impl_coordinator_channel.rs: Worker::coordinator_channel", "src/distributed_planner/prepare_network_boundaries.rs", "src/distributed_planner/inject_network_boundaries.rs"]}
{"id": "C98", "title": "Rows returned before a failure are rows of the result, and a satisfied LIMIT is right though the rest failed", "statement": "Whatever has failed so far in tasks, connections and scans, the rows that a distributed query has returned are rows of its result, none invented, altered or repeated, and they come in the promised order. A query with LIMIT that has ended has returned the rows asked for, even if the partitions and connections it stopped reading failed or were abandoned.", "quantifier": "all plans of C48 and C89 and LIMIT/OFFSET queries of C19, all histories of connections, streams, messages, failures and cancellations, and all points of their executions", "why_tests_cant": "Depends on how far every partition was read when something failed or was dropped, in any stage; tests only see queries that end or fail as a whole", "anchors": ["src/execution_plans/network_shuffle.rs: NetworkShuffleExec::execute", "src/execution_plans/network_coalesce.rs: NetworkCoalesceExec::execute", "src/execution_plans/network_broadcast.rs: NetworkBroadcastExec::execute", "src/execution_plans/children_isolator_union.rs: ChildrenIsolatorUnionExec::execute", "src/worker/worker_connection_pool.rs", "src/worker/impl_execute_task.rs: Worker::execute_task", "src/protocol/grpc/worker_client.rs: execute_task, demux task"]}
{"id": "C99", "title": "A worker answers a request for data with the partitions asked for, or refuses it", "statement": "Whatever range of partitions a request names, a worker answers it with exactly the streams of these partitions, in order and marked with their numbers, or refuses it with an error; it does not crash, and a refused request has no effect on later ones. The requests that network boundaries make are always served.", "quantifier": "all plans, all requests (any two 64-bit numbers), all compression settings, with and without overflow checks, all amounts of memory", "why_tests_cant": "Requests come from other processes, possibly of other versions; tests send requests that the crate's own client makes", "anchors": ["src/worker/impl_execute_task.rs: Worker::execute_task", "src/protocol/grpc/worker_service.rs: execute_task", "src/execution_plans/sampler.rs: SamplerExec::execute"]}
{"id": "C100", "title": "A plan with network boundaries placed by the user returns the rows of the plan without them", "statement": "A user may put shuffle, broadcast and gather boundaries into a plan with the exported constructors. If every operator can work with the rows that its task then gets, the boundaries' task counts fit together and the leaves can be split, the plan that the planner makes of it returns, on any cluster, the rows that the plan without boundaries returns on one node, whatever the task counts and whatever partition counts the split leaves have.", "quantifier": "all plans of DataFusion operators with boundaries at any places, all task counts, all leaf-scaling handlers, all schedules", "why_tests_cant": "The crate's tests and its example place a few boundaries by hand; which tasks get which rows depends on all task counts and partition counts together", "anchors": ["src/distributed_planner/distributed_query_planner.rs: DistributedQueryPlanner", "src/distributed_planner/prepare_network_boundaries.rs: prepare_network_boundaries", "src/execution_plans/network_coalesce.rs: NetworkCoalesceExec::try_new", "src/execution_plans/network_shuffle.rs: NetworkShuffleExec::try_new", "src/execution_plans/network_broadcast.rs: NetworkBroadcastExec::try_new", "src/execution_plans/broadcast.rs: BroadcastExec::new", "src/coordinator/distributed.rs: DistributedExec::execute", "docs/source/advanced/05-custom-distributed-plans.md"]}
{"id": "C101", "title": "A broadcast's cache is accounted while it is of use, freed afterwards, and readers do not depend on each other", "statement": "A broadcast keeps the batches of the build side for its readers. The memory pool has each of these batches reserved exactly once, however many readers there are, from when it is read until neither the task that reads the input, nor a reader, nor a reader that may still come needs it; when the plan and all streams are dropped everything is given back. A reader gets all of the build side whoever else drops a stream or the plan, at any moment. The pool's limit is respected, and nothing is read for nobody.", "quantifier": "all numbers of readers and partitions, all inputs and sizes, all interleavings of asking, reading, dropping and producing, panics of the input", "why_tests_cant": "Who is the last to hold a reference depends on the schedule; a test sees one order of drops", "anchors": ["src/execution_plans/broadcast.rs: BroadcastExec::execute", "src/execution_plans/broadcast.rs: BroadcastQueue", "src/execution_plans/broadcast.rs: BroadcastConsumer"]}
{"id": "C102", "title": "The console's overview adds up and orders what its workers show", "statement": "The numbers of workers by status add up to the number of workers; the numbers of tasks, of completed tasks and of queries are those of all workers together, however ticks, pauses and clearing follow each other. Every worker has one row in the table; the rows are in the order of the chosen column and direction, and rows with the same value in the order of discovery. The chosen column is drawn. Enter opens the worker in the chosen row, and the same worker stays chosen when the table changes. The average duration lies between the shortest and the longest; the longest is that of a task shown. The rate of rows is never negative nor faster than any growth read, counts the rows the tasks have output since the last reading, approaches a steady growth, and stays while paused.", "quantifier": "all numbers of workers and all histories of their answers, all columns and directions, all sequences of readings, pauses and keys", "why_tests_cant": "The order of rows and the smoothed rate depend on whole histories of answers of any number of workers; tests render a few fixed ones", "anchors": ["console/src/app.rs: App::sorted_worker_indices", "console/src/app.rs: App::cluster_stats", "console/src/app.rs: App::rebuild_queries", "console/src/app.rs: App::update_throughput", "console/src/app.rs: App::cluster_avg_task_duration", "console/src/app.rs: App::cluster_longest_active_task", "console/src/state.rs: SortColumn", "console/src/input.rs: handle_cluster_keys"]}
{"id": "C103", "title": "The console shows amounts to within the last digit", "statement": "A size or number of rows that the console shows is exact below the first unit (1024 bytes, 1000 rows), and within 6 hundredths of the unit shown otherwise, for every 64-bit amount; of two amounts shown in the same unit, the larger one never appears with the smaller number. A duration is shown rounded down to the last unit shown. A rate is within half a row per second, or 6 hundredths of its unit. A CPU usage is red exactly above 95 and green exactly up to 80.", "quantifier": "every 64-bit number of bytes and rows; every duration; every finite rate up to 2^64 and every finite usage", "why_tests_cant": "Tests try a few amounts; the claims are about all 2^64 of them and about the rounding of doubles and of their decimal form.", "anchors": ["console/src/ui/format.rs: format_bytes", "console/src/ui/format.rs: format_duration", "console/src/ui/format.rs: format_row_count", "console/src/ui/format.rs: format_rows_throughput", "console/src/ui/format.rs: cpu_color"]}
{"id": "C104", "title": "With task counts chosen while the query runs, stages are sent from the leaves up, each once, and branches do not wait for each other", "statement": "Whatever the timing, when workers are chosen for a stage or a task of it is sent, every stage below it in the plan has been sent in all its tasks, and has been sampled unless it is read by a coalescing boundary, whose input is never sampled. Only stages of the plan are sent, each of them and each of its tasks once, with numbers that grow in the order of sending. A stage waits for the stages below it only: as soon as those were sampled it can be sent, however long the sampling of other branches takes. Every timing comes to an end; if nothing fails it ends with every stage sent and with one and the same plan, whichever branch was faster.", "quantifier": "all plans, all settings and handlers, all costs, all outcomes of routing, sending and sampling, and all timings of the samplings of the stages", "why_tests_cant": "The order depends on how the futures of all nodes of the plan interleave with samplings of unknown duration; a test sees one timing of one plan.", "anchors": ["src/coordinator/prepare_dynamic_plan.rs: prepare_dynamic_plan", "src/distributed_planner/inject_network_boundaries.rs: _inject_network_boundaries", "src/distributed_planner/inject_network_boundaries.rs: NetworkBoundaryBuilder", "docs/source/learn/03-how-adaptive-query-execution-works.md"]}
{"id": "C105", "title": "With task counts chosen when the plan is made, all stages are sent before the query's head starts, and a failure ends the sending", "statement": "When a query is executed with the task counts of its plan, every stage of the plan is sent, in all its tasks, before anything of the head stage runs. Whatever is done for a stage is done after all stages below it were sent in all their tasks; its workers are chosen before its tasks are sent. Only stages of the plan are sent, with the plan's numbers and task counts, each once, and each task once. If choosing the workers of a stage or sending one of its tasks fails, the query fails with that very error, the tasks of that stage sent by then are the ones before the failing one, and nothing is sent afterwards, neither of the stages above nor of those to the right; the stages sent by then are 1, 2, ... up to some number. No two tasks go by the same stage number and task number. If none of this fails, the sending succeeds.", "quantifier": "all plans with all their stages, and all outcomes of choosing workers and of sending, per stage and task", "why_tests_cant": "The number of combinations of plan shape and point of failure is unbounded; tests run a few plans on workers that are all reachable.", "anchors": ["src/coordinator/prepare_static_plan.rs: prepare_static_plan", "src/coordinator/query_coordinator.rs: StageCoordinator::routed_urls", "src/coordinator/query_coordinator.rs: StageCoordinator::send_plan_task"]}
