# Formal model of datafusion-distributed: design

The source lives in `/repo` (read as text only, never built). All Coq files are in `rocq/theories`.
`properties.jsonl` lists the properties in English, `MANIFEST.json` says which theorems are about which
property and how far they go, `seeded/LOG.jsonl` records the mutation tests.

## 1. Layout

For each area `X` there are up to four kinds of files:

* `XModel.v`: the model, executable Gallina (or a transition relation), transcribed function by function. Every
  definition cites the file and the lines it models and says where it simplifies;
* `XSpec.v`: the vocabulary of the statements, small and independent of the model's helpers;
* `XProofs.v` (`XFloat.v`, `XPlans.v`, ...): lemmas and invariants;
* `XProps.v`: the property theorems `Cnn_...`, with `Print Assumptions` beneath, and `Example`s showing that the
  hypotheses are met by concrete non-trivial cases.

Conventions.

* `usize` values are `nat` unless the property is about sizes, overflow or floats; then they are `N` and wrapping,
  saturation or a panic is written in the model (parameter `checks`: whether the build has overflow checks).
* Run-time failures are explicit: `Res` has `Ok`, `Err` (a returned error) and `Panic` (index out of bounds, division by
  zero, overflow with checks, a panicking library call). No totalised default hides one of them.
* Concurrent code is a labelled transition system: one step per atomic action (section under a lock, channel
  operation, poll, library call assumed atomic). Theorems quantify over all reachable states, i.e. all schedules. Liveness
  is stated as: in every reachable state that is not finished some step is possible (no deadlock), and a measure
  decreases with every step (no endless schedule), hence every fair run ends.
* Theorems named `..._refuted` exhibit a run of the model that contradicts the property as a user would read it;
  theorems named `..._partial` prove the part that holds and say what is missing. Both are about the unchanged code.
* Recursion on fuel (walks with an explicit stack, decoding) either has a theorem that the fuel suffices or treats its
  exhaustion as the error the code reports (prost's recursion limit).

## 2. Trusted base

1. Coq 8.16.1's kernel, with `vm_compute` in examples and refutations.
2. The axioms below, all of the standard library. Everything else is "Closed under the global context".
3. That the models say what the source says. The code was read, not run.
4. The behaviour of libraries listed in section 3.

No axiom, parameter, `Admitted` or disabled kernel check is in the development; section variables are discharged, so
they are premises of the theorems.

### Axioms

The theorems that use binary floating point through Flocq inherit the axioms of Coq's `Reals`:

* `ClassicalDedekindReals.sig_not_dec`, `ClassicalDedekindReals.sig_forall_dec`,
* `FunctionalExtensionality.functional_extensionality_dep`,
* `Classical_Prop.classic`.

525 theorems are listed in MANIFEST.json; 444 are closed under the global context, 81 use axioms:

* `classic`, `functional_extensionality_dep`, `sig_forall_dec`, `sig_not_dec`:
  `C07_largest_remainders_first`, `C07_union_allocation`, `C08_union_reads_once`, `C08_union_rows`, `C08_with_new_children`, `C103_bytes`, `C103_colours`, `C103_rates`, `C103_rows`, `C11_every_stage_within_limits`, `C11_final_plan_within_limits`, `C12_boundaries_exactly_at_cuts`, `C12_nothing_else_changes`, `C15_single_task_joins`, `C15_single_task_joins_dynamic`, `C19_limit`, `C19_offset`, `C19_order_by_limit`, `C19_order_by_offset`, `C19_running_plan_limit`, `C19_running_plan_offset`, `C19_running_plan_order_by_limit`, `C19_running_plan_order_by_offset`, `C46_every_stage_within_limits`, `C46_running_plan_within_limits`, `C47_fallback_partial`, `C47_no_progress_inflated`, `C48_distributed_plan_same_rows`, `C48_with_single_partition_operators`, `C49_one_task_per_stage_changes_nothing`, `C52_coalescing_in_one_task_dynamic_partial`, `C52_coalescing_in_one_task_partial`, `C54_folded_input_dynamic_partial`, `C54_folded_input_partial`, `C60_over_the_network`, `C60_same_rows_for_all_observations`, `C63_shown_plan_is_running_plan`, `C64_byte_estimate_partial`, `C64_complete_sample`, `C64_row_estimate`, `C66_counts_within_rows`, `C66_reported_ratios`, `C67_exact_zero_partial`, `C70_cpu_cost`, `C70_memory_cost`, `C70_network_cost`, `C70_sort_cost`, `C70_unknown_cost`, `C74_union_numbers`, `C77_equal_shares`, `C77_exact_claims`, `C77_monotone`, `C77_powers_of_two`, `C78_can_run_over_the_network`, `C78_distributed_plan_can_run`, `C78_running_plan_can_run`, `C78_single_partition_operators_can_run`, `C79_analyze_succeeds`, `C79_factors`, `C79_planning_succeeds`, `C79_query_succeeds`, `C82_planned_queries_shown`, `C88_distributed_plan_keeps_orders_partial`, `C88_over_the_network_partial`, `C88_running_plan_keeps_orders_partial`, `C88_running_plan_over_the_network_partial`, `C88_with_single_partition_operators_partial`, `C89_query_over_the_network`, `C96_ended_results_are_complete`, `C96_running_plan_complete`, `C96_running_plan_unreadable_scans`, `C96_unreadable_scans_fail_the_query`, `C98_limit`, `C98_offset`, `C98_rows_so_far`, `C98_rows_so_far_of_readable_scans`, `C98_running_plan_limit`, `C98_running_plan_rows_so_far`, `C98_running_plan_rows_so_far_of_readable_scans`, `TotalEx.C79_ranges_refuted`.
* `functional_extensionality_dep`:
  `C98_undisturbed_executions`.

## 3. What is assumed of libraries

These are written into the models, next to the code that uses them.

* **DataFusion `TreeNode`**: traversal order; `Jump`, `Stop`, `Continue`; `map_children`/`transform` allocate a new node
  only if a child was transformed.
* **DataFusion operators** (C01-C03, C16-C21, C48): `RepartitionExec` sends a row to partition `hash mod n`; joins are
  list comprehensions per join type (with null-aware anti joins); two-phase aggregation is a merge of states by group (any
  associative and commutative merge); sorts, limits, unions and coalescing nodes as in `ExecModel`/`FetchModel`, where an
  ordinary operator is a function `op_run` of its inputs' rows subject to the laws `op_run_ext` (it depends on the rows
  of its own partition) and `op_run_remote` (boundaries do not change them). Filters, joins and scans with a fetch of
  their own are not modelled. `FileGroupPartitioner` is a parameter. `statistics_from_inputs` is a parameter.
* **tokio**: `watch` (a receiver sees the latest value, `changed` ends after the sender is dropped), `Notify` (one stored
  permit), `mpsc` (bounded, FIFO, closed when all senders are gone), `oneshot`, `timeout` (polls its future first),
  `SpawnedTask`/`JoinHandle` (abort on drop; a panic becomes an error of the handle, which nobody may look at).
* **futures**: `Shared` (runs once, all get the result), `select_all` (any merge), `stream::unfold` etc. as written out.
* **moka**: `get_with`, `invalidate`, eviction are atomic per key; idle eviction may happen at any time after the period.
* **DataFusion's `ComposedPhysicalExtensionCodec`** (C81): codecs are tried in order with one buffer, the position of the first that
  does not fail is sent with its bytes, and decides who decodes; the defaults of the trait refuse expressions and accept functions
  without writing; the conversion of plans and expressions asks the codec for whatever is not DataFusion's own. The encoding of
  DataFusion's own nodes is assumed faithful.
* **DataFusion's memory pool**: reservations grow and shrink by what is asked, `grow` without regard to the limit; `shrink` below zero panics; dropping frees.
* **Atomics**: relaxed operations on one location are totally ordered.
* **prost 0.14 and its derive**: wire format and decoding as in `WireModel` (field order, defaults, packed fields, merging
  of repeated occurrences, recursion limit of 100; unknown groups simplified). Messages of other crates (plans, schemas,
  partitionings, sketches) are bytes given by codecs that parse what they print.
* **tonic, HTTP/2**: messages of a stream arrive in order; the connection may break at any time; half-close; headers are
  ASCII with lower-case names; a status with details arrives intact.
* **chrono, `Time::add_duration`**: at least 1 ns is added; nanoseconds of an `i64` range.
* **`{:.1}` and `{:.0}` of an `f64`** (C103): the nearest decimal number, ties to even.
* **`futures::future::try_join_all`** (C104): polls all children; ends with the results in order, or with an error of a
  child, at once or after other children went on. Code between two awaits of a future is not interrupted by other
  futures of the same task.
* **`slice::sort_by`** (C102): stable for a total order; otherwise any permutation or a panic.
* **Casts**: Rust's `as` (saturating from floats), `num_traits::AsPrimitive` the same. `f32::log2` is a parameter.
* **Random numbers**: any outcome.

## 4. What is modelled, by source file

| source (`src/`) | model | left out |
|---|---|---|
| `execution_plans/network_{shuffle,broadcast,coalesce}.rs`, `common.rs`, `distributed_planner/network_boundary.rs`, `worker/impl_execute_task.rs` | `NetModel` (partition arithmetic, `with_input_stage`, heads), `PartStatsModel` (statistics) | display, equivalence properties |
| `execution_plans/children_isolator_union.rs` | `CiuModel` | display |
| `execution_plans/broadcast.rs` | `BcastModel`, `BcastLifeModel` (memory, drops) | |
| `execution_plans/distributed_leaf.rs`, `events/*` | `EventsModel`, `PlanModel` | boxing of user handlers |
| `execution_plans/sampler.rs` | `SamplerModel`, `SampleNetModel`, `DriverModel` | latency metrics |
| `common/recursion.rs`, `metrics/task_metrics_{collector,rewriter}.rs`, trimming in `coordinator/query_coordinator.rs` | `PlanModel`, `ShareModel`, `DriverModel` | formatting |
| `distributed_planner/*.rs` | `PlannerModel`, `JoinModel`, `AggModel`, `FetchModel`, `CostModel` (statistics/) | logging |
| `coordinator/prepare_{static,dynamic}_plan.rs`, `distributed.rs` | `PlannerModel`, `DynModel`, `GatherModel` | metrics of the coordinator |
| `coordinator/query_coordinator.rs`, `work_unit_feed/*` | `FeedModel`, `FeedPlanModel`, `HeaderModel`, `ShareModel` | typed wrappers of feeds |
| `coordinator/metrics_store.rs`, `worker/{single_write_multi_read,impl_coordinator_channel,impl_execute_task,task_data,worker_service}.rs` | `TaskModel`, `ServeModel` (the range of a request) | observability service |
| `worker/{impl_coordinator_channel,session_builder}.rs`, `events/{common,worker_plan_rewrite}.rs` | `WSessionModel` | functions, rules and runtime environment of sessions |
| `worker/worker_connection_pool.rs` | `PoolModel`, `NetRunModel`, `FaultModel`, `CutModel` | metrics |
| `protocol/in_process/worker_client.rs` | `NetRunModel` (`execute_task`) | the other two methods |
| `protocol/grpc/{worker_service,worker_client,spawn_select_all}.rs` | `DemuxModel`, `MuxModel`, `CodecModel`, `MergeNetModel` (a merge reading it) | Arrow IPC, compression |
| `protocol/grpc/channel_resolver.rs` | `ChanModel` | TLS, endpoints |
| `protocol/grpc/{metrics_proto.rs,errors/}`, `codec/distributed_codec.rs`, `protocol/worker_channel.rs` | `WireModel`, `CodecModel`, `ErrorModel` | the bytes of other crates' messages |
| `metrics/*.rs` | `MetricsModel` | percentiles (sketches of another crate) |
| `config_extension_ext.rs`, `passthrough_headers.rs`, `distributed_planner/distributed_config.rs` | `HeaderModel` | |
| `stage.rs` | `NetModel` (stages), `PartStatsModel`, `ShowModel`, `ExplainModel`, `LeafShowModel`, `GraphModel` | text and colours of the Graphviz picture |

Not modelled at all: Arrow arrays and IPC encoding, compression, gRPC internals, wall-clock time (timeouts may fire at any
moment), the rendering of the `console` crate (its state and the texts of amounts are modelled, C86, C102 and C103; the smoothed rate in exact arithmetic), the `cli` and `benchmarks` crates, test utilities.

Modelling decisions worth knowing:

* A plan node's identity is its position in the tree. `ShareModel` alone distinguishes allocations, because sharing an
  instance between tasks is what it is about.
* Data of a partition is a list of rows; a batch is a list element where batches matter (sampler, broadcast, demux).
* A handler of the user is an arbitrary function of its inputs (not of hidden state), a user's provider of work units an
  arbitrary stream.
* Executions (`ExecModel`, C48) are relational: merging streams gives any interleaving; the theorem says that every
  distributed execution yields a permutation of what a single-node execution yields (or in order where an order is
  required). An execution that fails is not in the relation; C78 says that one exists when the scans can be read.
* The planner works on abstract operators with what it looks at: kind, children, partitioning, task-count answers. The query
  id and the stage numbers are explicit.
* `SingleWriteMultiRead` without its `NoValue` variant, which no caller uses.

## 5. Properties: model, proof idea, outcome

| id | files | proof idea | outcome |
|----|-------|------------|---------|
| C01, C02 | `Net*` | bijection between (consumer, partition) and the head's partitions; permutations of concatenations | proved |
| C03, C04 | `Net*` | `mod` arithmetic; contiguous groups tile `0..N` | proved |
| C05, C06 | `Net*` | case analysis | refuted in corners, partial |
| C07, C08 | `Ciu*` | loop invariants of largest remainders in IEEE doubles; offsets tile the partitions | proved for the planner's weights |
| C09, C14, C36 | `Plan*` | stack machines refine structural recursion; induction on plans | partial: corners refuted |
| C10, C22-C26 | `Events*` | algebra of annotations, counting residues | C10, C25 proved; others refuted in corners |
| C11-C13, C15, C49, C52, C54 | `Planner*`, `Whole*` | mutual induction on plans over all passes | C11-C13, C15, C49 proved; C52, C54 partial, refuted |
| C16-C18, C53 | `Join*` | permutation algebra for ten join types, witnesses for the excluded ones | proved |
| C19, C20 | `Fetch*`, `DynFetch*`, `Exec*` | limits as windows of multisets and of sorted lists | refuted in corners, partial |
| C21 | `Agg*` | commutative merges over permutations | refuted for grouping sets, partial |
| C27, C28 | `Bcast*`, `CrashProps` | inductive invariant of an LTS; a panic label | C27 proved, C28 partial, refuted |
| C29 | `Pool*` | invariant over all label sequences | proved |
| C30-C32, C50, C51 | `Demux*`, `Unread*` | history invariants, measure; stuck states | C30 proved; others refuted, partial |
| C33-C35 | `Task*` | invariants over all schedules and clock ticks | C33 proved; C34, C35 refuted, partial |
| C37, C58, C59 | `Sampler*` | the stream machine equals its input | C58, C59 proved; C37 refuted with errors |
| C38-C40, C55, C56 | `Feed*` | index bijection, history invariants | C39 proved; others refuted, partial |
| C41, C42, C57 | `Header*` | lemmas on prefixes of strings | refuted in corners, partial |
| C43, C72, C73 | `Wire*`, `Codec*` | a generic round trip for descriptors of messages, then one lemma per message | C43 proved; C72, C73 refuted in corners |
| C44 | `Error*` | round trip by induction on nested errors; idempotent after one hop | refuted in corners, partial |
| C45 | `Metrics*` | merges are commutative monoids | first-seen refuted, others proved |
| C46, C60-C63 | `Dyn*` | induction over the stages, reuse of the planner's theorems | C46, C60, C63 proved; C61, C62 refuted |
| C47, C64, C66, C67 | `Gather*` | error bounds of binary32 | C66 proved; others refuted, partial |
| C48 | `Exec*` | relation between task-wise and single-node rows, induction on the planner's output | proved for plans without limits and without a round-robin repartition directly below a coalescing operator (refuted there, `RobinProps.v`) |
| C65 | `SampleNet*` | stuck state for every budget; measure for small inputs | refuted, partial |
| C68-C71 | `Cost*` | simplification of complexities preserves evaluation; monotonicity | C69, C70 proved or partial; C68, C69, C71 refuted in part |
| C74 | `Share*` | what `transform` re-allocates | refuted in one process, proved otherwise |
| C75 | `Chan*` | history of attempts and removals | refuted in one corner, proved otherwise |
| C76 | `Mux*` | accounting invariant, measure | proved but for panics |
| C77 | `PartStats*` | error bounds of binary32 | proved |
| C78 | `Run*`, `PlanAnswer*` | progress by the same induction as C48; over the network and with task counts chosen while the query runs | proved for the plans of C48 |
| C79 | `Total*` | induction over the passes; floating-point bound for the task counts | proved but for range repartitions below a merge and factors outside [1, 2) |
| C80 | `Show*` | invariant of the map, uniqueness of sorted lists, grouping by induction | proved for one kind per name and no user label `task_id` |
| C81 | `UserCodec*` | nested induction on plans and expressions over the composed codec | proved for honest codecs in the same order, functions known by name, and boundaries not partitioned by users' expressions |
| C82 | `Explain*` | induction on plans; lines are split back, indentation and depth determine the tree | proved for plans without a stage that is a boundary alone, and that planned queries have none |
| C83 | `Explain*` | the operator as a function of the query's stream | proved |
| C84 | `End*` | invariant of channels; a measure of what is left to do | proved; a feed that does not end keeps the result open (refuted) |
| C85 | `Times*` | invariant of the task's clock readings | proved; order of beginning and end partial (race refuted), wall clock set back (refuted) |
| C86 | `Console*` | invariant of what is kept per worker, over all histories | proved; completed tasks partial (refuted while another query runs); Esc and chosen worker refuted |
| C87 | `Progress*` (over `Task*`) | invariant of the worker's cache | proved; listing of open tasks partial (evicted entry refuted) |
| C88 | `Order*` (over `Exec*`), `DynNetProps` | what operators promise is an inductive relation, kept by every planner pass and by every execution | proved for plans that do not carry an order through a repartition (refuted) and scans split into sorted parts (dealt files refuted) |
| C89 | `NetRun*` (over `Pool*`, `Demux*`, `Net*`, `Exec*`, `Order*`) | refinement: histories of pool and connections against the boundary functions, in both directions | proved; background tasks do not crash |
| C90 | `LeafShow*` (over `Plan*`, `Show*`) | attribution (C36) followed through the lines of a leaf | leaves outside unions; refuted below unions |
| C91 | `Driver*` (over `Gather*`) | walk = fold over the streamed leaves; sums of truncated shares | partial; three refutations |
| C92 | `MergeNet*` (over `Demux*`, `SampleNet*`) | stuck state for every budget and prefetch; measure; progress of a waiting stream | refuted, partial |
| C93 | `Graph*` (over `Net*`) | breadth-first walk is a permutation of the operators; arrows = calls of the boundaries | partial; four refutations |
| C94 | `WSession*` (over `Header*`, `Net*`) | sessions as records; builders as arbitrary functions, the careful ones compose; C01 and C41 for the rest | partial; three refutations |
| C95 | `FeedPlan*` (over `Plan*`, `FeedModel`) | the coordinator's walk and the trimming compared position by position; one position contributes to each queue | partial; three refutations |
| C96 | `Fault*`, `DynFaultProps` (over `NetRun*`, `Exec*`) | a boundary whose partitions all ended normally had all its inputs end normally (the calls reach every partition below); induction on the distributed plan, whose boundaries cover their inputs; then C89 | proved |
| C97 | `Reexec*` (over `Task*`) | an invariant of a site of workers on which several executions of a plan run: every channel and request of a worker belongs to a call or request of an execution that has the task among its keys; with fresh keys per execution two executions never meet; a closed channel's entry is never found again; witnesses of the refutations are complete histories |
| C98 | `Cut*`, `DynFaultProps` (over `NetRun*`, `Fault*`, `Order*`) | readings of partitions (rows so far, end seen or not) instead of outcomes; induction on the plan: a reading of a boundary goes on to an undisturbed exchange that begins with what was taken of its streams, and operators are assumed causal; then C48, C19 and C88 apply to the execution that it is the beginning of |
| C99 | `Serve*` (over `Net*`) | the loop over the requested partitions as a function on the state of the plan; the allocation of the vector as a function of its size; refinement of the calls of `NetModel` | refuted in corners, partial |
| C100 | `Sited*`, `SitedNet*`, `SitedFetch*`, `Answer*` (over `Planner*`, `Exec*`, `Fetch*`, `NetRun*`, `Fault*`, `Cut*`) | typing of plans with boundaries by the task count of their stage; induction over the typing; the single-node plan is typed by the same rules | refuted in corners, otherwise proved |
| C101 | `BcastLife*` (over `Bcast*`) | reference counts = holders; the pool is the sum over caches with a holder; steps project to those of C27; measure on what the tasks have left | refuted in corners, otherwise proved |
| C102 | `Overview*` (over `Console*`) | stable insertion sort against a lexicographic order; folds over workers; the rate as a convex combination in Q | partial: refuted in four corners |
| C103 | `Amount*` | error bounds of double division and decimal rounding (Flocq) | proved; the number may reach that of the next unit (`_refuted`) |
| C104 | `Stagewise*` (over `Dyn*`) | invariant of the tree of futures against the log; freshness of positions; measure; draining of a branch | proved |
| C105 | `Upfront*` (over `Planner*`, `Stagewise*`) | one record of facts about the log, kept by running in turn and by sending a stage; induction on the plan | proved |

`MANIFEST.json` has the exact theorem names and a note for each.

## 6. Where the code and the property disagree

Each of these is a theorem `..._refuted` (with a witness) unless said otherwise. "Reachable" says what it takes.

1. **Rows or results**
   * C05: `with_input_stage` on a coalesce boundary of several consumer tasks loses rows when the producer's task count changes.
   * C06: preparing the head of a stage strips a user's `RepartitionExec` below a coalesce boundary.
   * C03 (remark): a broadcast over an input that was already scaled for its consumers would duplicate; the planner does not build it.
   * C09, C24: a per-task leaf that is alone (one task) executes the original while its variant's partitions are advertised.
   * C19: a `SortExec` with a fetch directly above a user-placed coalesce boundary gets its limit pushed below the sort.
   * C20: a limited build side is cut differently for each consumer task; the join's result is impossible on one node.
   * C21: `PartialReduce` under grouping sets multiplies states (the pass is off by default).
   * C52, C54: operators that need a single partition run once per task (coalescing node above a hash repartition in a later
     stage; a one-partition scan below a broadcast), since required distributions are not looked at.
   * C74: tasks that run in the coordinator's process share operator instances; a shuffle then gives one task the other's partition.
2. **Failures that go unnoticed**
   * C28, C76: a panic in a task that feeds a stream (broadcast, worker's per-partition task, client's demultiplexer) ends
     the stream normally with rows missing.
   * C56: with metrics collection off, a connection lost after the worker's answers truncates feeds silently.
   * C37: an error in the sampled first chunk hides the rows in front of it (the error itself is reported).
   * C39 (remark): the worker sees a clean end of a feed that failed; the error surfaces on the coordinator.
3. **Waiting for ever**
   * C31, C50, C51: budget consumed by dropped or unread streams, or a budget of zero, stalls every sibling of a connection.
   * C35: waiting for metrics of a task that never produced its final plan.
   * C55: a satisfied LIMIT waits for the end of every feed.
   * C65: sampling a skewed stage read through one connection deadlocks, for every budget.
   * C92: an ORDER BY deadlocks if one partition of a task yields more than the connection's budget before a sibling of it yields
     its first row (the merge waits for the sibling, whose messages are behind the closed gate of their common connection); the
     comments in `worker_client.rs` and `distributed_config.rs` say that siblings do not hold each other up.
4. **Resources**
   * C32: bytes buffered for dropped streams are never given back. C34: a failed plan stays registered until idle eviction.
   * C75: a late waiter of a failed connection removes a newer, working one from the cache.
5. **Panics and arithmetic**
   * C07 (unreachable weights), C23 (zero bytes per partition divides by zero), C40 (clock skew underflows), C47 (no progress
     gives 2^64-1 rows or a panic), C68 (cross join of two tables of 2^32 bytes overflows), C72 (tag 3 of a plan node panics).
   * C64 (byte factor truncated to an integer), C67 (`Exact(0)` although rows follow), C71 (an unknown source costs nothing).
6. **Configuration and metadata**
   * C41, C42, C57: option keys with capitals, unset options, nested prefixes; headers named like options; headers not forwarded between workers.
   * C36, C45, C73: per-task variants with children shift metrics; first-seen latency depends on the order; zero times arrive as 1 ns; custom metrics are dropped.
   * C38: two nodes sharing a feed id mix their units. C61, C62: user-placed boundaries and scale-up handlers in dynamic mode.
   * C44: Avro errors, 51 nested contexts, some kinds.
   * C22, C26, C33 (remark): documentation that says something else (uneven groups; order of handlers; `write` "overwrites").
   * C79: `scale_partitioning` returns an error for range partitionings, so a plan with a range repartition below a merge is
     refused by the planner instead of running on one node; a `cardinality_task_count_factor` of 0 is accepted by the
     configuration, can announce 0 tasks, and an isolated union of such stages is refused ("task count 0").
   * C80: two metrics of one name and different kinds make EXPLAIN ANALYZE panic; a user's own label `task_id` takes the place of
     the task's number; the header of a stage stops at the first task without metrics; in one process a counter that moves on
     after it was reported is shown twice as much.
   * C81: the same codecs registered in another order on the worker can make it run another plan without an error; partitionings
     of boundaries are encoded with the crate's codec alone, so a shuffle by a user's expression cannot be sent inside a stage;
     the crate's codec comes first and accepts every function by default, so users' codecs are never asked about functions.
   * C48: **rows are lost without an error** when a round-robin `RepartitionExec` is directly below a `CoalescePartitionsExec` /
     `SortPreservingMergeExec` or at the root (e.g. `df.repartition(RoundRobinBatch(2))`) and has fewer partitions than its
     input: preparing the stage takes the repartition away (`ProducerHead::insert`), but the coalescing boundary was sized with it.
   * C82: EXPLAIN leaves out a stage below a stage (or head) that is nothing but a boundary; the header of a hash-partitioned
     stage below a coalescing boundary shows the partitions of one task instead of those of all.
   * C84: after the last row the result stream waits for the work unit feeds (`drain_pending_tasks`), although no worker reads
     them: a query with a LIMIT over an endless feed does not end.
   * C48: a leaf for which a handler asks for several tasks and which no scale-up handler splits is read in full by each of them;
     the rows are multiplied without an error (`C48_unsplit_leaf_refuted`).
   * C85: two first requests can race, and the slower one writes the beginning of the execution after its end; the times are
     wall-clock times (set back: out of order; skewed: 1 ns).
   * C86: the console clears the completed tasks of a query at once while another query runs on the worker; Esc is dead once
     the worker shown in detail is gone, and the view jumps to another worker if one before it is gone.
   * C87: a task whose entry was idle for ten minutes is evicted and not listed although it is open.
   * C88: NetworkShuffleExec announces the order of the RepartitionExec it replaces (network_shuffle.rs:111-117), which
     DataFusion lets keep the order of a single input partition, but it interleaves the streams of its producer tasks, and
     ProducerHead::insert makes a RepartitionExec without `preserve_order` (network_boundary.rs:100-103): operators that
     were planned without a sort get unsorted rows (`C88_order_through_a_shuffle_refuted`).
   * C88: the default handler deals the files of a scan with a declared output partitioning to new groups
     (file_scan_config.rs:43-53), which mixes files of different sorted groups (`C88_dealt_files_refuted`; the branch for
     other scans asks DataFusion to preserve the order within groups).
   * C90: below a union whose children have tasks of their own, EXPLAIN ANALYZE puts the metrics of one part of a leaf beside
     another part and drops those of the last ones (`display_inner_distributed_leaf` looks up the number of the part, the
     metrics carry the number of the stage's task).
   * C91: the rows read from a leaf are divided by the number of partitions and truncated (`output_rows / partition_count`), so
     a leaf with fewer rows than partitions never counts as progress and the stage is estimated at 2^64-1 rows (panic on overflow
     in debug builds); leaves without row counts, or whose statistics fail, make the stage look further than it is.
   * C93: the Graphviz picture draws nothing between a broadcast and its consumers (`display_inter_task_edges` knows shuffles and
     coalesces only); in a stage with a broadcast it also walks into the broadcast's input stage, unlike the loop that numbers the boxes, so
     arrows of later boundaries lead to boxes that do not exist; a coalesce into several tasks divides by the wrong number of
     tasks; a union's box has only as many ports as its first child has partitions.
   * C94: a worker's session starts from DataFusion's default options; the coordinator's `datafusion.*` options are not sent, although plans
     read them again on the worker (batch size, coalescing, Parquet options, time zone of functions built on the worker). With
     `shuffle_batch_size = 0` the worker uses DataFusion's default batch size, not the coordinator's as documented
     (distributed_config.rs:44). A session builder that returns a session of its own instead of extending `ctx.builder` is accepted; its tasks
     find no `DistributedTaskContext`, whose default is task 0 of 1, and each reads all rows of a shuffle.
   * C95: work unit feeds inside the per-task variants of a `DistributedLeafExec` are not served. The walk that asks the providers does not enter the leaf holder, and the walk that declares feeds replaces the holder by the variant without looking at the variant's root. On a remote worker a feed at the root fails the task ("Missing WorkUnit feed"); in process it stays local, so that all tasks read feeds 0..P-1 with fan-out one. A feed below the root is declared but never fed: it ends empty and its rows are missing without an error.
   * C97: without dynamic task counts every execution of a `DistributedExec` uses the query id made at planning, hence the same task keys. A
     worker frees the key (impl_coordinator_channel.rs:170) only after it has sent the metrics that end the first execution; without metrics
     the first execution does not wait for the worker at all. An execution that follows at once can fail with `already written`; concurrent
     executions share operators; after a plan that could not be built the key stays taken until the idle eviction. The metrics store is not
     emptied between executions, so `wait_for_metrics` returns with the earlier execution's metrics.
   * C19: `push_fetch_into_network_coalesce` runs at planning only (distributed_query_planner.rs:133, 168). Boundaries that are placed while
     the query runs (`dynamic_task_count`) are never limited: below LIMIT 1 every partition of the stage hands over all its rows until its
     stream is dropped. The rows of the result are right nevertheless.

   * C99: `Worker::execute_task` (impl_execute_task.rs:44-45) computes `end - start` and allocates room for as many streams before it compares
     them with the partitions of the plan. `end < start` panics with overflow checks; 2^60 partitions panic in any build; 2^40 partitions abort
     the worker's process where 16 TiB cannot be allocated. Partitions in front of a missing one are executed before the request is refused, and so are
     all of them before an unknown `compression` is noticed (worker_service.rs:149): once-only streams (SamplerExec, BroadcastExec) are lost.

   * C100: `NetworkCoalesceExec::try_new` fixes its partition count from the plan it is given; the planner scales the leaves afterwards
     (distributed_query_planner.rs:113-126) and `prepare_network_boundaries` keeps the old count. If a handler's variants have more partitions than
     the leaf, as `DistributedLeafExec` and docs/source/advanced/05-custom-distributed-plans.md allow, the partitions beyond the old count are never
     read: rows are lost without an error. Also: `BroadcastExec::new(input, M)` with the number M of its readers, as documented, makes every reader see every
     row M times below a `NetworkBroadcastExec`; and a plan with user-placed boundaries whose root has several partitions is wrapped in a
     `DistributedExec` that advertises them all but executes the first only.
   * C101: `BroadcastExec` reserves with `grow`, which never fails: a build side larger than the memory limit is cached all the same
     (`C101_memory_limit_refuted`). After all readers have dropped their streams the task reads on as long as the plan is held
     (`C101_stops_without_readers_refuted`).
   * C102: `sorted_worker_indices` compares CPU usages with `partial_cmp(..).unwrap_or(Equal)`. With a NaN from a worker this is not a
     total order, and `sort_by` may panic then (`C102_rows_in_order_refuted`). `update_throughput` subtracts sums over the tasks listed
     at the moment, so that rows of new tasks vanish when others end (`C102_rate_refuted`). `handle_cluster_keys` calls
     `next(true)`/`prev(true)` whatever the width: a narrow table can be sorted by the column `Queries`, which is not drawn
     (`C102_order_is_visible_refuted`). The cursor keeps its row, not its worker (`C102_chosen_worker_moves_refuted`).
   * C103: the console shows amounts just below the next unit with a number that reaches it: 1048575 bytes as `1024.0 KB`, 999999 rows as `1000.0K` (`C103_next_unit_refuted`).

Observations on the planner that are no theorem: a handler's answer for an isolated union itself is ignored; `Desired(0)` for a
leaf directly under a coalesce gives a stage of 0 tasks; a leaf with a desired count above 1 but without scale-up handler
duplicates its rows; a coalesce boundary over range partitioning is a planning error; the head stage's leaves are scaled for
the injected count although it runs in one task; `normalize_collect_joins` reports an error for a left side of several and a right side
of one partition, which DataFusion does not build.

## 7. Mutation tests

`seeded/LOG.jsonl` has one line per seeded bug: the definition edited, the edit, the claim it breaks, the theorems that no
longer build, those tightened because of it. A mutant that no theorem of its claim rejected led to a stronger theorem (e.g.
`C11_the_maximum`, `one_task_join` in C15) or is explained there (equivalent programs, ghost state).
