(** Model of the three network boundaries and of the worker side of a data request.

    Sources: src/execution_plans/{network_shuffle,network_broadcast,network_coalesce,broadcast,
    common}.rs, src/distributed_planner/network_boundary.rs, src/worker/impl_execute_task.rs,
    src/worker/worker_connection_pool.rs, src/stage.rs. *)
From Verif Require Import Base.

(** src/stage.rs:209-213 [DistributedTaskContext]. *)
Record TaskCtx := mkCtx { task_index : nat; task_count : nat }.

Section Net.
Context {row : Type}.

(** DataFusion [Partitioning]. A hash partitioning carries the function giving the hash of the key
    columns of a row; DataFusion computes it with fixed seeds, so it is the same function in every
    worker. Expressions of range partitionings are not modelled. *)
Inductive partitioning :=
| RoundRobin (n : nat)
| HashP (key_hash : row -> nat) (n : nat)
| RangeP (n : nat)
| UnknownP (n : nat).

Definition partition_count (p : partitioning) : nat :=
  match p with RoundRobin n | HashP _ n | RangeP n | UnknownP n => n end.

(** src/execution_plans/common.rs:18-30 [scale_partitioning]. *)
Definition scale_partitioning (p : partitioning) (f : nat -> nat) : Res partitioning :=
  match p with
  | RoundRobin n => Ok (RoundRobin (f n))
  | HashP h n => Ok (HashP h (f n))
  | UnknownP n => Ok (UnknownP (f n))
  | RangeP _ => Err "range partitioning cannot be scaled"
  end.

(** A stage plan seen from its head. [SOther] is any operator that is neither a RepartitionExec nor
    a BroadcastExec: the number of partitions it advertises and the rows each of them yields in
    the task holding it. *)
Inductive splan :=
| SOther (partitions : nat) (run : nat -> list row)
| SRepart (part : partitioning) (input : splan)
| SBcast (consumer_task_count : nat) (input : splan).

(** Advertised partition counts; broadcast.rs:83-100 multiplies by the consumer task count. *)
Fixpoint parts (p : splan) : nat :=
  match p with
  | SOther n _ => n
  | SRepart part _ => partition_count part
  | SBcast k input => parts input * k
  end.

(** [indexed] pairs every element with its position. *)
Definition indexed {A} (l : list A) : list (nat * A) := combine (seq 0 (List.length l)) l.

(** Executing one partition.
    - RepartitionExec (DataFusion): reads all input partitions; with a hash partitioning a row goes
      to partition [hash mod n]; round robin is simplified to one row per batch, row [k] of input
      partition [j] going to partition [(j*n/inputs + k) mod n]; asking for a partition that does
      not exist panics; range/unknown targets are rejected.
    - BroadcastExec: broadcast.rs:158-215, reading input partition [partition % inputs] (the queue
      shared by its consumers is modelled in BcastModel.v; the rows each consumer sees are those of
      the input partition). A modulo by zero panics.
    Streams are modelled by the finite list of rows they yield. *)
Fixpoint exec (p : splan) (partition : nat) : Res (list row) :=
  match p with
  | SOther n run => if partition <? n then Ok (run partition) else Err "partition out of range"
  | SRepart part input =>
      let* ins := mapM (exec input) (seq 0 (parts input)) in
      match part with
      | HashP h n =>
          if partition <? n
          then Ok (filter (fun r => h r mod n =? partition) (List.concat ins))
          else Panic "repartition channel already taken"
      | RoundRobin n =>
          if partition <? n
          then Ok (flat_map (fun '(j, rows) =>
                     map snd (filter (fun '(k, _) =>
                                 (j * n / List.length ins + k) mod n =? partition) (indexed rows)))
                   (indexed ins))
          else Panic "repartition channel already taken"
      | RangeP _ | UnknownP _ => Err "unsupported repartitioning"
      end
  | SBcast k input =>
      if parts input =? 0 then Panic "remainder by zero"
      else exec input (partition mod parts input)
  end.

(** network_boundary.rs:39-48 [ProducerHead]. *)
Inductive head :=
| HNone
| HBroadcast (output_partitions : nat)
| HRepartition (p : partitioning).

(** network_boundary.rs:87-93, first half of [ProducerHead::insert]. *)
Definition strip_head (input : splan) : splan :=
  match input with
  | SRepart _ i => i
  | SBcast _ i => i
  | SOther n r => SOther n r
  end.

(** network_boundary.rs:86-106 [ProducerHead::insert]. *)
Definition insert_head (h : head) (input : splan) : Res splan :=
  let input := strip_head input in
  match h with
  | HNone => Ok input
  | HBroadcast out =>
      if parts input =? 0 then Panic "division by zero"
      else Ok (SBcast (out / parts input) input)
  | HRepartition p => Ok (SRepart p input)
  end.

(** One call of [WorkerConnectionPool::execute], worker_connection_pool.rs:46-54. *)
Record request := mkReq {
  rq_start : nat;      (* target_partitions.start *)
  rq_end : nat;        (* target_partitions.end *)
  rq_task : nat;       (* target_task *)
  rq_target : nat;     (* target_partition *)
  rq_head : head
}.

(** src/worker/impl_execute_task.rs:37-58, for the plan held by the task that is asked. The range is taken not
    to run backwards, as those of boundaries do not (C99_boundaries_ask_forwards); ServeModel.v has the
    arithmetic of requests for other ranges. *)
Definition worker_execute_task (plan : splan) (h : head) (pstart pend : nat) : Res (list (list row)) :=
  let* plan := insert_head h plan in
  let partition_count := parts plan in
  mapM (fun partition =>
          if partition_count <=? partition then Err "partition not available"
          else exec plan partition)
       (seq pstart (pend - pstart)).

(** worker_connection_pool.rs:46-145. The connection is created once per target task and shared by
    the calls of one node; sharing, consumption of the slots and failures are modelled in
    PoolModel.v. All calls issued by one node in one task carry the same range and head (see
    C29_shuffle_calls_fit and its siblings in PoolProps.v), hence each call is treated as its own request here.
    [producers t] is the plan held by producer task [t]; [workers] is the number of worker URLs in
    the remote stage; [pool] the number of connection slots. *)
Definition pool_execute (producers : nat -> splan) (workers pool : nat) (r : request)
  : Res (list row) :=
  if workers <=? rq_task r then Err "workers out of range" else
  if pool <=? rq_task r then Err "task index not found" else
  let* streams := worker_execute_task (producers (rq_task r)) (rq_head r) (rq_start r) (rq_end r) in
  if rq_target r <? rq_start r then Panic "subtract with overflow" else
  match nth_error streams (rq_target r - rq_start r) with
  | Some s => Ok s
  | None => Err "no stream for partition"
  end.

(** src/stage.rs:76-117 [Stage]; ids and statistics are not needed here. *)
Inductive stage :=
| Local (plan : splan) (tasks : nat)
| Remote (workers : nat).

(** src/stage.rs:134-139. *)
Definition stage_task_count (s : stage) : nat :=
  match s with Local _ n => n | Remote n => n end.

(** src/stage.rs:94-105 [LocalStage::execute]; one stream. *)
Definition local_execute (plan : splan) (tasks partition : nat) : Res (list (list row)) :=
  if 1 <? tasks then Err "Cannot execute a local stage with more than 1 task"
  else let* s := exec plan partition in Ok [s].

(** * NetworkShuffleExec *)

(** network_shuffle.rs:103-108; [worker_connections] is represented by its number of slots. *)
Record shuffle := mkShuffle { sh_part : partitioning; sh_stage : stage; sh_pool : nat }.

(** network_shuffle.rs:111-143 [try_new] and [from_stage]. *)
Definition shuffle_try_new (input : splan) (producer_tasks : nat) : Res shuffle :=
  match input with
  | SRepart (HashP h n) i =>
      Ok (mkShuffle (HashP h n) (Local input producer_tasks) producer_tasks)
  | SRepart _ _ => Err "must be hash partitioned"
  | _ => Err "can only be a RepartitionExec"
  end.

(** network_shuffle.rs:151-156. *)
Definition shuffle_with_input_stage (s : shuffle) (st : stage) : shuffle :=
  mkShuffle (sh_part s) st (stage_task_count st).

(** network_shuffle.rs:158-165. *)
Definition shuffle_producer_head (s : shuffle) (consumer_task_count : nat) : Res head :=
  let* p := scale_partitioning (sh_part s) (fun prev => prev * consumer_task_count) in
  Ok (HRepartition p).

(** network_shuffle.rs:231-245: the calls made to the connection pool. *)
Definition shuffle_requests (s : shuffle) (workers : nat) (ctx : TaskCtx) (partition : nat)
  : Res (list request) :=
  let out_partitions := partition_count (sh_part s) in
  let off := out_partitions * task_index ctx in
  mapM (fun input_task_index =>
          let* h := shuffle_producer_head s (task_count ctx) in
          Ok (mkReq off (off + out_partitions) input_task_index (off + partition) h))
       (seq 0 workers).

(** network_shuffle.rs:221-251 [execute]: the streams handed to [select_all]. *)
Definition shuffle_execute (producers : nat -> splan) (s : shuffle) (ctx : TaskCtx) (partition : nat)
  : Res (list (list row)) :=
  match sh_stage s with
  | Local plan tasks => local_execute plan tasks partition
  | Remote workers =>
      let* reqs := shuffle_requests s workers ctx partition in
      mapM (pool_execute producers workers (sh_pool s)) reqs
  end.

(** * NetworkBroadcastExec *)

(** network_broadcast.rs:121-125. *)
Record broadcast := mkBroadcast { br_parts : nat; br_stage : stage; br_pool : nat }.

(** network_broadcast.rs:128-163 [try_new] and [from_stage]. *)
Definition broadcast_try_new (input : splan) (producer_tasks : nat) : Res broadcast :=
  match input with
  | SBcast k i => Ok (mkBroadcast (parts input) (Local input producer_tasks) producer_tasks)
  | _ => Err "can only be a BroadcastExec"
  end.

(** network_broadcast.rs:167-172. *)
Definition broadcast_with_input_stage (b : broadcast) (st : stage) : broadcast :=
  mkBroadcast (br_parts b) st (stage_task_count st).

(** network_broadcast.rs:178-183. *)
Definition broadcast_producer_head (b : broadcast) (consumer_task_count : nat) : head :=
  HBroadcast (br_parts b * consumer_task_count).

(** network_broadcast.rs:255-269. *)
Definition broadcast_requests (b : broadcast) (workers : nat) (ctx : TaskCtx) (partition : nat)
  : list request :=
  let off := br_parts b * task_index ctx in
  map (fun input_task_index =>
         mkReq off (off + br_parts b) input_task_index (off + partition)
               (broadcast_producer_head b (task_count ctx)))
      (seq 0 workers).

(** network_broadcast.rs:245-275 [execute]. *)
Definition broadcast_execute (producers : nat -> splan) (b : broadcast) (ctx : TaskCtx)
    (partition : nat) : Res (list (list row)) :=
  match br_stage b with
  | Local plan tasks => local_execute plan tasks partition
  | Remote workers =>
      mapM (pool_execute producers workers (br_pool b))
           (broadcast_requests b workers ctx partition)
  end.

(** * NetworkCoalesceExec *)

(** network_coalesce.rs:79-83. *)
Record coalesce := mkCoalesce { co_part : partitioning; co_stage : stage; co_pool : nat }.

(** network_coalesce.rs:86-102 [try_from_stage]; [div_ceil] by zero panics. *)
Definition coalesce_try_from_stage (st : stage) (input_part : partitioning) (consumer_tasks : nat)
  : Res coalesce :=
  if consumer_tasks =? 0 then Panic "division by zero" else
  let max_input_task_count := Nat.max (div_ceil (stage_task_count st) consumer_tasks) 1 in
  let* p := scale_partitioning input_part (fun p => p * max_input_task_count) in
  Ok (mkCoalesce p st (stage_task_count st)).

(** Output partitioning of a stage plan; a BroadcastExec is Unknown (broadcast.rs:87-88), the
    partitioning of other operators is abstracted to Unknown. *)
Definition plan_partitioning (p : splan) : partitioning :=
  match p with
  | SOther n _ => UnknownP n
  | SRepart part _ => part
  | SBcast _ _ => UnknownP (parts p)
  end.

(** network_coalesce.rs:118-142 [try_new]. *)
Definition coalesce_try_new (input : splan) (producer_tasks consumer_tasks : nat) : Res coalesce :=
  if consumer_tasks =? 0 then Err "consumer_tasks must not be 0" else
  coalesce_try_from_stage (Local input producer_tasks) (plan_partitioning input) consumer_tasks.

(** network_coalesce.rs:199-207 [with_input_stage]. *)
Definition coalesce_with_input_stage (c : coalesce) (st : stage) : Res coalesce :=
  let* p := scale_partitioning (co_part c)
              (fun p => p * stage_task_count st / Nat.max (stage_task_count (co_stage c)) 1) in
  Ok (mkCoalesce p st (stage_task_count st)).

(** network_coalesce.rs:209-211. *)
Definition coalesce_producer_head (_ : coalesce) (_ : nat) : head := HNone.

(** network_coalesce.rs:361-373. *)
Record task_group_t := mkGroup { start_task : nat; group_len : nat; max_len : nat }.

(** network_coalesce.rs:376-400 [task_group]. *)
Definition task_group (input_task_count task_index task_count : nat) : task_group_t :=
  if task_count =? 0 then mkGroup 0 0 0 else
  let base := input_task_count / task_count in
  let extra := input_task_count mod task_count in
  mkGroup (task_index * base + Nat.min task_index extra)
          (base + if task_index <? extra then 1 else 0)
          (base + if 0 <? extra then 1 else 0).

(** network_coalesce.rs:277-336: the call made to the connection pool, if any. *)
Definition coalesce_request (c : coalesce) (ctx : TaskCtx) (partition : nat)
  : Res (option request) :=
  if task_count ctx <=? task_index ctx then Err "invalid task context" else
  let out_partitions := partition_count (co_part c) in
  let input_task_count := stage_task_count (co_stage c) in
  let partitions_per_task :=
    out_partitions / Nat.max (div_ceil input_task_count (task_count ctx)) 1 in
  if partitions_per_task =? 0 then Err "0 partitions per input task" else
  let group := task_group input_task_count (task_index ctx) (task_count ctx) in
  let input_task_offset := partition / partitions_per_task in
  let target_partition := partition mod partitions_per_task in
  if group_len group <=? input_task_offset then Ok None else
  if max_len group <=? input_task_offset then Err "input_task_offset >= group.max_len" else
  Ok (Some (mkReq 0 partitions_per_task (start_task group + input_task_offset) target_partition
                  (coalesce_producer_head c (task_count ctx)))).

(** network_coalesce.rs:267-342 [execute]; no stream stands for [EmptyRecordBatchStream]. *)
Definition coalesce_execute (producers : nat -> splan) (c : coalesce) (ctx : TaskCtx)
    (partition : nat) : Res (list (list row)) :=
  match co_stage c with
  | Local plan tasks => local_execute plan tasks partition
  | Remote workers =>
      let* r := coalesce_request c ctx partition in
      match r with
      | None => Ok []
      | Some r => let* s := pool_execute producers workers (co_pool c) r in Ok [s]
      end
  end.

End Net.

Arguments partitioning : clear implicits.
Arguments splan : clear implicits.
Arguments head : clear implicits.
Arguments request : clear implicits.
Arguments stage : clear implicits.
Arguments shuffle : clear implicits.
Arguments broadcast : clear implicits.
Arguments coalesce : clear implicits.
