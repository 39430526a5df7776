(** Messages between coordinator and workers, and the nodes of plans, as protobuf messages.

    Types: [usize] has 64 bits, so [as u64] and [as usize] change nothing; numbers are below 2^64. Strings are the bytes of their
    UTF-8 encoding. Floats are their bits. An error's text is kept only where the code gives a fixed one; a gRPC status and a
    DataFusionError are both an [Err]. Decoded messages have the shape of their type; where a getter below finds another shape
    its answer is arbitrary. *)
From Verif Require Import Base CiuModel WireModel.
From Coq Require Import NArith ZArith.
Local Open Scope N_scope.

(** ** Message types *)

(** Messages with the same fields share a name: [ValueMsg] is OutputRows, ElapsedCompute, SpillCount, SpilledBytes, SpilledRows,
    CurrentMemoryUsage, OutputBytes, OutputBatches; [NamedMsg] NamedCount, NamedGauge, PeakMemoryUsage, NamedTime, BytesCount,
    MinLatency, MaxLatency, FirstLatency, MaxGauge; [NamedPairMsg] NamedPruningMetrics, NamedRatio, AvgLatency; [TimestampMsg]
    StartTimestamp, EndTimestamp; [BoundaryMsg] NetworkShuffleExecProto, NetworkCoalesceExecProto, NetworkBroadcastExecProto. *)
Inductive msg :=
| CoordinatorToWorkerMsg | WorkerToCoordinatorMsg | TaskMetricsMsg | LoadInfoMsg | SetPlanMsg | DeclarationMsg
| WorkUnitBatchMsg | WorkUnitMsg | ExecuteTaskMsg | NoneHeadMsg | BroadcastHeadMsg | RepartitionHeadMsg | TaskKeyMsg
| FlightAppMetadataMsg | LabelMsg | MetricMsg | MetricsSetMsg | ValueMsg | NamedMsg | NamedPairMsg | TimestampMsg | SketchMsg
| StageMsg | ExecutionTaskMsg | DistributedExecMsg | BoundaryMsg | UnionMsg | WeightMsg | TaskMapMsg | ChildTaskMsg
| BroadcastMsg | SamplerMsg.

(** src/protocol/grpc/generated/worker.rs:2-477 and src/codec/distributed_codec.rs:378-565. *)
Definition fields_of (m : msg) : list (field msg) :=
  match m with
  | CoordinatorToWorkerMsg => [Oneof [1; 2; 3] [(1, TMsg SetPlanMsg); (2, TMsg WorkUnitBatchMsg); (3, TBool)]]
  | WorkerToCoordinatorMsg => [Oneof [1; 2; 3] [(1, TMsg TaskMetricsMsg); (2, TMsg LoadInfoMsg); (3, TBool)]]
  | TaskMetricsMsg => [Repeated 1 (TMsg MetricsSetMsg); Optional 2 (TMsg MetricsSetMsg)]
  | LoadInfoMsg => [Implicit 1 TVarint; Implicit 2 TVarint; Repeated 4 TVarint; Repeated 6 TF32; Repeated 7 TF32; Implicit 8 TVarint; Implicit 9 TBool]
  | SetPlanMsg => [Optional 1 (TMsg TaskKeyMsg); Implicit 2 TVarint; Implicit 3 TBytes; Repeated 4 (TMsg DeclarationMsg); Implicit 5 TString; Implicit 6 TVarint]
  | DeclarationMsg => [Implicit 1 TBytes; Implicit 2 TVarint]
  | WorkUnitBatchMsg => [Repeated 1 (TMsg WorkUnitMsg)]
  | WorkUnitMsg => [Implicit 1 TBytes; Implicit 2 TVarint; Implicit 3 TBytes; Implicit 4 TVarint; Implicit 5 TVarint; Implicit 6 TVarint; Implicit 7 TVarint]
  | ExecuteTaskMsg => [Optional 1 (TMsg TaskKeyMsg); Implicit 2 TVarint; Implicit 3 TVarint;
                       Oneof [6; 7; 8] [(6, TMsg NoneHeadMsg); (7, TMsg BroadcastHeadMsg); (8, TMsg RepartitionHeadMsg)]]
  | NoneHeadMsg => []
  | BroadcastHeadMsg => [Implicit 1 TVarint]
  | RepartitionHeadMsg => [Implicit 1 TBytes]
  | TaskKeyMsg => [Implicit 1 TBytes; Implicit 2 TVarint; Implicit 3 TVarint]
  | FlightAppMetadataMsg => [Implicit 1 TVarint; Implicit 2 TVarint]
  | LabelMsg => [Implicit 1 TString; Implicit 2 TString]
  | MetricMsg =>
      [Repeated 1 (TMsg LabelMsg); Optional 2 TVarint;
       Oneof [10; 11; 12; 13; 14; 15; 16; 17; 18; 19; 20; 21; 22; 23; 24; 25; 26; 27; 28; 29; 30; 31; 32; 33; 34; 35]
         [(10, TMsg ValueMsg); (11, TMsg ValueMsg); (12, TMsg ValueMsg); (13, TMsg ValueMsg); (14, TMsg ValueMsg); (15, TMsg ValueMsg);
          (16, TMsg NamedMsg); (17, TMsg NamedMsg); (18, TMsg NamedMsg); (19, TMsg TimestampMsg); (20, TMsg TimestampMsg);
          (21, TMsg ValueMsg); (22, TMsg ValueMsg); (23, TMsg NamedPairMsg); (24, TMsg NamedPairMsg); (25, TMsg NamedMsg);
          (26, TMsg NamedMsg); (27, TMsg NamedPairMsg); (28, TMsg NamedMsg); (29, TMsg NamedMsg); (30, TMsg SketchMsg);
          (31, TMsg SketchMsg); (32, TMsg SketchMsg); (33, TMsg SketchMsg); (34, TMsg NamedMsg); (35, TMsg NamedMsg)]]
  | MetricsSetMsg => [Repeated 1 (TMsg MetricMsg)]
  | ValueMsg => [Implicit 1 TVarint]
  | NamedMsg => [Implicit 1 TString; Implicit 2 TVarint]
  | NamedPairMsg => [Implicit 1 TString; Implicit 2 TVarint; Implicit 3 TVarint]
  | TimestampMsg => [Optional 1 TVarint]
  | SketchMsg => [Implicit 1 TString; Implicit 4 TBytes]
  | StageMsg => [Implicit 1 TBytes; Implicit 2 TVarint; Repeated 3 (TMsg ExecutionTaskMsg)]
  | ExecutionTaskMsg => [Optional 1 TString]
  (* The tags listed include 3, which the enum has not. *)
  | DistributedExecMsg =>
      [Oneof [1; 2; 3; 4; 5; 6; 7]
         [(1, TMsg BoundaryMsg); (2, TMsg BoundaryMsg); (4, TMsg UnionMsg); (5, TMsg BoundaryMsg); (6, TMsg BroadcastMsg); (7, TMsg SamplerMsg)]]
  | BoundaryMsg => [Optional 1 TLib; Optional 2 TLib; Optional 3 (TMsg StageMsg)]
  | UnionMsg => [Implicit 1 TVarint; Repeated 2 (TMsg TaskMapMsg); Repeated 3 (TMsg WeightMsg)]
  | WeightMsg => [Implicit 1 TF64; Optional 2 TVarint]
  | TaskMapMsg => [Repeated 1 (TMsg ChildTaskMsg)]
  | ChildTaskMsg => [Implicit 1 TVarint; Implicit 2 TVarint; Implicit 3 TVarint]
  | BroadcastMsg => [Implicit 1 TVarint]
  | SamplerMsg => []
  end.

(** ** Fields of messages *)

Notation message := (list (content msg)).
Notation bytes := (list N).

Definition one (tag : N) (v : value msg) : content msg := [(tag, v)].
Definition all {A} (tag : N) (f : A -> value msg) (l : list A) : content msg := map (fun a => (tag, f a)) l.

Definition as_num (v : value msg) : N := match v with Varint n | Fixed64 n | Fixed32 n => n | _ => 0 end.
Definition as_blob (v : value msg) : bytes := match v with Blob l => l | _ => [] end.
Definition as_message (v : value msg) : message := match v with Message _ cs => cs | _ => [] end.
(** The [i]-th field: a plain number, plain bytes, an option, a vector. *)
Definition field_at (i : nat) (m : message) : content msg := nth i m [].
Definition num (i : nat) (m : message) : N := match field_at i m with (_, v) :: _ => as_num v | [] => 0 end.
Definition blob (i : nat) (m : message) : bytes := match field_at i m with (_, v) :: _ => as_blob v | [] => [] end.
Definition opt (i : nat) (m : message) : option (value msg) := match field_at i m with (_, v) :: _ => Some v | [] => None end.
Definition vec (i : nat) (m : message) : list (value msg) := map snd (field_at i m).

(** [.into_iter().map(f).collect::<Result<_>>()]: the first error. *)
Fixpoint collect {A B} (f : A -> Res B) (l : list A) : Res (list B) :=
  match l with
  | [] => Ok []
  | a :: l => let* b := f a in let* bs := collect f l in Ok (b :: bs)
  end.
(** [ok_or_else]. *)
Definition or_err {A} (o : option A) (e : string) : Res A := match o with Some a => Ok a | None => Err e end.

(** ** Identifiers *)

(** src/common/uuid.rs:5-11; a Uuid is its 16 bytes. *)
Definition serialize_uuid (id : bytes) : bytes := id.
Definition deserialize_uuid (bs : bytes) : Res bytes := if Nat.eqb (List.length bs) 16 then Ok bs else Err "Invalid Uuid bytes".

(** src/protocol/worker_channel.rs:57-65 *)
Record task_key := { query_id : bytes; stage_id : N; task_number : N }.
(** src/protocol/grpc/worker_client.rs:487-493 *)
Definition encode_task_key (k : task_key) : message :=
  [one 1 (Blob (serialize_uuid (query_id k))); one 2 (Varint (stage_id k)); one 3 (Varint (task_number k))].
(** src/protocol/grpc/worker_service.rs:342-348 *)
Definition decode_task_key (m : message) : Res task_key :=
  let* q := deserialize_uuid (blob 0 m) in Ok {| query_id := q; stage_id := num 1 m; task_number := num 2 m |}.

(** src/common/maybe_encoded.rs:15-18 *)
Inductive maybe_encoded (A : Type) := Encoded (b : bytes) | Decoded (a : A).
Arguments Encoded {A} b. Arguments Decoded {A} a.

Section Codec.
(** Of other libraries: UTF-8, URLs, the codecs of schemas, partitionings and whole plans, user-defined work units, sketches. *)
Variable utf8 : bytes -> bool.
Variables (url plan partitioning schema work_unit_body sketch : Type).
Variables (url_to_string : url -> bytes) (url_parse : bytes -> option url).
Variable plan_to_bytes : plan -> Res bytes.
Variables (partitioning_to_bytes : partitioning -> Res bytes) (partitioning_from_bytes : schema -> bytes -> Res (option partitioning)).
Variables (schema_to_bytes : schema -> Res bytes) (schema_from_bytes : bytes -> Res schema).
Variable body_to_bytes : work_unit_body -> bytes.
Variables (sketch_to_bytes : sketch -> Res bytes) (sketch_from_bytes : bytes -> Res sketch).

Notation encode := (WireModel.encode msg fields_of).
Notation decode := (WireModel.decode msg fields_of utf8).

(** src/common/maybe_encoded.rs:53-58, 74-79 *)
Definition maybe_encode {A} (to_bytes : A -> Res bytes) (x : maybe_encoded A) : Res bytes :=
  match x with Encoded b => Ok b | Decoded a => to_bytes a end.

(** ** From the coordinator *)

(** src/protocol/worker_channel.rs:67-93 *)
Record declaration := { feed_id : bytes; feed_partitions : N }.
Record set_plan_request := {
  plan_task_key : task_key; task_count : N; task_plan : maybe_encoded plan; declarations : list declaration;
  target_worker_url : url; query_start_time_ns : N
}.
(** src/protocol/grpc/worker_client.rs:478-485 *)
Definition encode_declaration (d : declaration) : message := [one 1 (Blob (serialize_uuid (feed_id d))); one 2 (Varint (feed_partitions d))].
(** src/protocol/grpc/worker_service.rs:333-340 *)
Definition decode_declaration (m : message) : Res declaration :=
  let* i := deserialize_uuid (blob 0 m) in Ok {| feed_id := i; feed_partitions := num 1 m |}.

(** src/protocol/grpc/worker_client.rs:437-455 *)
Definition encode_set_plan_request (r : set_plan_request) : Res message :=
  let* plan_proto := maybe_encode plan_to_bytes (task_plan r) in
  Ok [one 1 (Message TaskKeyMsg (encode_task_key (plan_task_key r))); one 2 (Varint (task_count r)); one 3 (Blob plan_proto);
      all 4 (fun d => Message DeclarationMsg (encode_declaration d)) (declarations r);
      one 5 (Blob (url_to_string (target_worker_url r))); one 6 (Varint (query_start_time_ns r))].
(** src/protocol/grpc/worker_service.rs:219-232, 350-353 *)
Definition decode_set_plan_request (m : message) : Res set_plan_request :=
  let* k := or_err (opt 0 m) "Missing field 'task_key'" in
  let* k := decode_task_key (as_message k) in
  let* ds := collect (fun v => decode_declaration (as_message v)) (vec 3 m) in
  let* u := or_err (url_parse (blob 4 m)) "Invalid field 'target_worker_url'" in
  Ok {| plan_task_key := k; task_count := num 1 m; task_plan := Encoded (blob 2 m); declarations := ds;
        target_worker_url := u; query_start_time_ns := num 5 m |}.

(** src/protocol/worker_channel.rs:95-115, src/common/maybe_encoded.rs *)
Record work_unit := {
  unit_id : bytes; unit_partition : N; unit_body : maybe_encoded work_unit_body;
  created : N; sent : N; received : N; processed : N
}.
(** src/protocol/grpc/worker_client.rs:463-476 *)
Definition encode_work_unit (u : work_unit) : message :=
  [one 1 (Blob (serialize_uuid (unit_id u))); one 2 (Varint (unit_partition u));
   one 3 (Blob (match unit_body u with Encoded b => b | Decoded a => body_to_bytes a end));
   one 4 (Varint (created u)); one 5 (Varint (sent u)); one 6 (Varint (received u)); one 7 (Varint (processed u))].
(** src/protocol/grpc/worker_service.rs:321-331 *)
Definition decode_work_unit (m : message) : Res work_unit :=
  let* i := deserialize_uuid (blob 0 m) in
  Ok {| unit_id := i; unit_partition := num 1 m; unit_body := Encoded (blob 2 m);
        created := num 3 m; sent := num 4 m; received := num 5 m; processed := num 6 m |}.

(** src/protocol/worker_channel.rs:48-55 *)
Inductive coordinator_to_worker := WorkUnitBatch (batch : list work_unit) | WorkUnitEos.
(** src/protocol/grpc/worker_client.rs:424-435, 457-461 *)
Definition encode_coordinator_to_worker (m : coordinator_to_worker) : message :=
  [match m with
   | WorkUnitBatch batch => one 2 (Message WorkUnitBatchMsg [all 1 (fun u => Message WorkUnitMsg (encode_work_unit u)) batch])
   | WorkUnitEos => one 3 (Varint 1)
   end].
(** src/protocol/grpc/worker_service.rs:196-217, 311-319 *)
Definition decode_coordinator_to_worker (m : message) : Res coordinator_to_worker :=
  match field_at 0 m with
  | [] => Err "Missing field 'CoordinatorToWorkerMsg.inner'"
  | (tag, v) :: _ =>
      if tag =? 1 then Err "SetPlanRequest must be the first coordinator message"
      else if tag =? 2 then
        let* batch := collect (fun v => decode_work_unit (as_message v)) (vec 0 (as_message v)) in Ok (WorkUnitBatch batch)
      else Ok WorkUnitEos
  end.

(** The bytes of the first message of a coordinator channel and of those after it: src/protocol/grpc/worker_client.rs:56-66. *)
Definition send_set_plan (r : set_plan_request) : Res bytes :=
  let* m := encode_set_plan_request r in Ok (encode CoordinatorToWorkerMsg [one 1 (Message SetPlanMsg m)]).
Definition send_to_worker (m : coordinator_to_worker) : bytes := encode CoordinatorToWorkerMsg (encode_coordinator_to_worker m).
(** The worker's side: src/protocol/grpc/worker_service.rs:94-115. *)
Definition receive_set_plan (bs : bytes) : Res set_plan_request :=
  let* m := decode CoordinatorToWorkerMsg bs in
  match field_at 0 m with
  | [] => Err "Missing field 'CoordinatorToWorkerMsg.inner'"
  | (tag, v) :: _ =>
      if tag =? 1 then decode_set_plan_request (as_message v) else Err "First Coordinator to Worker message must be SetPlanRequest"
  end.
Definition receive_at_worker (bs : bytes) : Res coordinator_to_worker :=
  let* m := decode CoordinatorToWorkerMsg bs in decode_coordinator_to_worker m.

(** ** From a worker *)

(** src/protocol/worker_channel.rs:141-161 *)
Record load_info := {
  load_partition : N; rows_ready : N; per_column_bytes_ready : list N; per_column_ndv_percentage : list N;
  per_column_null_percentage : list N; rows_pulled_from_leaf : N; reached_eos : bool
}.
(** src/protocol/grpc/worker_service.rs:295-309 *)
Definition encode_load_info (l : load_info) : message :=
  [one 1 (Varint (load_partition l)); one 2 (Varint (rows_ready l)); all 4 Varint (per_column_bytes_ready l);
   all 6 Fixed32 (per_column_ndv_percentage l); all 7 Fixed32 (per_column_null_percentage l);
   one 8 (Varint (rows_pulled_from_leaf l)); one 9 (Varint (if reached_eos l then 1 else 0))].
(** src/protocol/grpc/worker_client.rs:529-543 *)
Definition decode_load_info (m : message) : load_info :=
  {| load_partition := num 0 m; rows_ready := num 1 m; per_column_bytes_ready := map as_num (vec 2 m);
     per_column_ndv_percentage := map as_num (vec 3 m); per_column_null_percentage := map as_num (vec 4 m);
     rows_pulled_from_leaf := num 5 m; reached_eos := negb (num 6 m =? 0) |}.

(** DataFusion's [MetricValue] and the metrics of src/metrics (latency_metric.rs, bytes_metric.rs, max_gauge_metric.rs). Times are
    in nanoseconds, timestamps in nanoseconds since 1970. [Percentile 0..3] are P50, P75, P95 and P99LatencyMetric. [OtherCustom]
    is any other custom metric. Simplification: the category of a metric ([MetricType]), which is not sent, is left out. *)
Inductive metric_value :=
| OutputRows (n : N) | ElapsedCompute (n : N) | SpillCount (n : N) | SpilledBytes (n : N) | SpilledRows (n : N)
| CurrentMemoryUsage (n : N) | Count (name : bytes) (n : N) | Gauge (name : bytes) (n : N) | PeakMemoryUsage (name : bytes) (n : N)
| Time (name : bytes) (n : N) | StartTimestamp (t : option Z) | EndTimestamp (t : option Z) | OutputBytes (n : N) | OutputBatches (n : N)
| PruningMetrics (name : bytes) (pruned matched : N) | Ratio (name : bytes) (part total : N)
| MinLatency (name : bytes) (n : N) | MaxLatency (name : bytes) (n : N) | AvgLatency (name : bytes) (nanos_sum count : N)
| FirstLatency (name : bytes) (n : N) | BytesCount (name : bytes) (n : N)
| P50 (name : bytes) (s : sketch) | P75 (name : bytes) (s : sketch) | P95 (name : bytes) (s : sketch) | P99 (name : bytes) (s : sketch)
| MaxGauge (name : bytes) (n : N) | OtherCustom (name : bytes).
Record metric := { labels : list (bytes * bytes); partition : option N; metric_val : metric_value }.

(** i64 as the varint of its 64 bits. *)
Definition i64_bits (z : Z) : N := Z.to_N (z mod 2 ^ 64)%Z.
Definition bits_i64 (n : N) : Z := if n <? 2 ^ 63 then Z.of_N n else (Z.of_N n - 2 ^ 64)%Z.
(** chrono's [timestamp_nanos_opt]. *)
Definition timestamp_nanos_opt (z : Z) : option Z := if ((- 2 ^ 63 <=? z) && (z <? 2 ^ 63))%Z then Some z else None.

Definition value_msg (tag n : N) : content msg := one tag (Message ValueMsg [one 1 (Varint n)]).
Definition named_msg (tag : N) (name : bytes) (n : N) : content msg := one tag (Message NamedMsg [one 1 (Blob name); one 2 (Varint n)]).
Definition named_pair_msg (tag : N) (name : bytes) (a b : N) : content msg :=
  one tag (Message NamedPairMsg [one 1 (Blob name); one 2 (Varint a); one 3 (Varint b)]).
Definition timestamp_msg (tag : N) (t : option Z) : Res (content msg) :=
  let* v := match t with
            | None => Ok []
            | Some z => let* z := or_err (timestamp_nanos_opt z) "encountered a timestamp which cannot be represented via a nanosecond timestamp" in
                        Ok (one 1 (Varint (i64_bits z)))
            end in
  Ok (one tag (Message TimestampMsg [v])).
Definition sketch_msg (tag : N) (name : bytes) (s : sketch) : Res (content msg) :=
  let* b := sketch_to_bytes s in Ok (one tag (Message SketchMsg [one 1 (Blob name); one 4 (Blob b)])).

(** src/protocol/grpc/metrics_proto.rs:58-290. The error for a metric that is not supported is [None]. *)
Definition encode_metric_value (v : metric_value) : Res (option (content msg)) :=
  match v with
  | OutputRows n => Ok (Some (value_msg 10 n))
  | ElapsedCompute n => Ok (Some (value_msg 11 n))
  | SpillCount n => Ok (Some (value_msg 12 n))
  | SpilledBytes n => Ok (Some (value_msg 13 n))
  | SpilledRows n => Ok (Some (value_msg 14 n))
  | CurrentMemoryUsage n => Ok (Some (value_msg 15 n))
  | Count name n => Ok (Some (named_msg 16 name n))
  | Gauge name n => Ok (Some (named_msg 17 name n))
  | PeakMemoryUsage name n => Ok (Some (named_msg 35 name n))
  | Time name n => Ok (Some (named_msg 18 name n))
  | StartTimestamp t => let* c := timestamp_msg 19 t in Ok (Some c)
  | EndTimestamp t => let* c := timestamp_msg 20 t in Ok (Some c)
  | MinLatency name n => Ok (Some (named_msg 25 name n))
  | MaxLatency name n => Ok (Some (named_msg 26 name n))
  | AvgLatency name s c => Ok (Some (named_pair_msg 27 name s c))
  | FirstLatency name n => Ok (Some (named_msg 28 name n))
  | BytesCount name n => Ok (Some (named_msg 29 name n))
  | P50 name s => let* c := sketch_msg 30 name s in Ok (Some c)
  | P75 name s => let* c := sketch_msg 31 name s in Ok (Some c)
  | P95 name s => let* c := sketch_msg 32 name s in Ok (Some c)
  | P99 name s => let* c := sketch_msg 33 name s in Ok (Some c)
  | MaxGauge name n => Ok (Some (named_msg 34 name n))
  | OtherCustom _ => Ok None
  | OutputBytes n => Ok (Some (value_msg 21 n))
  | OutputBatches n => Ok (Some (value_msg 22 n))
  | PruningMetrics name p m => Ok (Some (named_pair_msg 23 name p m))
  | Ratio name p t => Ok (Some (named_pair_msg 24 name p t))
  end.
Definition encode_metric (m : metric) : Res (option message) :=
  let* v := encode_metric_value (metric_val m) in
  Ok (option_map (fun v => [all 1 (fun l => Message LabelMsg [one 1 (Blob (fst l)); one 2 (Blob (snd l))]) (labels m);
                            match partition m with Some p => one 2 (Varint p) | None => [] end; v]) v).
(** [df_metrics_set_to_proto], src/protocol/grpc/metrics_proto.rs:20-43: what is not supported is left out, other errors are
    returned. *)
Fixpoint encode_metrics_set (ms : list metric) : Res message :=
  match ms with
  | [] => Ok [[]]
  | m :: ms =>
      let* x := encode_metric m in
      let* rest := encode_metrics_set ms in
      match x with
      | Some x => Ok [(1, Message MetricMsg x) :: field_at 0 rest]
      | None => Ok rest
      end
  end.

(** DataFusion's [Time::new()] and [add_duration], which adds at least one nanosecond. *)
Definition time_of (nanos : N) : N := N.max nanos 1.
Definition decode_timestamp (m : message) : option Z := option_map (fun v => bits_i64 (as_num v)) (opt 0 m).
Definition decode_sketch (f : bytes -> sketch -> metric_value) (m : message) : Res metric_value :=
  let* s := sketch_from_bytes (blob 1 m) in Ok (f (blob 0 m) s).
(** [metric_proto_to_df], src/protocol/grpc/metrics_proto.rs:293-590. *)
Definition decode_metric_value (c : content msg) : Res metric_value :=
  match c with
  | [] => Err "proto metric is missing the metric field"
  | (tag, v) :: _ =>
      let m := as_message v in
      if tag =? 10 then Ok (OutputRows (num 0 m))
      else if tag =? 11 then Ok (ElapsedCompute (time_of (num 0 m)))
      else if tag =? 12 then Ok (SpillCount (num 0 m))
      else if tag =? 13 then Ok (SpilledBytes (num 0 m))
      else if tag =? 14 then Ok (SpilledRows (num 0 m))
      else if tag =? 15 then Ok (CurrentMemoryUsage (num 0 m))
      else if tag =? 16 then Ok (Count (blob 0 m) (num 1 m))
      else if tag =? 17 then Ok (Gauge (blob 0 m) (num 1 m))
      else if tag =? 35 then Ok (PeakMemoryUsage (blob 0 m) (num 1 m))
      else if tag =? 18 then Ok (Time (blob 0 m) (time_of (num 1 m)))
      else if tag =? 19 then Ok (StartTimestamp (decode_timestamp m))
      else if tag =? 20 then Ok (EndTimestamp (decode_timestamp m))
      else if tag =? 21 then Ok (OutputBytes (num 0 m))
      else if tag =? 22 then Ok (OutputBatches (num 0 m))
      else if tag =? 23 then Ok (PruningMetrics (blob 0 m) (num 1 m) (num 2 m))
      else if tag =? 24 then Ok (Ratio (blob 0 m) (num 1 m) (num 2 m))
      else if tag =? 25 then Ok (MinLatency (blob 0 m) (num 1 m))
      else if tag =? 26 then Ok (MaxLatency (blob 0 m) (num 1 m))
      else if tag =? 27 then Ok (AvgLatency (blob 0 m) (num 1 m) (num 2 m))
      else if tag =? 28 then Ok (FirstLatency (blob 0 m) (num 1 m))
      else if tag =? 29 then Ok (BytesCount (blob 0 m) (num 1 m))
      else if tag =? 30 then decode_sketch P50 m
      else if tag =? 31 then decode_sketch P75 m
      else if tag =? 32 then decode_sketch P95 m
      else if tag =? 33 then decode_sketch P99 m
      else Ok (MaxGauge (blob 0 m) (num 1 m))
  end.
Definition decode_metric (m : message) : Res metric :=
  let* v := decode_metric_value (field_at 2 m) in
  Ok {| labels := map (fun l => (blob 0 (as_message l), blob 1 (as_message l))) (vec 0 m); partition := option_map as_num (opt 1 m); metric_val := v |}.
(** [metrics_set_proto_to_df], src/protocol/grpc/metrics_proto.rs:46-56. *)
Definition decode_metrics_set (m : message) : Res (list metric) := collect (fun v => decode_metric (as_message v)) (vec 0 m).

(** src/protocol/worker_channel.rs:117-139 *)
Record task_metrics := { pre_order_plan_metrics : list (list metric); own_metrics : list metric }.
Inductive worker_to_coordinator := TaskMetrics (m : task_metrics) | LoadInfo (l : load_info) | LoadInfoEos.
(** src/protocol/grpc/worker_service.rs:279-293 *)
Definition encode_task_metrics (m : task_metrics) : Res message :=
  let* sets := collect encode_metrics_set (pre_order_plan_metrics m) in
  let* own := encode_metrics_set (own_metrics m) in
  Ok [all 1 (Message MetricsSetMsg) sets; one 2 (Message MetricsSetMsg own)].
(** src/protocol/grpc/worker_client.rs:514-527 *)
Definition decode_task_metrics (m : message) : Res task_metrics :=
  let* sets := collect (fun v => decode_metrics_set (as_message v)) (vec 0 m) in
  let* own := or_err (opt 1 m) "Missing field 'task_metrics'" in
  let* own := decode_metrics_set (as_message own) in
  Ok {| pre_order_plan_metrics := sets; own_metrics := own |}.
(** src/protocol/grpc/worker_service.rs:260-277 *)
Definition send_to_coordinator (m : worker_to_coordinator) : Res bytes :=
  let* c := match m with
            | TaskMetrics m => let* m := encode_task_metrics m in Ok (one 1 (Message TaskMetricsMsg m))
            | LoadInfo l => Ok (one 2 (Message LoadInfoMsg (encode_load_info l)))
            | LoadInfoEos => Ok (one 3 (Varint 1))
            end in
  Ok (encode WorkerToCoordinatorMsg [c]).
(** src/protocol/grpc/worker_client.rs:495-512 *)
Definition receive_at_coordinator (bs : bytes) : Res worker_to_coordinator :=
  let* m := decode WorkerToCoordinatorMsg bs in
  match field_at 0 m with
  | [] => Err "Missing field 'WorkerToCoordinatorMsg.inner'"
  | (tag, v) :: _ =>
      if tag =? 1 then let* m := decode_task_metrics (as_message v) in Ok (TaskMetrics m)
      else if tag =? 2 then Ok (LoadInfo (decode_load_info (as_message v)))
      else Ok LoadInfoEos
  end.

(** ** Requests for data *)

(** src/distributed_planner/network_boundary.rs:39-48, src/protocol/worker_channel.rs:163-176 *)
Inductive producer_head := HeadNone | HeadBroadcast (output_partitions : N) | HeadRepartition (p : maybe_encoded partitioning).
Record execute_task_request := { exec_task_key : task_key; target_partition_start : N; target_partition_end : N; head : producer_head }.
(** src/protocol/grpc/worker_client.rs:405-422 *)
Definition encode_producer_head (h : producer_head) : Res (content msg) :=
  match h with
  | HeadNone => Ok (one 6 (Message NoneHeadMsg []))
  | HeadBroadcast n => Ok (one 7 (Message BroadcastHeadMsg [one 1 (Varint n)]))
  | HeadRepartition p => let* b := maybe_encode partitioning_to_bytes p in Ok (one 8 (Message RepartitionHeadMsg [one 1 (Blob b)]))
  end.
(** src/protocol/grpc/worker_service.rs:247-257 *)
Definition decode_producer_head (tag : N) (v : value msg) : producer_head :=
  if tag =? 6 then HeadNone
  else if tag =? 7 then HeadBroadcast (num 0 (as_message v))
  else HeadRepartition (Encoded (blob 0 (as_message v))).
(** src/protocol/grpc/worker_client.rs:119-124 *)
Definition send_execute_task (r : execute_task_request) : Res bytes :=
  let* h := encode_producer_head (head r) in
  Ok (encode ExecuteTaskMsg
        [one 1 (Message TaskKeyMsg (encode_task_key (exec_task_key r))); one 2 (Varint (target_partition_start r));
         one 3 (Varint (target_partition_end r)); h]).
(** src/protocol/grpc/worker_service.rs:234-245 *)
Definition receive_execute_task (bs : bytes) : Res execute_task_request :=
  let* m := decode ExecuteTaskMsg bs in
  let* k := or_err (opt 0 m) "Missing field 'task_key'" in
  let* k := decode_task_key (as_message k) in
  match field_at 3 m with
  | [] => Err "Missing field 'producer_head'"
  | (tag, v) :: _ =>
      Ok {| exec_task_key := k; target_partition_start := num 1 m; target_partition_end := num 2 m; head := decode_producer_head tag v |}
  end.

(** The metadata sent with each batch: src/protocol/grpc/worker_service.rs:163-178 and src/protocol/grpc/worker_client.rs:215-225. *)
Record app_metadata := { batch_partition : N; created_at : N }.
Definition send_app_metadata (a : app_metadata) : bytes := encode FlightAppMetadataMsg [one 1 (Varint (batch_partition a)); one 2 (Varint (created_at a))].
Definition receive_app_metadata (bs : bytes) : Res app_metadata :=
  let* m := decode FlightAppMetadataMsg bs in Ok {| batch_partition := num 0 m; created_at := num 1 m |}.

(** ** Nodes of plans *)

(** src/stage.rs: [LocalStage] and [RemoteStage]; metrics and run-time statistics are not sent and are left out. *)
Inductive stage := LocalStage (query : bytes) (number : N) (input : plan) (tasks : nat) | RemoteStage (query : bytes) (number : N) (workers : list url).
(** The nodes of this project, by what is sent. A boundary's equivalences and orderings are not sent and are left out. Weights of a
    union are their bits. *)
Inductive boundary := Shuffle | Coalesce | Broadcasts.
Inductive node :=
| Boundary (k : boundary) (s : schema) (p : partitioning) (input : stage)
| Union (partition_count : N) (children : list plan) (weights : list (N * option N)) (task_idx_map : list (list (N * (N * N))))
| Broadcast (child : plan) (consumer_task_count : N)
| Sampler (child : plan).

(** [children()] of the nodes. *)
Definition node_children (n : node) : list plan :=
  match n with
  | Boundary _ _ _ (LocalStage _ _ p _) => [p]
  | Boundary _ _ _ (RemoteStage _ _ _) => []
  | Union _ cs _ _ => cs
  | Broadcast c _ | Sampler c => [c]
  end.

Definition boundary_tag (k : boundary) : N := match k with Shuffle => 1 | Coalesce => 2 | Broadcasts => 5 end.
(** src/codec/distributed_codec.rs:251-272 *)
Definition encode_stage (s : stage) : message :=
  match s with
  | LocalStage q n _ tasks => [one 1 (Blob (serialize_uuid q)); one 2 (Varint n); all 3 (fun _ => Message ExecutionTaskMsg [[]]) (repeat tt tasks)]
  | RemoteStage q n workers =>
      [one 1 (Blob (serialize_uuid q)); one 2 (Varint n); all 3 (fun u => Message ExecutionTaskMsg [one 1 (Blob (url_to_string u))]) workers]
  end.
(** src/codec/distributed_codec.rs:245-375 *)
Definition try_encode (n : node) : Res bytes :=
  let* c := match n with
            | Boundary k s p input =>
                let* s := schema_to_bytes s in
                let* p := partitioning_to_bytes p in
                Ok (one (boundary_tag k) (Message BoundaryMsg [one 1 (Blob s); one 2 (Blob p); one 3 (Message StageMsg (encode_stage input))]))
            | Broadcast _ n => Ok (one 6 (Message BroadcastMsg [one 1 (Varint n)]))
            | Union count _ weights tasks =>
                Ok (one 4 (Message UnionMsg
                      [one 1 (Varint count);
                       all 2 (fun l => Message TaskMapMsg [all 1 (fun x => Message ChildTaskMsg [one 1 (Varint (fst x)); one 2 (Varint (fst (snd x))); one 3 (Varint (snd (snd x)))]) l]) tasks;
                       all 3 (fun w => Message WeightMsg [one 1 (Fixed64 (fst w)); match snd w with Some m => one 2 (Varint m) | None => [] end]) weights]))
            | Sampler _ => Ok (one 7 (Message SamplerMsg []))
            end in
  Ok (encode DistributedExecMsg [c]).

(** src/codec/distributed_codec.rs:65-98 *)
Definition parse_stage (m : option (value msg)) (inputs : list plan) : Res stage :=
  let* m := or_err m "Empty StageProto" in
  let m := as_message m in
  match inputs with
  | input :: _ => let* q := deserialize_uuid (blob 0 m) in Ok (LocalStage q (num 1 m) input (List.length (vec 2 m)))
  | [] =>
      let* urls := collect (fun t => let* s := or_err (opt 0 (as_message t)) "Missing URL in task" in
                                     or_err (url_parse (as_blob s)) "Invalid URL in task") (vec 2 m) in
      let* q := deserialize_uuid (blob 0 m) in
      Ok (RemoteStage q (num 1 m) urls)
  end.
(** src/codec/distributed_codec.rs:49-243; the [match] arms of the three boundaries are alike. DataFusion's [UnionExec::try_new]
    refuses no inputs; Assumption: it accepts the children of a union that was built. *)
Definition decode_boundary (k : boundary) (m : message) (inputs : list plan) : Res node :=
  let* s := or_err (opt 0 m) "missing schema" in
  let* s := schema_from_bytes (as_blob s) in
  let* p := or_err (opt 1 m) "missing partitioning" in
  let* p := partitioning_from_bytes s (as_blob p) in
  let* p := or_err p "missing partitioning" in
  let* input := parse_stage (opt 2 m) inputs in
  Ok (Boundary k s p input).
Definition try_decode (bs : bytes) (inputs : list plan) : Res node :=
  let* m := decode DistributedExecMsg bs in
  match field_at 0 m with
  | [] => Err "Expected DistributedExecNode in DistributedExecProto"
  | (tag, v) :: _ =>
      let m := as_message v in
      if tag =? 1 then decode_boundary Shuffle m inputs
      else if tag =? 2 then decode_boundary Coalesce m inputs
      else if tag =? 5 then decode_boundary Broadcasts m inputs
      else if tag =? 6 then match inputs with [c] => Ok (Broadcast c (num 0 m)) | _ => Err "BroadcastExec expects exactly one child" end
      else if tag =? 4 then
        match inputs with
        | [] => Err "UnionExec requires at least one input"
        | _ =>
            Ok (Union (num 0 m) inputs
                  (map (fun v => (num 0 (as_message v), option_map as_num (opt 1 (as_message v)))) (vec 2 m))
                  (map (fun l => map (fun v => (num 0 (as_message v), (num 1 (as_message v), num 2 (as_message v)))) (vec 0 (as_message l))) (vec 1 m)))
        end
      else match inputs with [c] => Ok (Sampler c) | _ => Err "Expected exactly 1 children" end
  end.
End Codec.
