(** Values of the Rust types that are sent: numbers of 64 bits, 16-byte identifiers, UTF-8 strings. *)
From Verif Require Import Base CodecModel.
From Coq Require Import NArith ZArith.
Local Open Scope N_scope.

Definition u64 (n : N) : Prop := n < 2 ^ 64.
Definition f32 (n : N) : Prop := n < 2 ^ 32.
Definition uuid (id : list N) : Prop := List.length id = 16%nat.

Definition fits_task_key (k : task_key) : Prop := uuid (query_id k) /\ u64 (stage_id k) /\ u64 (task_number k).
Definition fits_declaration (d : declaration) : Prop := uuid (feed_id d) /\ u64 (feed_partitions d).
Definition fits_set_plan {url plan} (r : set_plan_request url plan) : Prop :=
  fits_task_key (plan_task_key _ _ r) /\ u64 (task_count _ _ r) /\ Forall fits_declaration (declarations _ _ r) /\ u64 (query_start_time_ns _ _ r).
Definition fits_work_unit {body} (u : work_unit body) : Prop :=
  uuid (unit_id _ u) /\ u64 (unit_partition _ u) /\ u64 (created _ u) /\ u64 (sent _ u) /\ u64 (received _ u) /\ u64 (processed _ u).
Definition fits_load_info (l : load_info) : Prop :=
  u64 (load_partition l) /\ u64 (rows_ready l) /\ Forall u64 (per_column_bytes_ready l) /\ Forall f32 (per_column_ndv_percentage l) /\
  Forall f32 (per_column_null_percentage l) /\ u64 (rows_pulled_from_leaf l).
Definition fits_head {p} (h : producer_head p) : Prop := match h with HeadBroadcast _ n => u64 n | _ => True end.
Definition fits_execute {p} (r : execute_task_request p) : Prop :=
  fits_task_key (exec_task_key _ r) /\ u64 (target_partition_start _ r) /\ u64 (target_partition_end _ r) /\ fits_head (head _ r).

(** The same request with the given bytes in place of what was to be encoded: the receiver decodes them later. *)
Definition with_plan {url plan} (r : set_plan_request url plan) (b : list N) : set_plan_request url plan :=
  {| plan_task_key := plan_task_key _ _ r; task_count := task_count _ _ r; task_plan := Encoded b; declarations := declarations _ _ r;
     target_worker_url := target_worker_url _ _ r; query_start_time_ns := query_start_time_ns _ _ r |}.
Definition with_body {body} (to_bytes : body -> list N) (u : work_unit body) : work_unit body :=
  {| unit_id := unit_id _ u; unit_partition := unit_partition _ u;
     unit_body := Encoded (match unit_body _ u with Encoded b => b | Decoded a => to_bytes a end);
     created := created _ u; sent := sent _ u; received := received _ u; processed := processed _ u |}.

Section Nodes.
Variables (url plan partitioning schema : Type).
Definition fits_stage (s : stage url plan) : Prop :=
  match s with LocalStage _ _ q n _ _ | RemoteStage _ _ q n _ => uuid q /\ u64 n end.
Definition fits_node (n : node url plan partitioning schema) : Prop :=
  match n with
  | Boundary _ _ _ _ _ _ _ s => fits_stage s
  | Union _ _ _ _ count cs weights tasks =>
      u64 count /\ cs <> [] /\ Forall (fun w => u64 (fst w) /\ forall m, snd w = Some m -> u64 m) weights /\
      Forall (Forall (fun x => u64 (fst x) /\ u64 (fst (snd x)) /\ u64 (snd (snd x)))) tasks
  | Broadcast _ _ _ _ _ n => u64 n
  | Sampler _ _ _ _ _ => True
  end.

(** A weight of -0 arrives as 0, which is the same number. *)
Definition same_weight (w : N) : N := if w =? 2 ^ 63 then 0 else w.
Definition arrives (n : node url plan partitioning schema) : node url plan partitioning schema :=
  match n with
  | Union _ _ _ _ count cs weights tasks => Union _ _ _ _ count cs (map (fun w => (same_weight (fst w), snd w)) weights) tasks
  | n => n
  end.
End Nodes.

(** ** Metrics *)
Section Metrics.
Variables (utf8 : list N -> bool) (sketch : Type).
Definition i64 (z : Z) : Prop := (- 2 ^ 63 <= z < 2 ^ 63)%Z.
Definition fits_value (v : metric_value sketch) : Prop :=
  match v with
  | OutputRows _ n | ElapsedCompute _ n | SpillCount _ n | SpilledBytes _ n | SpilledRows _ n | CurrentMemoryUsage _ n
  | OutputBytes _ n | OutputBatches _ n => u64 n
  | Count _ s n | Gauge _ s n | PeakMemoryUsage _ s n | Time _ s n | MinLatency _ s n | MaxLatency _ s n | FirstLatency _ s n
  | BytesCount _ s n | MaxGauge _ s n => utf8 s = true /\ u64 n
  | StartTimestamp _ t | EndTimestamp _ t => forall z, t = Some z -> i64 z
  | PruningMetrics _ s a b | Ratio _ s a b | AvgLatency _ s a b => utf8 s = true /\ u64 a /\ u64 b
  | P50 _ s _ | P75 _ s _ | P95 _ s _ | P99 _ s _ => utf8 s = true
  | OtherCustom _ _ => True
  end.
Definition fits_metric (m : metric sketch) : Prop :=
  Forall (fun l => utf8 (fst l) = true /\ utf8 (snd l) = true) (labels _ m) /\ (forall p, partition _ m = Some p -> u64 p) /\ fits_value (metric_val _ m).

(** A metric as the coordinator sees it: a custom metric of the user's is gone, and a time of zero is one nanosecond. *)
Definition seen (m : metric sketch) : list (metric sketch) :=
  let with_value v := [{| labels := labels _ m; partition := partition _ m; metric_val := v |}] in
  match metric_val _ m with
  | OtherCustom _ _ => []
  | ElapsedCompute _ 0 => with_value (ElapsedCompute _ 1)
  | Time _ s 0 => with_value (Time _ s 1)
  | v => with_value v
  end.
Definition seen_set (ms : list (metric sketch)) : list (metric sketch) := flat_map seen ms.
End Metrics.
