(** C43: messages and plan nodes survive the wire. C72: foreign bytes are refused without a panic. C73: metrics survive the wire.

    All hold whatever UTF-8, URLs, the codecs of schemas, partitionings, plans, work units and sketches are, as long as those parse
    what they print. A message is smaller than 2^64 bytes. *)
From Verif Require Import Base WireModel WireSpec WireProofs WirePanic CodecModel CodecSpec CodecProofs.
From Coq Require Import NArith ZArith Lia.
Local Open Scope N_scope.

Notation small bs := (N.of_nat (List.length bs) < 2 ^ 64).

(** C43: the worker receives the request with every field as sent, the plan as the bytes of its encoding. *)
Theorem C43_set_plan utf8 (url plan : Type) (url_to_string : url -> list N) (url_parse : list N -> option url) (plan_to_bytes : plan -> Res (list N))
    (r : set_plan_request url plan) b bs :
  fits_set_plan r ->
  utf8 (url_to_string (target_worker_url _ _ r)) = true -> url_parse (url_to_string (target_worker_url _ _ r)) = Some (target_worker_url _ _ r) ->
  maybe_encode plan_to_bytes (task_plan _ _ r) = Ok b ->
  send_set_plan url plan url_to_string plan_to_bytes r = Ok bs -> small bs ->
  receive_set_plan utf8 url plan url_parse bs = Ok (with_plan r b).
Proof. apply set_plan_back. Qed.
Print Assumptions C43_set_plan.

(** C43: work units and their end arrive as sent. *)
Theorem C43_work_units utf8 (body : Type) (body_to_bytes : body -> list N) (l : list (work_unit body)) :
  Forall fits_work_unit l -> small (send_to_worker body body_to_bytes (WorkUnitBatch _ l)) ->
  receive_at_worker utf8 body (send_to_worker body body_to_bytes (WorkUnitBatch _ l)) = Ok (WorkUnitBatch _ (map (with_body body_to_bytes) l)) /\
  receive_at_worker utf8 body (send_to_worker body body_to_bytes (WorkUnitEos _)) = Ok (WorkUnitEos _).
Proof.
  intros HF HN. split; [exact (to_worker_back utf8 body body_to_bytes (WorkUnitBatch _ l) HF HN)|].
  apply (to_worker_back utf8 body body_to_bytes (WorkUnitEos _) I). reflexivity.
Qed.
Print Assumptions C43_work_units.

(** C43: a request for data arrives as sent; a partitioning as the bytes of its encoding. *)
Theorem C43_data_requests utf8 (partitioning : Type) (partitioning_to_bytes : partitioning -> Res (list N)) (r : execute_task_request partitioning) bs :
  fits_execute r -> send_execute_task partitioning partitioning_to_bytes r = Ok bs -> small bs ->
  exists h,
    receive_execute_task utf8 partitioning bs =
    Ok {| exec_task_key := exec_task_key _ r; target_partition_start := target_partition_start _ r; target_partition_end := target_partition_end _ r; head := h |} /\
    match head _ r with
    | HeadNone _ => h = HeadNone _
    | HeadBroadcast _ n => h = HeadBroadcast _ n
    | HeadRepartition _ p => exists b, maybe_encode partitioning_to_bytes p = Ok b /\ h = HeadRepartition _ (Encoded b)
    end.
Proof.
  intros HF HS HN. destruct (execute_back utf8 partitioning partitioning_to_bytes r bs HF HS HN) as (h & HA & HR). exists h. split; [exact HR|].
  destruct (head _ r); exact HA.
Qed.
Print Assumptions C43_data_requests.

(** C43: the partition and creation time sent with every batch arrive as sent. *)
Theorem C43_batch_metadata utf8 a : u64 (batch_partition a) -> u64 (created_at a) -> receive_app_metadata utf8 (send_app_metadata a) = Ok a.
Proof. apply app_metadata_back. Qed.
Print Assumptions C43_batch_metadata.

(** C43: load reports and their end arrive as sent. *)
Theorem C43_load_reports utf8 sketch (to_bytes : sketch -> Res (list N)) (from_bytes : list N -> Res sketch) l bs :
  fits_load_info l -> send_to_coordinator sketch to_bytes (LoadInfo _ l) = Ok bs -> small bs ->
  receive_at_coordinator utf8 sketch from_bytes bs = Ok (LoadInfo _ l) /\
  exists bs', send_to_coordinator sketch to_bytes (LoadInfoEos _) = Ok bs' /\ receive_at_coordinator utf8 sketch from_bytes bs' = Ok (LoadInfoEos _).
Proof.
  intros HF HS HN. split.
  - unfold send_to_coordinator in HS. cbn [bind] in HS. injection HS as <-. unfold receive_at_coordinator. rewrite sent_back; [|  |exact HN].
    + cbn [bind field_at nth one N.eqb Pos.eqb as_message]. now rewrite load_info_back.
    + cbn [fields_of]. constructor; [|constructor]. eapply typed_one; [reflexivity|cbn; tauto|]. apply typed_message. now apply typed_load_info.
  - eexists. split; reflexivity.
Qed.
Print Assumptions C43_load_reports.

(** C43: a node decoded with its children is the node encoded: a boundary with its schema, partitioning and stage (local or remote, with
    the task count or the workers' URLs), a union with its partition count, weights and the assignment of its children to tasks,
    a broadcast, a sampler. *)
Theorem C43_nodes utf8 (url plan partitioning schema : Type) (url_to_string : url -> list N) (url_parse : list N -> option url)
    (partitioning_to_bytes : partitioning -> Res (list N)) (partitioning_from_bytes : schema -> list N -> Res (option partitioning))
    (schema_to_bytes : schema -> Res (list N)) (schema_from_bytes : list N -> Res schema) :
  (forall u, url_parse (url_to_string u) = Some u /\ utf8 (url_to_string u) = true) ->
  (forall s b, schema_to_bytes s = Ok b -> schema_from_bytes b = Ok s) ->
  (forall s p b, partitioning_to_bytes p = Ok b -> partitioning_from_bytes s b = Ok (Some p)) ->
  forall (n : node url plan partitioning schema) bs, fits_node _ _ _ _ n ->
  try_encode url plan partitioning schema url_to_string partitioning_to_bytes schema_to_bytes n = Ok bs -> small bs ->
  try_decode utf8 url plan partitioning schema url_parse partitioning_from_bytes schema_from_bytes bs (node_children url plan partitioning schema n) =
  Ok (arrives _ _ _ _ n).
Proof. intros HU HS HP n bs. apply node_back; try assumption. intros k s p i b _. apply HP. Qed.
Print Assumptions C43_nodes.

(** *** Instances *)
Definition any_text (_ : list N) : bool := true.
Definition an_id : list N := [1; 2; 3; 4; 5; 6; 7; 8; 9; 10; 11; 12; 13; 14; 15; 16].
Definition a_key : task_key := {| query_id := an_id; stage_id := 3; task_number := 300 |}.
Definition a_request : set_plan_request (list N) (list N) :=
  {| plan_task_key := a_key; task_count := 4; task_plan := Decoded [7; 7]; declarations := [{| feed_id := an_id; feed_partitions := 0 |}; {| feed_id := an_id; feed_partitions := 9 |}];
     target_worker_url := [104; 58]; query_start_time_ns := 18446744073709551615 |}.
Example C43_set_plan_instance :
  fits_set_plan a_request /\
  exists bs, send_set_plan (list N) (list N) (fun u => u) Ok a_request = Ok bs /\ small bs /\
  receive_set_plan any_text (list N) (list N) Some bs = Ok (with_plan a_request [7; 7]).
Proof.
  split; [|eexists; split; [reflexivity|split; reflexivity]].
  repeat split; try reflexivity. repeat constructor; cbn; unfold u64; lia.
Qed.
Definition a_unit : work_unit (list N) :=
  {| unit_id := an_id; unit_partition := 2; unit_body := Encoded [9]; created := 1; sent := 0; received := 5; processed := 6 |}.
Example C43_work_units_instance :
  Forall fits_work_unit [a_unit; a_unit] /\
  receive_at_worker any_text (list N) (send_to_worker (list N) (fun b => b) (WorkUnitBatch _ [a_unit; a_unit])) = Ok (WorkUnitBatch _ [a_unit; a_unit]).
Proof. split; [repeat constructor|reflexivity]. Qed.
Definition a_data_request : execute_task_request (list N) :=
  {| exec_task_key := a_key; target_partition_start := 4; target_partition_end := 8; head := HeadRepartition _ (Decoded [5; 5]) |}.
Example C43_data_requests_instance :
  fits_execute a_data_request /\
  exists bs, send_execute_task (list N) Ok a_data_request = Ok bs /\
  receive_execute_task any_text (list N) bs =
  Ok {| exec_task_key := a_key; target_partition_start := 4; target_partition_end := 8; head := HeadRepartition _ (Encoded [5; 5]) |}.
Proof. split; [repeat split; reflexivity|eexists; split; reflexivity]. Qed.
Definition a_load : load_info :=
  {| load_partition := 0; rows_ready := 12; per_column_bytes_ready := [0; 300]; per_column_ndv_percentage := [1065353216; 0];
     per_column_null_percentage := []; rows_pulled_from_leaf := 40; reached_eos := true |}.
Example C43_load_reports_instance :
  fits_load_info a_load /\
  exists bs, send_to_coordinator (list N) Ok (LoadInfo _ a_load) = Ok bs /\ receive_at_coordinator any_text (list N) Ok bs = Ok (LoadInfo _ a_load).
Proof. split; [repeat split; try reflexivity; repeat constructor|eexists; split; reflexivity]. Qed.
(** A union over three plans with a weight of -0, and a shuffle reading two workers. *)
Definition a_union : node (list N) nat (list N) (list N) :=
  Union _ _ _ _ 6 [10%nat; 20%nat; 30%nat] [(2 ^ 63, None); (4607182418800017408, Some 2)] [[(0, (0, 2)); (1, (0, 1))]; [(0, (1, 2)); (2, (0, 1))]; []].
Definition a_shuffle : node (list N) nat (list N) (list N) := Boundary _ _ _ _ Shuffle [1] [2] (RemoteStage _ _ an_id 1 [[104]; [105]]).
Example C43_nodes_instance :
  let enc := try_encode (list N) nat (list N) (list N) (fun u => u) Ok Ok in
  let dec := try_decode any_text (list N) nat (list N) (list N) Some (fun _ b => Ok (Some b)) Ok in
  fits_node _ _ _ _ a_union /\ fits_node _ _ _ _ a_shuffle /\
  (exists bs, enc a_union = Ok bs /\ dec bs [10%nat; 20%nat; 30%nat] = Ok (Union _ _ _ _ 6 [10%nat; 20%nat; 30%nat] [(0, None); (4607182418800017408, Some 2)] [[(0, (0, 2)); (1, (0, 1))]; [(0, (1, 2)); (2, (0, 1))]; []])) /\
  (exists bs, enc a_shuffle = Ok bs /\ dec bs [] = Ok a_shuffle).
Proof.
  cbv zeta. split; [|split; [|split]].
  - split; [reflexivity|]. split; [discriminate|]. split; repeat constructor; cbn; intros; try discriminate.
    match goal with H : Some _ = Some _ |- _ => injection H as <- end. reflexivity.
  - split; reflexivity.
  - eexists. split; reflexivity.
  - eexists. split; reflexivity.
Qed.

(** C72, except for the nodes of plans: whatever bytes arrive as a message of a coordinator, a request for data, the metadata of a batch or a
    message of a worker, reading them ends with a value or an error. *)
Definition not_a_node (m : msg) : Prop := m <> DistributedExecMsg.
Lemma codec_good m : not_a_node m -> Forall (field_good msg not_a_node) (fields_of m).
Proof.
  intros H. destruct m; cbn [fields_of]; try (now elim H);
    repeat first [exact I | discriminate | (eexists; reflexivity) | split | constructor].
Qed.
Lemma collect_no_panic {A B} (f : A -> Res B) l : (forall a, no_panic (f a)) -> no_panic (collect f l).
Proof. intros H. induction l as [|a l IH]; cbn [collect]; [apply no_panic_ok|]. apply no_panic_bind; [apply H|]. intros b _. apply no_panic_bind; [apply IH|intros; apply no_panic_ok]. Qed.
Lemma or_err_no_panic {A} (o : option A) e : no_panic (or_err o e).
Proof. destruct o; [apply no_panic_ok|apply no_panic_err]. Qed.
Lemma uuid_no_panic b : no_panic (deserialize_uuid b).
Proof. unfold deserialize_uuid. destruct (Nat.eqb _ _); [apply no_panic_ok|apply no_panic_err]. Qed.
Lemma key_no_panic m : no_panic (decode_task_key m).
Proof. apply no_panic_bind; [apply uuid_no_panic|intros; apply no_panic_ok]. Qed.

Theorem C72_messages_partial utf8 (bs : list N) (url plan body partitioning sketch : Type) (url_parse : list N -> option url) (from_bytes : list N -> Res sketch) :
  (forall b, no_panic (from_bytes b)) ->
  no_panic (receive_set_plan utf8 url plan url_parse bs) /\
  no_panic (receive_at_worker utf8 body bs) /\
  no_panic (receive_execute_task utf8 partitioning bs) /\
  no_panic (receive_app_metadata utf8 bs) /\
  no_panic (receive_at_coordinator utf8 sketch from_bytes bs).
Proof.
  intros HSk. assert (D : forall m, m <> DistributedExecMsg -> no_panic (decode msg fields_of utf8 m bs)).
  { intros m Hm. apply (decode_no_panic msg fields_of utf8 not_a_node codec_good m bs Hm). }
  split; [|split; [|split; [|split]]].
  - apply no_panic_bind; [apply D; discriminate|]. intros m _. destruct (field_at 0 m) as [|[tag v] l]; [apply no_panic_err|].
    destruct (tag =? 1); [|apply no_panic_err]. apply no_panic_bind; [apply or_err_no_panic|]. intros k _.
    apply no_panic_bind; [apply key_no_panic|]. intros k' _. apply no_panic_bind; [apply collect_no_panic; intros; apply no_panic_bind; [apply uuid_no_panic|intros; apply no_panic_ok]|].
    intros ds _. apply no_panic_bind; [apply or_err_no_panic|]. intros; apply no_panic_ok.
  - apply no_panic_bind; [apply D; discriminate|]. intros m _. unfold decode_coordinator_to_worker. destruct (field_at 0 m) as [|[tag v] l]; [apply no_panic_err|].
    destruct (tag =? 1); [apply no_panic_err|]. destruct (tag =? 2); [|apply no_panic_ok].
    apply no_panic_bind; [apply collect_no_panic; intros; apply no_panic_bind; [apply uuid_no_panic|intros; apply no_panic_ok]|intros; apply no_panic_ok].
  - apply no_panic_bind; [apply D; discriminate|]. intros m _. apply no_panic_bind; [apply or_err_no_panic|]. intros k _.
    apply no_panic_bind; [apply key_no_panic|]. intros k' _. destruct (field_at 3 m) as [|[tag v] l]; [apply no_panic_err|apply no_panic_ok].
  - apply no_panic_bind; [apply D; discriminate|]. intros; apply no_panic_ok.
  - assert (M : forall m, no_panic (decode_metrics_set sketch from_bytes m)).
    { intros m. apply collect_no_panic. intros v. apply no_panic_bind; [|intros; apply no_panic_ok]. unfold decode_metric_value.
      destruct (field_at 2 (as_message v)) as [|[tag v'] l]; [apply no_panic_err|]. cbv zeta.
      repeat match goal with |- no_panic (if ?c then _ else _) => destruct c end; try apply no_panic_ok;
        (apply no_panic_bind; [apply HSk|intros; apply no_panic_ok]). }
    apply no_panic_bind; [apply D; discriminate|]. intros m _. destruct (field_at 0 m) as [|[tag v] l]; [apply no_panic_err|].
    destruct (tag =? 1); [|destruct (tag =? 2); apply no_panic_ok]. apply no_panic_bind; [|intros; apply no_panic_ok].
    apply no_panic_bind; [apply collect_no_panic; intros; apply M|]. intros ms _. apply no_panic_bind; [apply or_err_no_panic|]. intros o _.
    apply no_panic_bind; [apply M|intros; apply no_panic_ok].
Qed.
Print Assumptions C72_messages_partial.
(** Bytes that are no message: a length that is longer than what follows. *)
Example C72_messages_instance :
  receive_set_plan any_text (list N) nat Some [10; 200; 1] = Err "buffer underflow" /\ receive_execute_task any_text nat [255] = Err "invalid varint".
Proof. split; reflexivity. Qed.

(** C72 for the nodes of plans is false: the tags listed for a node include 3, which no kind of node has, and a node with that tag (which earlier
    versions had: it is marked reserved) panics. *)
Theorem C72_nodes_refuted :
  exists bs : list N, bs = [26; 0] /\
  forall utf8 (url plan partitioning schema : Type) url_parse partitioning_from_bytes schema_from_bytes (inputs : list plan),
    try_decode utf8 url plan partitioning schema url_parse partitioning_from_bytes schema_from_bytes bs inputs =
    Panic "internal error: entered unreachable code: invalid tag".
Proof. eexists. split; [reflexivity|]. intros. reflexivity. Qed.
Print Assumptions C72_nodes_refuted.

(** C72 for the nodes of plans holds otherwise: reading a node panics only if its bytes have, somewhere, a key with
    the number 3, provided that the library's decoders of schemas and partitionings do not panic. Whatever children it comes
    with. *)
Theorem C72_nodes_partial utf8 (url plan partitioning schema : Type) url_parse partitioning_from_bytes schema_from_bytes (bs : list N) (inputs : list plan) :
  (forall b, no_panic (schema_from_bytes b)) -> (forall s b, no_panic (partitioning_from_bytes s b)) ->
  (forall before at_key wire rest, bs = before ++ at_key -> decode_key at_key <> Ok (3, wire, rest)) ->
  no_panic (try_decode utf8 url plan partitioning schema url_parse partitioning_from_bytes schema_from_bytes bs inputs).
Proof.
  intros HS HP HK. unfold try_decode. apply no_panic_bind.
  { intros s H.
    change (read_fields msg fields_of utf8 (List.length bs) (read_message msg fields_of utf8 99) (fields_of DistributedExecMsg)
      (default_message msg fields_of DistributedExecMsg) bs = Panic s) in H.
    apply (oneof_panics msg fields_of utf8 not_a_node) in H.
    - destruct H as (_ & tag & w & k & rest & (pre & E) & H1 & H2 & H3). cbn in H2, H3.
      repeat (destruct H2 as [<- | H2]; [first [now apply (HK pre k w rest) | destruct H3; tauto]|]). destruct H2.
    - intros n st b Hn. now apply (message_no_panic msg fields_of utf8 not_a_node codec_good).
    - repeat constructor; discriminate. }
  intros m _. destruct (field_at 0 m) as [|[tag v] l]; [apply no_panic_err|]. cbv zeta.
  assert (B : forall k m, no_panic (decode_boundary url plan partitioning schema url_parse partitioning_from_bytes schema_from_bytes k m inputs)).
  { intros k m0. unfold decode_boundary. do 5 (apply no_panic_bind; [first [apply or_err_no_panic|apply HS|apply HP]|intros ? _]).
    apply no_panic_bind; [|intros; apply no_panic_ok]. unfold parse_stage. apply no_panic_bind; [apply or_err_no_panic|]. intros m1 _. cbv zeta.
    destruct inputs; [|apply no_panic_bind; [apply uuid_no_panic|intros; apply no_panic_ok]].
    apply no_panic_bind; [|intros; apply no_panic_bind; [apply uuid_no_panic|intros; apply no_panic_ok]].
    apply collect_no_panic. intros t. apply no_panic_bind; [apply or_err_no_panic|intros; apply or_err_no_panic]. }
  destruct (tag =? 1); [apply B|]. destruct (tag =? 2); [apply B|]. destruct (tag =? 5); [apply B|].
  destruct inputs as [|c [|c' cs]]; destruct (tag =? 6), (tag =? 4); first [apply no_panic_err|apply no_panic_ok].
Qed.
Print Assumptions C72_nodes_partial.
(** A broadcast without children, a boundary without anything, an unknown number. *)
Example C72_nodes_instance :
  let dec := try_decode any_text (list N) nat (list N) (list N) Some (fun _ b => Ok (Some b)) Ok in
  dec [50; 0] [] = Err "BroadcastExec expects exactly one child" /\ dec [10; 0] [] = Err "missing schema" /\
  dec [66; 0] [4%nat] = Err "Expected DistributedExecNode in DistributedExecProto" /\
  forall before at_key wire rest, [50; 0] = before ++ at_key -> decode_key at_key <> Ok (3, wire, rest).
Proof.
  repeat split; try reflexivity. intros [|x [|y [|]]] k w rest E; cbn in E; try injection E as E; subst;
    try discriminate; injection E as E; subst; try discriminate.
Qed.

(** C73: all metrics of all nodes arrive, in order, with labels, partition, name and value, except that a time of zero arrives as one
    nanosecond and that custom metrics of the user's are left out. *)
Theorem C73_metrics_partial utf8 sketch (to_bytes : sketch -> Res (list N)) (from_bytes : list N -> Res sketch) :
  (forall s b, to_bytes s = Ok b -> from_bytes b = Ok s) ->
  forall t bs,
  Forall (Forall (fits_metric utf8 sketch)) (pre_order_plan_metrics _ t) -> Forall (fits_metric utf8 sketch) (own_metrics _ t) ->
  send_to_coordinator sketch to_bytes (TaskMetrics _ t) = Ok bs -> small bs ->
  receive_at_coordinator utf8 sketch from_bytes bs =
  Ok (TaskMetrics _ {| pre_order_plan_metrics := map (seen_set sketch) (pre_order_plan_metrics _ t); own_metrics := seen_set sketch (own_metrics _ t) |}).
Proof. intros HB t bs H1 H2 HS HN. apply (to_coordinator_back utf8 sketch to_bytes from_bytes HB (TaskMetrics _ t) bs); [now split|exact HS|exact HN]. Qed.
Print Assumptions C73_metrics_partial.
(** Sending them fails only if a sketch or a timestamp cannot be encoded. *)
Theorem C73_metrics_are_sent utf8 sketch (to_bytes : sketch -> Res (list N)) (t : task_metrics sketch) :
  (forall s, exists b, to_bytes s = Ok b) ->
  Forall (Forall (fits_metric utf8 sketch)) (pre_order_plan_metrics _ t) -> Forall (fits_metric utf8 sketch) (own_metrics _ t) ->
  exists bs, send_to_coordinator sketch to_bytes (TaskMetrics _ t) = Ok bs.
Proof.
  intros HB H1 H2.
  assert (V : forall m, fits_metric utf8 sketch m -> exists x, encode_metric sketch to_bytes m = Ok x).
  { intros m (_ & _ & HV). unfold encode_metric.
    assert (G : exists v, encode_metric_value sketch to_bytes (metric_val _ m) = Ok v).
    { destruct (metric_val _ m); cbn [encode_metric_value fits_value] in *; try (eexists; reflexivity);
        try (destruct (HB s) as (b & Eb); unfold sketch_msg; rewrite Eb; eexists; reflexivity);
        (destruct t0 as [z|]; [destruct (i64_back z (HV z eq_refl)) as (E & _); unfold timestamp_msg; rewrite E|]; eexists; reflexivity). }
    destruct G as (v & ->). eexists; reflexivity. }
  assert (S1 : forall ms, Forall (fits_metric utf8 sketch) ms -> exists x, encode_metrics_set sketch to_bytes ms = Ok x).
  { induction 1 as [|m ms Hm _ (x & IH)]; cbn [encode_metrics_set]; [eexists; reflexivity|]. destruct (V m Hm) as (y & ->). cbn [bind]. rewrite IH. cbn [bind].
    destruct y; eexists; reflexivity. }
  assert (S2 : forall sets, Forall (Forall (fits_metric utf8 sketch)) sets -> exists x, collect (encode_metrics_set sketch to_bytes) sets = Ok x).
  { induction 1 as [|m ms Hm _ (x & IH)]; cbn [collect]; [eexists; reflexivity|]. destruct (S1 m Hm) as (y & ->). cbn [bind]. rewrite IH. eexists; reflexivity. }
  unfold send_to_coordinator, encode_task_metrics. destruct (S2 _ H1) as (x & ->). cbn [bind]. destruct (S1 _ H2) as (y & ->). eexists; reflexivity.
Qed.
Print Assumptions C73_metrics_are_sent.
Definition a_metric (v : metric_value (list N)) : metric (list N) := {| labels := [([97], [98]); ([99], [])]; partition := Some 3; metric_val := v |}.
Example C73_metrics_instance :
  let t := {| pre_order_plan_metrics := [[a_metric (OutputRows _ 10); a_metric (Time _ [116] 5)]; []; [a_metric (StartTimestamp _ (Some (-1)%Z)); a_metric (P95 _ [112] [1; 2])]];
              own_metrics := [a_metric (AvgLatency _ [108] 7 2)] |} in
  exists bs, send_to_coordinator (list N) Ok (TaskMetrics _ t) = Ok bs /\ receive_at_coordinator any_text (list N) Ok bs = Ok (TaskMetrics _ t).
Proof. eexists. split; reflexivity. Qed.

(** The full claim, that every metric arrives as recorded, is false: of these two metrics, one arrives as 1 ns and the other does not arrive. *)
Theorem C73_metrics_refuted :
  exists t bs, Forall (fits_metric any_text (list N)) (own_metrics _ t) /\
  send_to_coordinator (list N) Ok (TaskMetrics _ t) = Ok bs /\
  own_metrics _ t = [a_metric (ElapsedCompute _ 0); a_metric (OtherCustom _ [109])] /\
  receive_at_coordinator any_text (list N) Ok bs = Ok (TaskMetrics _ {| pre_order_plan_metrics := []; own_metrics := [a_metric (ElapsedCompute _ 1)] |}).
Proof.
  exists {| pre_order_plan_metrics := []; own_metrics := [a_metric (ElapsedCompute _ 0); a_metric (OtherCustom _ [109])] |}. eexists.
  split; [|split; [reflexivity|split; reflexivity]].
  repeat constructor; intros p Hp; injection Hp as <-; reflexivity.
Qed.
Print Assumptions C73_metrics_refuted.
