(** Proofs about the messages. *)
From Verif Require Import Base WireModel WireSpec WireProofs CodecModel CodecSpec.
From Coq Require Import NArith ZArith Lia.
Local Open Scope N_scope.

(** ** Levels from the types *)
Section Rank.
Variable name : Type.
Variable fields_of : name -> list (field name).
Variable utf8 : list N -> bool.
Variable rank : name -> nat.
Definition inside (f : field name) : list name :=
  let of_ty t := match t with TMsg n => [n] | _ => [] end in
  match f with Implicit _ t | Optional _ t | Repeated _ t => of_ty t | Oneof _ vs => flat_map (fun x => of_ty (snd x)) vs end.
Hypothesis ranked : forall n m, In m (flat_map inside (fields_of n)) -> (rank m < rank n)%nat.

Lemma max_levels (c : content name) k : Forall (fun x => (levels name (snd x) <= k)%nat) c -> (fold_right (fun x m => Nat.max (levels name (snd x)) m) 0%nat c <= k)%nat.
Proof. induction 1 as [|x c Hx Hc IH]; cbn [fold_right]; [lia|]. apply Nat.max_lub; assumption. Qed.
Lemma max_inner (cs : list (content name)) k : Forall (Forall (fun x => (levels name (snd x) <= k)%nat)) cs -> (inner_levels name cs <= k)%nat.
Proof.
  unfold inner_levels. induction 1 as [|c cs Hc Hcs IH]; cbn [fold_right]; [lia|]. apply Nat.max_lub; [now apply max_levels|exact IH].
Qed.
Lemma levels_message n cs : levels name (Message n cs) = S (inner_levels name cs).
Proof. reflexivity. Qed.

Lemma rank_levels v : forall t, typed name fields_of utf8 t v -> match t with TMsg n => (levels name v <= S (rank n))%nat | _ => levels name v = 0%nat end.
Proof.
  induction v as [m|m|m|l|n cs IH] using value_rect_nested; intros t HT; inversion HT as [| | | | | | |? ? H]; subst; try reflexivity.
  rewrite levels_message. apply le_n_S. apply max_inner.
  assert (HL : forall f c, In f (fields_of n) -> field_typed name fields_of utf8 f c -> Forall (fun x => forall t, typed name fields_of utf8 t (snd x) ->
             match t with TMsg n => (levels name (snd x) <= S (rank n))%nat | _ => levels name (snd x) = 0%nat end) c -> Forall (fun x => (levels name (snd x) <= rank n)%nat) c).
  { intros f c Hf Hc HI. rewrite Forall_forall in HI |- *. intros x Hx. specialize (HI x Hx).
    assert (G : exists t, typed name fields_of utf8 t (snd x) /\ forall m, t = TMsg m -> In m (inside f)).
    { inversion Hc as [tag t v ? ? ? Hv|tag t|tag t v Hv|tag t c0 Hv|tags vs|tags vs tag t v Hfi Hin Hv]; subst; try contradiction.
      - destruct Hx as [<-|[]]. exists t. split; [exact Hv|]. intros m ->. now left.
      - destruct Hx as [<-|[]]. exists t. split; [exact Hv|]. intros m ->. now left.
      - rewrite Forall_forall in Hv. exists t. split; [apply Hv, Hx|]. intros m ->. now left.
      - destruct Hx as [<-|[]]. exists t. split; [exact Hv|]. intros m ->. apply find_some in Hfi as [Hfi _]. cbn [inside]. apply in_flat_map.
        exists (tag, TMsg m). split; [exact Hfi|now left]. }
    destruct G as (t & Ht & Hm). specialize (HI t Ht). destruct t; try lia. enough (rank n0 < rank n)%nat by lia.
    apply ranked. apply in_flat_map. exists f. split; [exact Hf|now apply Hm]. }
  clear HT. revert IH. generalize (fun f => HL f). clear HL. induction H as [|f c fs cs' Hf Hfs IHf]; intros HL HI; constructor.
  - apply (HL f); [now left|exact Hf|]. now apply Forall_inv in HI.
  - apply IHf; [intros f' c' Hin; apply HL; now right|]. now apply Forall_inv_tail in HI.
Qed.
End Rank.

(** ** The messages of this project *)

Lemma codec_apart m : told_apart msg (fields_of m).
Proof.
  unfold told_apart. split.
  - destruct m; cbn; repeat (constructor; [cbn; intuition discriminate|]); constructor.
  - destruct m; cbn [fields_of flat_map tags_of app]; repeat (constructor; [lia|]); constructor.
Qed.

Definition codec_rank (m : msg) : nat :=
  match m with
  | CoordinatorToWorkerMsg | WorkerToCoordinatorMsg => 5
  | TaskMetricsMsg | DistributedExecMsg => 4
  | MetricsSetMsg | BoundaryMsg | SetPlanMsg | UnionMsg | WorkUnitBatchMsg => 3
  | MetricMsg | StageMsg | ExecuteTaskMsg | TaskMapMsg => 2
  | LoadInfoMsg | DeclarationMsg | WorkUnitMsg => 1
  | _ => 0
  end.
Lemma codec_ranked n m : In m (flat_map (inside msg) (fields_of n)) -> (codec_rank m < codec_rank n)%nat.
Proof. intros H. destruct n; cbn in H; repeat (destruct H as [<-|H]; [cbn; lia|]); contradiction. Qed.

Section Codec.
Variable utf8 : list N -> bool.
Notation typed := (typed msg fields_of utf8).
Notation field_typed := (field_typed msg fields_of utf8).

Lemma sent_back n cs : Forall2 field_typed (fields_of n) cs -> N.of_nat (List.length (encode msg fields_of n cs)) < 2 ^ 64 ->
  decode msg fields_of utf8 n (encode msg fields_of n cs) = Ok cs.
Proof.
  intros HT HN. apply decode_encode; [apply codec_apart|exact HT| |exact HN].
  pose proof (rank_levels msg fields_of utf8 codec_rank codec_ranked (Message n cs) (TMsg n) (typed_msg _ _ _ n cs HT)) as H.
  rewrite levels_message in H. assert (codec_rank n <= 5)%nat by (destruct n; cbn; lia). cbv beta iota in H. lia.
Qed.

Lemma typed_all {A} tag t (f : A -> value msg) l : Forall (fun a => typed t (f a)) l -> field_typed (Repeated tag t) (all tag f l).
Proof. intros H. constructor. unfold all. apply Forall_map. eapply Forall_impl; [|exact H]. intros a Ha. split; [reflexivity|exact Ha]. Qed.
Lemma typed_message n cs : Forall2 field_typed (fields_of n) cs -> typed (TMsg n) (Message n cs).
Proof. apply typed_msg. Qed.
Lemma typed_num tag n : u64 n -> field_typed (Implicit tag TVarint) (one tag (Varint n)).
Proof. intros H. constructor; [exact I|discriminate|discriminate|now constructor]. Qed.
Lemma typed_flag tag (b : bool) : field_typed (Implicit tag TBool) (one tag (Varint (if b then 1 else 0))).
Proof. constructor; [exact I|discriminate|discriminate|]. constructor. destruct b; [now right|now left]. Qed.
Lemma typed_blob tag b : field_typed (Implicit tag TBytes) (one tag (Blob b)).
Proof. constructor; [exact I|discriminate|discriminate|constructor]. Qed.
Lemma typed_text tag b : utf8 b = true -> field_typed (Implicit tag TString) (one tag (Blob b)).
Proof. intros H. constructor; [exact I|discriminate|discriminate|now constructor]. Qed.
Lemma typed_opt tag t v : typed t v -> field_typed (Optional tag t) (one tag v).
Proof. intros H. now constructor. Qed.
Lemma typed_one tags vs tag t v : find (fun x => fst x =? tag) vs = Some (tag, t) -> In tag tags -> typed t v -> field_typed (Oneof tags vs) (one tag v).
Proof. intros. econstructor; eassumption. Qed.

Lemma collect_map {A B C} (f : A -> B) (g : B -> Res C) (h : A -> C) l : Forall (fun a => g (f a) = Ok (h a)) l -> collect g (map f l) = Ok (map h l).
Proof. induction 1 as [|a l Ha Hl IH]; cbn [map collect]; [reflexivity|]. now rewrite Ha, IH. Qed.
Lemma vec_all {A} (f : A -> value msg) i m tag l : field_at i m = all tag f l -> vec i m = map f l.
Proof. intros E. unfold vec. rewrite E. unfold all. rewrite map_map. reflexivity. Qed.

Lemma typed_task_key k : fits_task_key k -> typed (TMsg TaskKeyMsg) (Message TaskKeyMsg (encode_task_key k)).
Proof.
  intros (Hq & Hs & Ht). apply typed_message. cbn [fields_of encode_task_key].
  repeat first [apply Forall2_cons; [first [apply typed_blob|now apply typed_num]|]|apply Forall2_nil].
Qed.
Lemma task_key_back k : fits_task_key k -> decode_task_key (encode_task_key k) = Ok k.
Proof. intros (Hq & _ & _). unfold decode_task_key. cbn. unfold deserialize_uuid, serialize_uuid, uuid in *. rewrite Hq. now destruct k. Qed.

Ltac each := repeat first [apply Forall2_nil|apply Forall2_cons; [first [apply typed_blob|apply typed_num; assumption|apply typed_text; assumption|apply typed_flag|idtac]|]].

Section SetPlan.
Variables (url plan : Type) (url_to_string : url -> list N) (url_parse : list N -> option url) (plan_to_bytes : plan -> Res (list N)).
Lemma set_plan_back (r : set_plan_request url plan) b bs :
  fits_set_plan r -> utf8 (url_to_string (target_worker_url _ _ r)) = true -> url_parse (url_to_string (target_worker_url _ _ r)) = Some (target_worker_url _ _ r) ->
  maybe_encode plan_to_bytes (task_plan _ _ r) = Ok b ->
  send_set_plan url plan url_to_string plan_to_bytes r = Ok bs -> N.of_nat (List.length bs) < 2 ^ 64 ->
  receive_set_plan utf8 url plan url_parse bs = Ok (with_plan r b).
Proof.
  intros (Hk & Hc & Hd & Hq) HU HP HE HS HN. unfold send_set_plan, encode_set_plan_request in HS. rewrite HE in HS. cbn [bind] in HS.
  injection HS as <-. unfold receive_set_plan. rewrite sent_back; [|  |exact HN].
  - cbn [bind field_at nth one N.eqb Pos.eqb as_message]. unfold decode_set_plan_request. cbn [opt field_at nth one or_err bind as_message].
    rewrite task_key_back by exact Hk. cbn [bind].
    assert (E : vec 3 [one 1 (Message TaskKeyMsg (encode_task_key (plan_task_key _ _ r))); one 2 (Varint (task_count _ _ r)); one 3 (Blob b);
              all 4 (fun d => Message DeclarationMsg (encode_declaration d)) (declarations _ _ r); one 5 (Blob (url_to_string (target_worker_url _ _ r)));
              one 6 (Varint (query_start_time_ns _ _ r))] = map (fun d => Message DeclarationMsg (encode_declaration d)) (declarations _ _ r))
      by (eapply vec_all; reflexivity).
    rewrite E. rewrite (collect_map _ _ (fun d => d)).
    + rewrite map_id. cbn [bind blob field_at nth one as_blob or_err]. rewrite HP. cbn. now destruct r.
    + eapply Forall_impl; [|exact Hd]. intros d (Hi & _). cbn [as_message]. unfold decode_declaration. cbn. unfold deserialize_uuid, serialize_uuid, uuid in *.
      rewrite Hi. now destruct d.
  - cbn [fields_of]. constructor; [|constructor]. eapply typed_one; [reflexivity|now left|]. apply typed_message. cbn [fields_of]. each.
    + apply typed_opt. now apply typed_task_key.
    + apply typed_all. eapply Forall_impl; [|exact Hd]. intros d (Hi & Hp). apply typed_message. cbn [fields_of encode_declaration]. each.
Qed.
End SetPlan.

Section Units.
Variables (body : Type) (body_to_bytes : body -> list N).
Lemma to_worker_back (m : coordinator_to_worker body) :
  match m with WorkUnitBatch _ l => Forall fits_work_unit l | WorkUnitEos _ => True end -> N.of_nat (List.length (send_to_worker body body_to_bytes m)) < 2 ^ 64 ->
  receive_at_worker utf8 body (send_to_worker body body_to_bytes m) =
  Ok (match m with WorkUnitBatch _ l => WorkUnitBatch _ (map (with_body body_to_bytes) l) | WorkUnitEos _ => WorkUnitEos _ end).
Proof.
  intros HF HN. unfold receive_at_worker, send_to_worker in *. rewrite sent_back; [|  |exact HN].
  - destruct m as [l|]; [|reflexivity]. cbn [bind]. unfold decode_coordinator_to_worker. cbn [encode_coordinator_to_worker field_at nth one N.eqb Pos.eqb as_message].
    assert (E : vec 0 [all 1 (fun u => Message WorkUnitMsg (encode_work_unit body body_to_bytes u)) l] = map (fun u => Message WorkUnitMsg (encode_work_unit body body_to_bytes u)) l)
      by (eapply vec_all; reflexivity).
    rewrite E, (collect_map _ _ (with_body body_to_bytes)); [reflexivity|].
    eapply Forall_impl; [|exact HF]. intros u (Hi & _). cbn [as_message]. unfold decode_work_unit. cbn. unfold deserialize_uuid, serialize_uuid, uuid in *.
    now rewrite Hi.
  - destruct m as [l|]; cbn [fields_of encode_coordinator_to_worker]; (constructor; [|constructor]); (eapply typed_one; [reflexivity|cbn; tauto|]).
    + apply typed_message. cbn [fields_of]. each. apply typed_all. eapply Forall_impl; [|exact HF]. intros u (Hi & Hp & H1 & H2 & H3 & H4).
      apply typed_message. cbn [fields_of encode_work_unit]. each.
    + constructor. now right.
Qed.
End Units.

Section Data.
Variables (partitioning : Type) (partitioning_to_bytes : partitioning -> Res (list N)).
(** What arrives for a head. *)
Definition head_arrives (h h' : producer_head partitioning) : Prop :=
  match h with
  | HeadRepartition _ p => exists b, maybe_encode partitioning_to_bytes p = Ok b /\ h' = HeadRepartition _ (Encoded b)
  | h => h' = h
  end.
Lemma execute_back (r : execute_task_request partitioning) bs : fits_execute r ->
  send_execute_task partitioning partitioning_to_bytes r = Ok bs -> N.of_nat (List.length bs) < 2 ^ 64 ->
  exists h, head_arrives (head _ r) h /\
  receive_execute_task utf8 partitioning bs =
  Ok {| exec_task_key := exec_task_key _ r; target_partition_start := target_partition_start _ r; target_partition_end := target_partition_end _ r; head := h |}.
Proof.
  intros (Hk & Hs & He & Hh) HS HN. unfold send_execute_task in HS.
  destruct (encode_producer_head partitioning partitioning_to_bytes (head _ r)) as [c| |] eqn:EH; try discriminate. cbn [bind] in HS. injection HS as <-.
  assert (HT : field_typed (Oneof [6; 7; 8] [(6, TMsg NoneHeadMsg); (7, TMsg BroadcastHeadMsg); (8, TMsg RepartitionHeadMsg)]) c /\
          exists tag v, c = one tag v /\ head_arrives (head _ r) (decode_producer_head partitioning tag v)).
  { destruct (head _ r) as [|n|p]; cbn [encode_producer_head] in EH.
    - injection EH as <-. split; [|eexists _, _; split; reflexivity]. eapply typed_one; [reflexivity|now left|]. apply typed_message. constructor.
    - injection EH as <-. split; [|eexists _, _; split; reflexivity]. eapply typed_one; [reflexivity|cbn; tauto|]. apply typed_message. cbn [fields_of]. each.
    - destruct (maybe_encode partitioning_to_bytes p) as [b| |] eqn:EP; try discriminate. cbn [bind] in EH. injection EH as <-. split.
      + eapply typed_one; [reflexivity|cbn; tauto|]. apply typed_message. cbn [fields_of]. each.
      + eexists _, _. split; [reflexivity|]. exists b. split; [assumption|reflexivity]. }
  destruct HT as (HT & tag & v & -> & HA). exists (decode_producer_head partitioning tag v). split; [exact HA|].
  unfold receive_execute_task. rewrite sent_back; [|  |exact HN].
  - cbn [bind opt field_at nth one or_err as_message]. rewrite task_key_back by exact Hk. reflexivity.
  - cbn [fields_of]. each; [|exact HT]. apply typed_opt. now apply typed_task_key.
Qed.
End Data.

Lemma app_metadata_back a : u64 (batch_partition a) -> u64 (created_at a) -> receive_app_metadata utf8 (send_app_metadata a) = Ok a.
Proof.
  intros H1 H2. unfold receive_app_metadata, send_app_metadata. rewrite sent_back.
  - cbn. now destruct a.
  - cbn [fields_of]. each.
  - (* two numbers of ten bytes at most with a key of one byte *)
    assert (L : forall k n, (List.length (put_varint k n) <= k)%nat).
    { induction k as [|k IH]; intros n; [cbn; lia|]. rewrite put_varint_S. destruct (n <? 128); cbn [List.length]; [lia|]. specialize (IH (n / 128)). lia. }
    assert (L' : forall n, (List.length (encode_varint n) <= 10)%nat) by (intros n; apply L).
    unfold encode. cbn [fields_of map write_content WireModel.write_content one write_fields write_field fst snd payload is_default write_plain flat_map].
    pose proof (L' (batch_partition a)). pose proof (L' (created_at a)). pose proof (L' (1 * 8 + 0)). pose proof (L' (2 * 8 + 0)).
    assert (G : forall (b1 b2 : bool) (x1 x2 : list N), (List.length x1 <= 20 -> List.length x2 <= 20 ->
             List.length ((if b1 then [] else x1) ++ (if b2 then [] else x2) ++ []) <= 40)%nat).
    { intros b1 b2 x1 x2 G1 G2. rewrite !app_length. destruct b1, b2; cbn [List.length]; lia. }
    eassert (H' : (List.length _ <= 40)%nat).
    { apply (G (batch_partition a =? 0) (created_at a =? 0) ((encode_key 1 (wire_type msg TVarint) ++ encode_varint (batch_partition a)) ++ [])
              ((encode_key 2 (wire_type msg TVarint) ++ encode_varint (created_at a)) ++ [])); rewrite !app_length; unfold encode_key; cbn [wire_type List.length]; lia. }
    apply (N.le_lt_trans _ 40); [lia|reflexivity].
Qed.

(** *** From a worker *)
Lemma typed_load_info l : fits_load_info l -> Forall2 field_typed (fields_of LoadInfoMsg) (encode_load_info l).
Proof.
  intros (H1 & H2 & H3 & H4 & H5 & H6). cbn [fields_of encode_load_info].
  repeat first [apply Forall2_nil|apply Forall2_cons; [first [apply typed_num; assumption|apply typed_flag|idtac]|]]; apply typed_all;
    (eapply Forall_impl; [|eassumption]); intros n Hn; now constructor.
Qed.
Lemma load_info_back l : decode_load_info (encode_load_info l) = l.
Proof.
  unfold decode_load_info. erewrite !(vec_all Varint) by reflexivity. erewrite !(vec_all Fixed32) by reflexivity. rewrite !map_map. cbn [as_num].
  rewrite !map_id. cbn. destruct l as [? ? ? ? ? ? [|]]; reflexivity.
Qed.

Section Metrics.
Variables (sketch : Type) (sketch_to_bytes : sketch -> Res (list N)) (sketch_from_bytes : list N -> Res sketch).
Hypothesis sketch_back : forall s b, sketch_to_bytes s = Ok b -> sketch_from_bytes b = Ok s.
Notation metric := (metric sketch).
Notation encode_metric := (encode_metric sketch sketch_to_bytes).
Notation decode_metric := (decode_metric sketch sketch_from_bytes).
Notation encode_metrics_set := (encode_metrics_set sketch sketch_to_bytes).
Notation decode_metrics_set := (decode_metrics_set sketch sketch_from_bytes).

Lemma i64_back z : i64 z -> timestamp_nanos_opt z = Some z /\ bits_i64 (i64_bits z) = z /\ u64 (i64_bits z).
Proof.
  intros [H1 H2]. unfold timestamp_nanos_opt, bits_i64, i64_bits, u64.
  assert (E : ((- 2 ^ 63 <=? z) && (z <? 2 ^ 63))%Z = true) by (apply andb_true_iff; split; [apply Z.leb_le|apply Z.ltb_lt]; lia).
  rewrite E. split; [reflexivity|].
  assert (M : (z mod 2 ^ 64 = if z <? 0 then z + 2 ^ 64 else z)%Z).
  { destruct (Z.ltb_spec z 0).
    - rewrite <- (Z.mod_add z 1) by lia. apply Z.mod_small. lia.
    - apply Z.mod_small. lia. }
  rewrite M. destruct (Z.ltb_spec z 0); (split; [|lia]);
    match goal with |- context [?a <? ?b] => destruct (N.ltb_spec a b) end; lia.
Qed.

Lemma typed_metric_value v c : fits_value utf8 sketch v -> encode_metric_value sketch sketch_to_bytes v = Ok (Some c) ->
  exists f, nth_error (fields_of MetricMsg) 2 = Some f /\ field_typed f c.
Proof.
  intros HF HE. eexists. split; [reflexivity|].
  destruct v; cbn [fits_value encode_metric_value] in *;
    try (unfold timestamp_msg in HE; destruct t as [z|]; cbn [bind] in HE;
         [destruct (i64_back z (HF z eq_refl)) as (Ez & _ & Hz); rewrite Ez in HE; cbn [or_err bind] in HE|]);
    try (unfold sketch_msg in HE; destruct (sketch_to_bytes s) as [b| |]; cbn [bind] in HE);
    try discriminate; injection HE as <-;
    (eapply typed_one; [reflexivity|cbn; tauto|]; apply typed_message; cbn [fields_of]);
    repeat match goal with H : _ /\ _ |- _ => destruct H end; each.
  all: try (apply typed_opt; constructor; exact Hz).
  all: try (apply typed_none).
Qed.

Lemma typed_metric m x : fits_metric utf8 sketch m -> encode_metric m = Ok (Some x) -> typed (TMsg MetricMsg) (Message MetricMsg x).
Proof.
  intros (HL & HP & HV) HE. unfold CodecModel.encode_metric in HE.
  destruct (encode_metric_value sketch sketch_to_bytes (metric_val _ m)) as [[v|]| |] eqn:EV; cbn [bind option_map] in HE; try discriminate. injection HE as <-.
  destruct (typed_metric_value _ _ HV EV) as (f & Hf & Hv). cbn [fields_of nth_error] in Hf. injection Hf as <-.
  apply typed_message. cbn [fields_of]. repeat apply Forall2_cons; [| |exact Hv|apply Forall2_nil].
  - apply typed_all. eapply Forall_impl; [|exact HL]. intros [a b] [Ha Hb]. apply typed_message. cbn [fields_of fst snd] in *. each.
  - destruct (partition _ m) as [p|]; [|apply typed_none]. apply typed_opt. constructor. exact (HP p eq_refl).
Qed.

Lemma metric_value_back v c : fits_value utf8 sketch v -> encode_metric_value sketch sketch_to_bytes v = Ok (Some c) ->
  decode_metric_value sketch sketch_from_bytes c =
  Ok (match v with ElapsedCompute _ n => ElapsedCompute _ (time_of n) | Time _ s n => Time _ s (time_of n) | v => v end).
Proof.
  intros HF HE.
  destruct v; cbn [fits_value encode_metric_value] in *;
    try (unfold timestamp_msg in HE; destruct t as [z|]; cbn [bind] in HE;
         [destruct (i64_back z (HF z eq_refl)) as (Ez & Hz & _); rewrite Ez in HE; cbn [or_err bind] in HE|]);
    try (unfold sketch_msg in HE; destruct (sketch_to_bytes s) as [b| |] eqn:ES; cbn [bind] in HE; try discriminate; apply sketch_back in ES);
    try discriminate; injection HE as <-; try reflexivity.
  all: try (cbv - [bits_i64 i64_bits]; rewrite Hz; reflexivity).
  all: unfold decode_metric_value, sketch_msg, one; cbn [N.eqb Pos.eqb as_message]; unfold decode_sketch; cbn [blob field_at nth one as_blob];
    rewrite ES; reflexivity.
Qed.

Lemma metric_back m x : fits_metric utf8 sketch m -> encode_metric m = Ok x ->
  match x with Some x => exists y, decode_metric x = Ok y /\ seen sketch m = [y] | None => seen sketch m = [] end.
Proof.
  intros (HL & HP & HV) HE. unfold CodecModel.encode_metric in HE.
  destruct (encode_metric_value sketch sketch_to_bytes (metric_val _ m)) as [[v|]| |] eqn:EV; cbn [bind option_map] in HE; try discriminate; injection HE as <-.
  - unfold CodecModel.decode_metric. cbn [field_at nth]. rewrite (metric_value_back _ _ HV EV). cbn [bind].
    eexists. split; [reflexivity|].
    erewrite (vec_all (fun l => Message LabelMsg [one 1 (Blob (fst l)); one 2 (Blob (snd l))])) by reflexivity.
    rewrite map_map. cbn [as_message blob field_at nth one as_blob].
    assert (EL : map (fun x : list N * list N => (fst x, snd x)) (labels _ m) = labels _ m).
    { rewrite <- (map_id (labels _ m)) at 2. apply map_ext. now intros []. }
    rewrite EL. assert (EP : option_map as_num (opt 1 [all 1 (fun l : list N * list N => Message LabelMsg [one 1 (Blob (fst l)); one 2 (Blob (snd l))]) (labels _ m);
              match partition _ m with Some p => one 2 (Varint p) | None => [] end; v]) = partition _ m).
    { unfold opt, field_at, nth. now destruct (partition _ m). }
    rewrite EP. unfold seen, time_of. destruct (metric_val _ m); try reflexivity; try (destruct n as [|[]]; reflexivity).
    discriminate EV.
  - unfold seen. destruct (metric_val _ m); cbn [encode_metric_value] in EV; try discriminate EV; try reflexivity;
      repeat match type of EV with context [timestamp_msg ?a ?b] => destruct (timestamp_msg a b) | context [sketch_msg ?a ?b ?c ?d ?e] => destruct (sketch_msg a b c d e) end;
      discriminate EV.
Qed.

Lemma metrics_set_back ms : Forall (fits_metric utf8 sketch) ms -> forall m, encode_metrics_set ms = Ok m ->
  typed (TMsg MetricsSetMsg) (Message MetricsSetMsg m) /\ decode_metrics_set m = Ok (seen_set sketch ms).
Proof.
  induction 1 as [|a ms Ha Hms IH]; intros m HE; cbn [CodecModel.encode_metrics_set] in HE.
  - injection HE as <-. split; [|reflexivity]. apply typed_message. cbn [fields_of]. repeat constructor.
  - destruct (encode_metric a) as [x| |] eqn:EA; cbn [bind] in HE; try discriminate.
    destruct (encode_metrics_set ms) as [rest| |] eqn:ER; cbn [bind] in HE; try discriminate.
    destruct (IH rest eq_refl) as (HT & HD). pose proof (metric_back a x Ha EA) as HB. unfold seen_set in *. cbn [flat_map].
    destruct x as [x|].
    + injection HE as <-. destruct HB as (y & Hy & ->). split.
      * inversion HT as [| | | | | | |? ? H]; subst. cbn [fields_of] in H. inversion H as [|? c ? cs Hc Hn]; subst. inversion Hn; subst.
        inversion Hc; subst. apply typed_message. cbn [fields_of]. constructor; [|constructor]. constructor. cbn [field_at nth].
        constructor; [|assumption]. split; [reflexivity|]. cbn [snd]. exact (typed_metric a x Ha EA).
      * unfold CodecModel.decode_metrics_set in *. cbn [vec field_at nth map snd collect as_message]. rewrite Hy. cbn [bind].
        unfold vec, field_at in HD. unfold field_at. rewrite HD. reflexivity.
    + injection HE as <-. rewrite HB. now split.
Qed.

Lemma sets_back sets : Forall (Forall (fits_metric utf8 sketch)) sets -> forall ms, collect encode_metrics_set sets = Ok ms ->
  Forall (fun m => typed (TMsg MetricsSetMsg) (Message MetricsSetMsg m)) ms /\
  collect (fun v => decode_metrics_set (as_message v)) (map (Message MetricsSetMsg) ms) = Ok (map (seen_set sketch) sets).
Proof.
  induction 1 as [|s sets Hs Hsets IH]; intros ms HE; cbn [collect] in HE.
  - injection HE as <-. now split.
  - destruct (encode_metrics_set s) as [m| |] eqn:EM; cbn [bind] in HE; try discriminate.
    destruct (collect encode_metrics_set sets) as [ms'| |] eqn:ES; cbn [bind] in HE; try discriminate. injection HE as <-.
    destruct (metrics_set_back s Hs m EM) as (HT & HD). destruct (IH ms' eq_refl) as (HT' & HD'). split; [now constructor|].
    cbn [map collect as_message]. now rewrite HD, HD'.
Qed.

Lemma to_coordinator_back m bs :
  match m with
  | TaskMetrics _ t => Forall (Forall (fits_metric utf8 sketch)) (pre_order_plan_metrics _ t) /\ Forall (fits_metric utf8 sketch) (own_metrics _ t)
  | LoadInfo _ l => fits_load_info l
  | LoadInfoEos _ => True
  end ->
  send_to_coordinator sketch sketch_to_bytes m = Ok bs -> N.of_nat (List.length bs) < 2 ^ 64 ->
  receive_at_coordinator utf8 sketch sketch_from_bytes bs =
  Ok (match m with
      | TaskMetrics _ t => TaskMetrics _ {| pre_order_plan_metrics := map (seen_set sketch) (pre_order_plan_metrics _ t); own_metrics := seen_set sketch (own_metrics _ t) |}
      | m => m
      end).
Proof.
  intros HF HS HN. unfold send_to_coordinator in HS. unfold receive_at_coordinator. destruct m as [t|l|].
  - destruct HF as (HF1 & HF2). unfold encode_task_metrics in HS.
    destruct (collect encode_metrics_set (pre_order_plan_metrics _ t)) as [sets| |] eqn:ES; cbn [bind] in HS; try discriminate.
    destruct (encode_metrics_set (own_metrics _ t)) as [own| |] eqn:EO; cbn [bind] in HS; try discriminate. injection HS as <-.
    destruct (sets_back _ HF1 _ ES) as (HT1 & HD1). destruct (metrics_set_back _ HF2 _ EO) as (HT2 & HD2).
    rewrite sent_back; [|  |exact HN].
    + cbn [bind field_at nth one N.eqb Pos.eqb as_message]. unfold decode_task_metrics.
      erewrite (vec_all (Message MetricsSetMsg)) by reflexivity. rewrite HD1. cbn [bind opt field_at nth one or_err as_message]. now rewrite HD2.
    + cbn [fields_of]. constructor; [|constructor]. eapply typed_one; [reflexivity|cbn; tauto|]. apply typed_message. cbn [fields_of].
      repeat apply Forall2_cons; [now apply typed_all|now apply typed_opt|constructor].
  - cbn [bind] in HS. injection HS as <-. rewrite sent_back; [|  |exact HN].
    + cbn [bind field_at nth one N.eqb Pos.eqb as_message]. now rewrite load_info_back.
    + cbn [fields_of]. constructor; [|constructor]. eapply typed_one; [reflexivity|cbn; tauto|]. apply typed_message. now apply typed_load_info.
  - cbn [bind] in HS. injection HS as <-. rewrite sent_back; [reflexivity|  |exact HN].
    cbn [fields_of]. constructor; [|constructor]. eapply typed_one; [reflexivity|cbn; tauto|]. constructor. now right.
Qed.
End Metrics.

(** *** Nodes *)
Section Nodes.
Variables (url plan partitioning schema : Type) (url_to_string : url -> list N) (url_parse : list N -> option url).
Variables (partitioning_to_bytes : partitioning -> Res (list N)) (partitioning_from_bytes : schema -> list N -> Res (option partitioning)).
Variables (schema_to_bytes : schema -> Res (list N)) (schema_from_bytes : list N -> Res schema).
Hypothesis url_back : forall u, url_parse (url_to_string u) = Some u /\ utf8 (url_to_string u) = true.
Hypothesis schema_back : forall s b, schema_to_bytes s = Ok b -> schema_from_bytes b = Ok s.
Notation node := (node url plan partitioning schema).
Notation try_encode := (try_encode url plan partitioning schema url_to_string partitioning_to_bytes schema_to_bytes).
Notation try_decode := (try_decode utf8 url plan partitioning schema url_parse partitioning_from_bytes schema_from_bytes).

Lemma typed_stage (s : stage url plan) : fits_stage url plan s -> typed (TMsg StageMsg) (Message StageMsg (encode_stage url plan url_to_string s)).
Proof.
  intros HF. apply typed_message. destruct s as [q n i k|q n ws]; destruct HF as [Hq Hn]; cbn [fields_of encode_stage]; each; apply typed_all.
  - apply Forall_forall. intros _ _. apply typed_message. cbn [fields_of]. repeat constructor.
  - apply Forall_forall. intros u _. apply typed_message. cbn [fields_of]. constructor; [|constructor]. apply typed_opt. constructor. apply url_back.
Qed.
Lemma stage_back (s : stage url plan) : fits_stage url plan s ->
  parse_stage url plan url_parse (Some (Message StageMsg (encode_stage url plan url_to_string s)))
    (match s with LocalStage _ _ _ _ p _ => [p] | RemoteStage _ _ _ _ _ => [] end) = Ok s.
Proof.
  intros HF. unfold parse_stage. cbn [or_err bind as_message].
  destruct s as [q n i k|q n ws]; destruct HF as [Hq Hn]; cbn [encode_stage].
  - cbn [blob field_at nth one as_blob]. unfold deserialize_uuid, serialize_uuid, uuid in *. rewrite Hq. cbn [Nat.eqb bind].
    erewrite (vec_all (fun _ => Message ExecutionTaskMsg [[]])) by reflexivity. rewrite map_length, repeat_length. reflexivity.
  - erewrite (vec_all (fun u => Message ExecutionTaskMsg [one 1 (Blob (url_to_string u))])) by reflexivity.
    rewrite (collect_map _ _ (fun u => u)).
    + rewrite map_id. cbn [bind blob field_at nth one as_blob]. unfold deserialize_uuid, serialize_uuid, uuid in *. rewrite Hq. reflexivity.
    + apply Forall_forall. intros u _. cbn [as_message opt field_at nth one or_err bind as_blob]. now rewrite (proj1 (url_back u)).
Qed.

Lemma weight_bytes w (m : content msg) : payload msg fields_of (Message WeightMsg [one 1 (Fixed64 (same_weight w)); m]) = payload msg fields_of (Message WeightMsg [one 1 (Fixed64 w); m]).
Proof.
  unfold same_weight. destruct (N.eqb_spec w (2 ^ 63)) as [->|]; [|reflexivity]. reflexivity.
Qed.
Lemma arrives_bytes (n : node) : try_encode (arrives _ _ _ _ n) = try_encode n.
Proof.
  destruct n as [| c cs ws ts | |]; try reflexivity. unfold CodecModel.try_encode. cbn [arrives bind]. f_equal. unfold WireModel.encode.
  cbn [fields_of map]. unfold write_content. cbn [one map fst snd is_default payload].
  assert (E : forall (f : N * option N -> value msg) l, map (fun x => (fst x, (is_default msg (snd x), payload msg fields_of (snd x)))) (all 3 f l) =
           map (fun a => (3, (is_default msg (f a), payload msg fields_of (f a)))) l).
  { intros f l. unfold all. rewrite map_map. reflexivity. }
  rewrite !E. rewrite map_map. cbn [fst snd is_default].
  match goal with |- context [map (fun x : N * option N => @?f x) ws] => erewrite (map_ext f) end; [reflexivity|].
  intros [w m]. cbn [fst snd]. do 2 f_equal. apply weight_bytes.
Qed.

Lemma node_back (n : node) bs :
  (forall k s p i b, n = Boundary _ _ _ _ k s p i -> partitioning_to_bytes p = Ok b -> partitioning_from_bytes s b = Ok (Some p)) -> fits_node _ _ _ _ n -> try_encode n = Ok bs -> N.of_nat (List.length bs) < 2 ^ 64 ->
  try_decode bs (node_children url plan partitioning schema n) = Ok (arrives _ _ _ _ n).
Proof.
  intros partitioning_back HF HE HN.
  destruct n as [k s p i|c cs ws ts|ch n|ch]; cbn [fits_node] in HF.
  - cbn [arrives]. unfold CodecModel.try_encode in HE.
    destruct (schema_to_bytes s) as [sb| |] eqn:ES; cbn [bind] in HE; try discriminate.
    destruct (partitioning_to_bytes p) as [pb| |] eqn:EP; cbn [bind] in HE; try discriminate. injection HE as <-.
    unfold CodecModel.try_decode. rewrite sent_back; [|  |exact HN].
    + assert (G : decode_boundary url plan partitioning schema url_parse partitioning_from_bytes schema_from_bytes k
               [one 1 (Blob sb); one 2 (Blob pb); one 3 (Message StageMsg (encode_stage url plan url_to_string i))] (node_children url plan partitioning schema (Boundary _ _ _ _ k s p i)) = Ok (Boundary _ _ _ _ k s p i)).
      { unfold decode_boundary. cbn [opt field_at nth one or_err bind as_blob]. rewrite (schema_back _ _ ES). cbn [bind].
        rewrite (partitioning_back k s p i pb eq_refl EP). cbn [bind or_err]. cbn [node_children].
        pose proof (stage_back i HF) as HB. destruct i; cbn [or_err] in HB |- *; rewrite HB; reflexivity. }
      destruct k; cbn [bind field_at nth one boundary_tag N.eqb Pos.eqb as_message]; exact G.
    + cbn [fields_of]. constructor; [|constructor]. eapply typed_one; [destruct k; reflexivity|destruct k; cbn; tauto|]. apply typed_message. cbn [fields_of].
      repeat apply Forall2_cons; [apply typed_opt; constructor|apply typed_opt; constructor|apply typed_opt; now apply typed_stage|constructor].
  - rewrite <- arrives_bytes in HE. destruct HF as (Hc & Hne & Hw & Ht). cbn [arrives] in *.
    set (ws' := map (fun w => (same_weight (fst w), snd w)) ws) in *.
    assert (Hw' : Forall (fun w => u64 (fst w) /\ fst w <> 2 ^ 63 /\ forall m, snd w = Some m -> u64 m) ws').
    { unfold ws'. apply Forall_map. eapply Forall_impl; [|exact Hw]. intros [w m] [H1 H2]. cbn [fst snd] in *. unfold same_weight.
      destruct (N.eqb_spec w (2 ^ 63)); (split; [|split; [|exact H2]]); unfold u64 in *; try assumption; try lia. }
    clearbody ws'. clear Hw. unfold CodecModel.try_encode in HE. cbn [bind] in HE. injection HE as <-.
    unfold CodecModel.try_decode. rewrite sent_back; [|  |exact HN].
    + cbn [bind field_at nth one N.eqb Pos.eqb as_message node_children]. destruct cs as [|c0 cs]; [now contradict Hne|].
      do 2 f_equal.
      * erewrite (vec_all (fun w => Message WeightMsg [one 1 (Fixed64 (fst w)); match snd w with Some m => one 2 (Varint m) | None => [] end])) by reflexivity.
        rewrite map_map. rewrite <- (map_id ws') at 2. apply map_ext. intros [w [m|]]; reflexivity.
      * erewrite (vec_all (fun l => Message TaskMapMsg [all 1 (fun x => Message ChildTaskMsg [one 1 (Varint (fst x)); one 2 (Varint (fst (snd x))); one 3 (Varint (snd (snd x)))]) l])) by reflexivity.
        rewrite map_map. rewrite <- (map_id ts) at 2. apply map_ext. intros l. cbn [as_message].
        erewrite (vec_all (fun x : N * (N * N) => Message ChildTaskMsg [one 1 (Varint (fst x)); one 2 (Varint (fst (snd x))); one 3 (Varint (snd (snd x)))])) by reflexivity.
        rewrite map_map. rewrite <- (map_id l) at 2. apply map_ext. intros (a & b & c'). reflexivity.
    + cbn [fields_of]. constructor; [|constructor]. eapply typed_one; [reflexivity|cbn; tauto|]. apply typed_message. cbn [fields_of]. each; apply typed_all.
      * eapply Forall_impl; [|exact Ht]. intros l Hl. apply typed_message. cbn [fields_of]. constructor; [|constructor]. apply typed_all.
        eapply Forall_impl; [|exact Hl]. intros x (H1 & H2 & H3). apply typed_message. cbn [fields_of]. each.
      * eapply Forall_impl; [|exact Hw']. intros [w m] (H1 & H2 & H3). cbn [fst snd] in *. apply typed_message. cbn [fields_of]. constructor; [|constructor; [|constructor]].
        -- constructor; [exact I| |discriminate|constructor; exact H1]. intros E. injection E as ->. now apply H2.
        -- destruct m as [m|]; [|constructor]. apply typed_opt. constructor. exact (H3 m eq_refl).
  - unfold CodecModel.try_encode in HE. cbn [bind] in HE. injection HE as <-. unfold CodecModel.try_decode. rewrite sent_back; [reflexivity|  |exact HN].
    cbn [fields_of]. constructor; [|constructor]. eapply typed_one; [reflexivity|cbn; tauto|]. apply typed_message. cbn [fields_of]. each.
  - unfold CodecModel.try_encode in HE. cbn [bind] in HE. injection HE as <-. unfold CodecModel.try_decode. rewrite sent_back; [reflexivity|  |exact HN].
    cbn [fields_of]. constructor; [|constructor]. eapply typed_one; [reflexivity|cbn; tauto|]. apply typed_message. constructor.
Qed.
End Nodes.
End Codec.
