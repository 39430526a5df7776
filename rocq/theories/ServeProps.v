(** Property C99: a worker answers a request for data with the partitions that were asked for, or refuses it. *)
From Coq Require Import NArith.
From Verif Require Import Base NetModel ServeModel ServeProofs.
Open Scope N_scope.

Section Props.
Context {St stream : Type}.
Variable checks : bool.
Variable can_allocate : N -> bool.
Variable partition_count : N.
Variable execute : St -> N -> St * Res stream.
Notation execute_task := (execute_task checks can_allocate partition_count execute).
Notation serve := (serve checks can_allocate partition_count execute).

Lemma loop_spec st a b :
  match execute_from partition_count execute (S (N.to_nat partition_count)) st a b with
  | (st', Ok l) => (b <= partition_count \/ b <= a) /\ executes execute st (range a b) st' l
  | (st', Err e) => (e = "partition not available"%string /\ partition_count < b /\ a < b /\
                      exists l, executes execute st (range a partition_count) st' l) \/
                    exists p st1 l, a <= p < b /\ p < partition_count /\ executes execute st (range a p) st1 l /\ execute st1 p = (st', Err e)
  | (st', Panic e) => exists p st1 l, a <= p < b /\ p < partition_count /\ executes execute st (range a p) st1 l /\ execute st1 p = (st', Panic e)
  end.
Proof using. apply execute_from_spec; lia. Qed.

Lemma tagged_range a b (l : list stream) st st' : executes execute st (range a b) st' l ->
  combine (map N.of_nat (seq (N.to_nat a) (List.length l))) l = combine (range a b) l.
Proof using. intros H. apply executes_length in H. unfold range in *. rewrite map_length, seq_length in H. now rewrite H. Qed.

Lemma known_ones c : In c ["lz4"; "zstd"; "none"]%string -> known_compression c = true.
Proof using. now intros [<-|[<-|[<-|[]]]]. Qed.

(** C99. Whatever is asked for: if a worker answers with streams, they are those of the partitions [start], …, [end_ - 1] of
    the task's plan, in this order, each marked with the number of its partition, and all of them exist. *)
Theorem C99_only_what_was_asked_for compression st start end_ st' l :
  serve compression st start end_ = (st', Streams l) ->
  map fst l = range start end_ /\ executes execute st (range start end_) st' (map snd l) /\
  forall p, In p (map fst l) -> p < partition_count.
Proof using.
  intros H. unfold serve, ServeModel.serve in H. destruct (execute_task st start end_) as [st1 [l1|e|e|]] eqn:E; try discriminate.
  destruct (known_compression compression); [|discriminate]. injection H as -> ->.
  unfold execute_task in E. destruct (usize_sub checks end_ start) as [n| |]; try discriminate.
  destruct (with_capacity can_allocate n); try discriminate.
  pose proof (loop_spec st start end_) as HL.
  destruct (execute_from _ _ _ st start end_) as [st2 [r|e|e]]; try discriminate. injection E as <- <-.
  destruct HL as [H1 H2]. rewrite (tagged_range _ _ _ _ _ H2).
  assert (L : List.length (range start end_) = List.length r) by (eapply executes_length; eauto).
  assert (F : map fst (combine (range start end_) r) = range start end_ /\ map snd (combine (range start end_) r) = r).
  { clear -L. revert r L. induction (range start end_) as [|x xs IH]; intros [|y ys] L; try discriminate; [auto|].
    cbn. injection L as L. destruct (IH ys L) as [-> ->]. auto. }
  destruct F as [-> ->]. split; [reflexivity|]. split; [exact H2|]. intros p Hp. apply range_in in Hp. lia.
Qed.

(** A request for partitions that the plan has is answered, if none of them fails when it is executed and the room for
    their streams can be allocated. *)
Theorem C99_available_partitions_are_served compression st start end_ st' l :
  In compression ["lz4"; "zstd"; "none"]%string -> start <= end_ -> end_ <= partition_count ->
  (end_ - start) * stream_bytes <= isize_max -> can_allocate ((end_ - start) * stream_bytes) = true ->
  executes execute st (range start end_) st' l ->
  serve compression st start end_ = (st', Streams (combine (range start end_) l)).
Proof using.
  intros Hc H1 H2 H3 H4 Hx. unfold serve, ServeModel.serve, execute_task, ServeModel.execute_task, usize_sub. destruct (N.leb_spec start end_); [|lia].
  unfold with_capacity. destruct (N.ltb_spec isize_max ((end_ - start) * stream_bytes)); [lia|]. rewrite H4, orb_true_r.
  rewrite (execute_from_ok partition_count execute _ st start end_ st' l) by (auto; lia).
  rewrite (known_ones compression Hc). now rewrite (tagged_range _ _ _ _ _ Hx).
Qed.

(** A request that goes beyond the partitions of the plan is refused, as is one with a partition that cannot be
    executed. *)
Theorem C99_unavailable_partitions_are_refused compression st start end_ :
  start <= end_ -> partition_count < end_ -> start < end_ ->
  (end_ - start) * stream_bytes <= isize_max -> can_allocate ((end_ - start) * stream_bytes) = true ->
  (forall st p, match snd (execute st p) with Panic _ => False | _ => True end) ->
  exists st' e, serve compression st start end_ = (st', Refused e).
Proof using.
  intros H1 H2 H2' H3 H4 Hp. unfold serve, ServeModel.serve, execute_task, ServeModel.execute_task, usize_sub. destruct (N.leb_spec start end_); [|lia].
  unfold with_capacity. destruct (N.ltb_spec isize_max ((end_ - start) * stream_bytes)); [lia|]. rewrite H4, orb_true_r.
  pose proof (loop_spec st start end_) as HL.
  destruct (execute_from _ _ _ st start end_) as [st2 [r|e|e]]; [lia|eauto|].
  destruct HL as (p & st1 & l & _ & _ & _ & E). specialize (Hp st1 p). rewrite E in Hp. destruct Hp.
Qed.

(** What is missing: that every request is answered or refused. A request whose range is not backwards and whose streams
    have room in memory neither panics nor ends the process, if executing a partition does not. *)
Theorem C99_answered_or_refused_partial compression st start end_ :
  start <= end_ -> (end_ - start) * stream_bytes <= isize_max -> can_allocate ((end_ - start) * stream_bytes) = true ->
  (forall st p, match snd (execute st p) with Panic _ => False | _ => True end) ->
  match snd (serve compression st start end_) with Streams _ | Refused _ => True | Panicked _ | Killed => False end.
Proof using.
  intros H1 H3 H4 Hp. unfold serve, ServeModel.serve, execute_task, ServeModel.execute_task, usize_sub. destruct (N.leb_spec start end_); [|lia].
  unfold with_capacity. destruct (N.ltb_spec isize_max ((end_ - start) * stream_bytes)); [lia|]. rewrite H4, orb_true_r.
  pose proof (loop_spec st start end_) as HL.
  destruct (execute_from _ _ _ st start end_) as [st2 [r|e|e]]; cbn; [now destruct (known_compression compression)|exact Logic.I|].
  destruct HL as (p & st1 & l & _ & _ & _ & E). specialize (Hp st1 p). rewrite E in Hp. destruct Hp.
Qed.

(** For every plan, a backwards request panics if overflows are checked, and a request for 2^60 partitions panics in any
    case; one for 2^40 ends the process if the allocator has not 16 TiB. Nothing of this depends on the plan. *)
Theorem C99_backwards_panics compression st start end_ : checks = true -> end_ < start ->
  exists e, serve compression st start end_ = (st, Panicked e).
Proof using.
  intros Hc H. unfold serve, ServeModel.serve, execute_task, ServeModel.execute_task, usize_sub.
  destruct (N.leb_spec start end_); [lia|]. rewrite Hc. eauto.
Qed.
Theorem C99_wide_requests compression st start end_ : start <= end_ -> end_ < 2 ^ 64 ->
  (isize_max < (end_ - start) * stream_bytes -> exists e, serve compression st start end_ = (st, Panicked e)) /\
  (can_allocate ((end_ - start) * stream_bytes) = false -> start < end_ -> (end_ - start) * stream_bytes <= isize_max ->
   serve compression st start end_ = (st, Killed)).
Proof using.
  intros H1 H2. unfold serve, ServeModel.serve, execute_task, ServeModel.execute_task, usize_sub. destruct (N.leb_spec start end_); [|lia].
  unfold with_capacity. split.
  - intros H3. destruct (N.ltb_spec isize_max ((end_ - start) * stream_bytes)); [eauto|lia].
  - intros H3 H4 H5. destruct (N.ltb_spec isize_max ((end_ - start) * stream_bytes)); [lia|].
    rewrite H3. destruct (N.eqb_spec (end_ - start) 0); [lia|]. reflexivity.
Qed.
End Props.
Print Assumptions C99_only_what_was_asked_for.
Print Assumptions C99_available_partitions_are_served.
Print Assumptions C99_unavailable_partitions_are_refused.
Print Assumptions C99_answered_or_refused_partial.
Print Assumptions C99_backwards_panics.
Print Assumptions C99_wide_requests.

(** The boundaries' own requests. [producers], [workers] and [pool] as in C01-C04: if the call of a boundary returns rows
    in the model of the network, then the worker that holds the plan serves the request, with overflow checks or without, and the
    rows are those of the stream marked with the requested partition. *)
Theorem C99_boundaries_are_served {row : Type} (producers : nat -> splan row) workers pool (r : request row) rows checks can_allocate plan compression :
  pool_execute producers workers pool r = Ok rows -> insert_head (rq_head r) (producers (rq_task r)) = Ok plan ->
  In compression ["lz4"; "zstd"; "none"]%string ->
  let bytes := N.of_nat (rq_end r - rq_start r) * stream_bytes in bytes <= isize_max -> can_allocate bytes = true ->
  (rq_start r <= rq_end r)%nat ->
  exists l, serve checks can_allocate (N.of_nat (parts plan)) (fun (_ : unit) p => (tt, exec plan (N.to_nat p))) compression tt
      (N.of_nat (rq_start r)) (N.of_nat (rq_end r)) = (tt, Streams l) /\ In (N.of_nat (rq_target r), rows) l.
Proof.
  intros H Hh Hc bytes Hb Ha Hr. unfold pool_execute in H. destruct (workers <=? rq_task r)%nat; [discriminate|].
  destruct (pool <=? rq_task r)%nat; [discriminate|]. unfold worker_execute_task in H. rewrite Hh in H. cbn [bind] in H.
  destruct (mapM _ _) as [streams| |] eqn:E; cbn [bind] in H; try discriminate.
  destruct (Nat.ltb_spec (rq_target r) (rq_start r)) as [|Ht]; [discriminate|].
  destruct (nth_error streams (rq_target r - rq_start r)) as [s|] eqn:En; [|discriminate]. injection H as ->.
  apply mapM_ok_inv in E. set (ex := fun (_ : unit) p => (tt, exec plan (N.to_nat p))).
  assert (X : forall ps ss, Forall2 (fun p y => (if (parts plan <=? p)%nat then Err "partition not available" else exec plan p) = Ok y) ps ss ->
    executes ex tt (map N.of_nat ps) tt ss /\ Forall (fun p => p < parts plan)%nat ps).
  { induction 1 as [|p y ps ss Hp _ [IH1 IH2]]; [split; constructor|].
    destruct (Nat.leb_spec (parts plan) p); [discriminate|]. split; [|now constructor].
    cbn [map]. econstructor; [|exact IH1]. unfold ex. now rewrite Nat2N.id, Hp. }
  destruct (X _ _ E) as [X1 X2].
  assert (Er : map N.of_nat (seq (rq_start r) (rq_end r - rq_start r)) = range (N.of_nat (rq_start r)) (N.of_nat (rq_end r))).
  { unfold range. rewrite Nat2N.id. do 2 f_equal. lia. }
  rewrite Er in X1. assert (Ed : N.of_nat (rq_end r) - N.of_nat (rq_start r) = N.of_nat (rq_end r - rq_start r)) by lia.
  assert (Hlt : (rq_start r < rq_end r)%nat).
  { assert (rq_target r - rq_start r < List.length streams)%nat by (apply nth_error_Some; congruence).
    assert (List.length (seq (rq_start r) (rq_end r - rq_start r)) = List.length streams) by (clear -E; induction E; cbn; congruence).
    rewrite seq_length in *. lia. }
  exists (combine (range (N.of_nat (rq_start r)) (N.of_nat (rq_end r))) streams). split.
  - apply C99_available_partitions_are_served; try rewrite Ed; auto; [lia|].
    rewrite Forall_forall in X2. specialize (X2 (rq_end r - 1)%nat). assert (rq_end r - 1 < parts plan)%nat; [|lia].
    apply X2. apply in_seq. lia.
  - rewrite <- Er. clear -E En Ht. apply (nth_error_In _ (rq_target r - rq_start r)).
    assert (L : List.length (seq (rq_start r) (rq_end r - rq_start r)) = List.length streams) by (clear -E; induction E; cbn; congruence).
    assert (rq_target r - rq_start r < List.length streams)%nat by (apply nth_error_Some; congruence). rewrite seq_length in L.
    assert (G : forall A B (xs : list A) (ys : list B) i x y, nth_error xs i = Some x -> nth_error ys i = Some y -> nth_error (combine xs ys) i = Some (x, y)).
    { clear. induction xs as [|a xs IH]; intros [|b ys] [|i] x y H1 H2; cbn in *; try discriminate; [congruence|auto]. }
    apply G; [|exact En]. rewrite nth_error_map, (nth_error_nth' _ 0%nat) by (rewrite seq_length; lia). cbn.
    rewrite seq_nth by lia. do 2 f_equal. lia.
Qed.
Print Assumptions C99_boundaries_are_served.

(** The ranges that boundaries ask for are not backwards. *)
Theorem C99_boundaries_ask_forwards {row : Type} :
  (forall (s : shuffle row) workers ctx p rs r, shuffle_requests s workers ctx p = Ok rs -> In r rs -> (rq_start r <= rq_end r)%nat) /\
  (forall (b : broadcast row) workers ctx p r, In r (broadcast_requests b workers ctx p) -> (rq_start r <= rq_end r)%nat) /\
  (forall (c : coalesce row) ctx p r, coalesce_request c ctx p = Ok (Some r) -> (rq_start r <= rq_end r)%nat).
Proof.
  split; [|split].
  - intros s workers ctx p rs r H Hin. unfold shuffle_requests in H. apply mapM_ok_inv in H.
    assert (E : exists k, (let* h := shuffle_producer_head s (task_count ctx) in
        Ok (mkReq (NetModel.partition_count (sh_part s) * task_index ctx) (NetModel.partition_count (sh_part s) * task_index ctx + NetModel.partition_count (sh_part s)) k
          (NetModel.partition_count (sh_part s) * task_index ctx + p) h)) = Ok r).
    { clear -H Hin. induction H as [|k x ks xs E _ IH]; [destruct Hin|]. destruct Hin as [->|Hin]; [exists k; exact E|auto]. }
    destruct E as (k & E). destruct (shuffle_producer_head s (task_count ctx)); cbn in E; try discriminate.
    injection E as <-. cbn. lia.
  - intros b workers ctx p r H. unfold broadcast_requests in H. apply in_map_iff in H as (k & <- & _). cbn. lia.
  - intros c ctx p r H. unfold coalesce_request in H.
    repeat match type of H with (if ?x then _ else _) = _ => destruct x; try discriminate end.
    injection H as <-. cbn. lia.
Qed.
Print Assumptions C99_boundaries_ask_forwards.

(** A stage whose streams were started before it was asked for ([sampler_execute], plans of which the task count depends
    on samples): its partitions are served with their own streams, and a partition that was served is not served
    again, whatever else was asked for between the two requests. *)
Inductive later {stream : Type} checks can_allocate partition_count (streams : N -> stream) : list N -> list N -> Prop :=
| now_ st : later checks can_allocate partition_count streams st st
| then_ st c a b st1 x st2 : serve checks can_allocate partition_count (sampler_execute streams) c st a b = (st1, x) ->
    later checks can_allocate partition_count streams st1 st2 -> later checks can_allocate partition_count streams st st2.
Theorem C99_started_streams_once {stream : Type} checks can_allocate partition_count (streams : N -> stream)
    c st start end_ st1 l st2 c' start' end' st3 answer p :
  serve checks can_allocate partition_count (sampler_execute streams) c st start end_ = (st1, Streams l) ->
  map snd l = map streams (range start end_) /\
  (later checks can_allocate partition_count streams st1 st2 ->
   start <= p < end_ -> start' <= p < end' ->
   serve checks can_allocate partition_count (sampler_execute streams) c' st2 start' end' = (st3, answer) ->
   match answer with Streams _ => False | _ => True end).
Proof.
  intros H. apply C99_only_what_was_asked_for in H as (_ & Hx & _). apply sampled in Hx as (-> & Hst & _).
  split; [reflexivity|]. intros HL Hp Hp' H'. destruct answer as [l'| | |]; auto.
  apply C99_only_what_was_asked_for in H' as (_ & Hx & _). apply sampled in Hx as (_ & _ & Hin).
  assert (Hle : incl st2 st1).
  { clear -HL. induction HL as [|st c a b st1 x st2 H _ IH]; [apply incl_refl|]. eapply incl_tran; [exact IH|].
    eapply serve_shrinks; eauto. }
  apply (proj2 (Hst p ltac:(apply range_in; lia))). apply Hle. apply Hin. apply range_in. lia.
Qed.
Print Assumptions C99_started_streams_once.
Example C99_started_case checks :
  let sv := serve checks (fun _ => true) 3 (sampler_execute (fun p => [10 * p])) "lz4" in
  sv [0; 1; 2] 0 2 = ([2], Streams [(0, [0]); (1, [10])]) /\
  sv [2] 2 3 = ([], Streams [(2, [20])]) /\
  snd (sv [] 1 2) = Refused "SamplerExec was not kicked off".
Proof. destruct checks; vm_compute; auto. Qed.

(** ** Concrete cases *)

(** A plan of four partitions; partition [p] yields the row [10 * p]. *)
Definition tens (_ : unit) (p : N) : unit * Res (list N) := (tt, Ok [10 * p]).
Example C99_case checks :
  serve checks (fun _ => true) 4 tens "lz4" tt 1 3 = (tt, Streams [(1, [10]); (2, [20])]) /\
  serve checks (fun _ => true) 4 tens "none" tt 2 2 = (tt, Streams []) /\
  serve checks (fun _ => true) 4 tens "zstd" tt 2 6 = (tt, Refused "partition not available") /\
  executes tens tt (range 1 3) tt [[10]; [20]].
Proof. repeat split; try (destruct checks; vm_compute; reflexivity). repeat econstructor. Qed.

(** A shuffle of two partitions for two consumer tasks, read by the second of them: its request is served. *)
Example C99_boundary_case checks :
  let s := mkShuffle (HashP (fun r => r) 2) (Remote 1) 1 in
  let producer := SRepart (HashP (fun r => r) 2) (SOther 1 (fun _ => [1; 2; 3; 4; 5]))%nat in
  exists r, shuffle_requests s 1 (mkCtx 1 2) 0 = Ok [r] /\
    pool_execute (fun _ => producer) 1 1 r = Ok [2]%nat /\
    exists plan, insert_head (rq_head r) producer = Ok plan /\
    serve checks (fun _ => true) (N.of_nat (parts plan)) (fun (_ : unit) p => (tt, exec plan (N.to_nat p))) "lz4" tt
      (N.of_nat (rq_start r)) (N.of_nat (rq_end r)) = (tt, Streams [(2, [2]%nat); (3, [3]%nat)]).
Proof.
  eexists. split; [vm_compute; reflexivity|]. split; [vm_compute; reflexivity|].
  eexists. split; [vm_compute; reflexivity|]. destruct checks; vm_compute; reflexivity.
Qed.

(** ** What does not hold *)

(** Not every request is answered or refused: whatever the plan, a request whose end is before its start, or one for very
    many partitions, makes the worker panic, and one for 2^40 partitions ends the worker's process unless it can allocate
    16 TiB; the number of partitions of the plan is looked at only afterwards. All of them are well-formed messages. *)
Theorem C99_answered_or_refused_refuted : forall (St stream : Type) partition_count (execute : St -> N -> St * Res stream) compression st,
  (forall can_allocate, exists a b e, a < 2 ^ 64 /\ b < 2 ^ 64 /\
     serve true can_allocate partition_count execute compression st a b = (st, Panicked e)) /\
  (forall checks can_allocate, exists a b e, a < 2 ^ 64 /\ b < 2 ^ 64 /\
     serve checks can_allocate partition_count execute compression st a b = (st, Panicked e)) /\
  (forall checks can_allocate, can_allocate (2 ^ 44) = false -> exists a b, a < 2 ^ 64 /\ b < 2 ^ 64 /\
     serve checks can_allocate partition_count execute compression st a b = (st, Killed)).
Proof.
  intros St stream P execute compression st. split; [|split].
  - intros alloc. exists 1, 0. destruct (C99_backwards_panics true alloc P execute compression st 1 0 eq_refl ltac:(lia)) as (e & E).
    exists e. split; [reflexivity|]. split; [reflexivity|exact E].
  - intros checks alloc. exists 0, (2 ^ 60).
    destruct (proj1 (C99_wide_requests checks alloc P execute compression st 0 (2 ^ 60) ltac:(lia) ltac:(reflexivity)) ltac:(reflexivity)) as (e & E).
    exists e. split; [reflexivity|]. split; [reflexivity|exact E].
  - intros checks alloc Ha. exists 0, (2 ^ 40). split; [reflexivity|]. split; [reflexivity|].
    apply (C99_wide_requests checks alloc P execute compression st 0 (2 ^ 40) ltac:(lia) ltac:(reflexivity)); [exact Ha|reflexivity|discriminate].
Qed.
Print Assumptions C99_answered_or_refused_refuted.

(** A refused request is not without effect. Partitions are executed before it is seen that others are missing or that the
    compression is unknown, and a partition of a SamplerExec can be executed once: the same partitions, asked for
    correctly, are served at first and refused after a refused request. *)
Theorem C99_refused_without_effect_refuted : exists st st1 st2 l e1 e2 e3 e4,
  let serve := serve true (fun _ => true) 2 (sampler_execute (fun p => [10 * p])) in
  snd (serve "lz4"%string st 0 2) = Streams l /\
  serve "lz4"%string st 0 3 = (st1, Refused e1) /\ snd (serve "lz4"%string st1 0 2) = Refused e2 /\
  serve "gzip"%string st 0 2 = (st2, Refused e3) /\ snd (serve "lz4"%string st2 0 2) = Refused e4.
Proof.
  exists [0; 1]. do 7 eexists. split; [vm_compute; reflexivity|]. split; [vm_compute; reflexivity|]. split; [vm_compute; reflexivity|].
  split; [vm_compute; reflexivity|]. vm_compute; reflexivity.
Qed.
Print Assumptions C99_refused_without_effect_refuted.
