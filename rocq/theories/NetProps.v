(** Properties C01-C06: network boundaries. *)
From Verif Require Import Base NetModel NetSpec NetProofs.

(** C01. A shuffle built over [RepartitionExec(Hash h, P)] for any [N0] and then connected to [N] producer tasks, whose
    plans are a repartition over [inp t] yielding [data t], run in [M] consumer tasks: every
    execution succeeds, and the consumers together see exactly the producers' rows. *)
Theorem C01_shuffle_exact_cover :
  forall (row : Type) (input : splan row) (N0 N M : nat) (s : shuffle row)
         (q : nat -> partitioning row) (inp : nat -> splan row) (data : nat -> nat -> list row),
    shuffle_try_new input N0 = Ok s ->
    0 < parts input -> 0 < M ->
    (forall t, t < N -> yields (inp t) (data t)) ->
    let s' := shuffle_with_input_stage s (Remote N) in
    let run := shuffle_execute (fun t => SRepart (q t) (inp t)) s' in
    (exists out, observes run M (parts input) out) /\
    forall out, observes run M (parts input) out ->
      Permutation (consumer_rows M (parts input) out) (stage_rows N (fun t => parts (inp t)) data).
Proof.
  intros row input N0 N M s q inp data Hs HP HM Hd.
  destruct (shuffle_try_new_inv input N0 s Hs) as (h & P & i & -> & ->).
  exact (conj (shuffle_observable h P N M i inp q data HP HM Hd)
              (shuffle_cover h P N M i inp q data HP HM Hd)).
Qed.
Print Assumptions C01_shuffle_exact_cover.

(** C01, before the stage is handed to workers: the three boundaries then read their input directly, which
    is the whole of the stage only if it has one task; a stage of more tasks is refused. *)
Theorem C01_local_stage :
  forall (row : Type) (producers : nat -> splan row) (plan : splan row) (tasks : nat)
         (part : partitioning row) (n pool : nat) (ctx : TaskCtx) (j : nat),
    (tasks <= 1 ->
     (forall rows, exec plan j = Ok rows ->
        shuffle_execute producers (mkShuffle part (Local plan tasks) pool) ctx j = Ok [rows] /\
        broadcast_execute producers (mkBroadcast n (Local plan tasks) pool) ctx j = Ok [rows] /\
        coalesce_execute producers (mkCoalesce part (Local plan tasks) pool) ctx j = Ok [rows])) /\
    (1 < tasks ->
     exists e,
        shuffle_execute producers (mkShuffle part (Local plan tasks) pool) ctx j = Err e /\
        broadcast_execute producers (mkBroadcast n (Local plan tasks) pool) ctx j = Err e /\
        coalesce_execute producers (mkCoalesce part (Local plan tasks) pool) ctx j = Err e).
Proof.
  intros row producers plan tasks part n pool ctx j. unfold shuffle_execute, broadcast_execute, coalesce_execute.
  cbn [sh_stage br_stage co_stage]. unfold local_execute. split; intros H.
  - intros rows E. destruct (Nat.ltb_spec 1 tasks); [lia|]. rewrite E. auto.
  - destruct (Nat.ltb_spec 1 tasks); [|lia]. eauto.
Qed.
Print Assumptions C01_local_stage.

Example C01_local_stage_met :
  exec (SOther 1 (fun _ => [7])) 0 = Ok [7] /\
  shuffle_execute (fun _ => SOther 1 (fun _ => [7])) (mkShuffle (HashP (fun x => x) 1) (Local (SOther 1 (fun _ => [7])) 1) 1) (mkCtx 0 1) 0 = Ok [[7]].
Proof. split; reflexivity. Qed.

(** C01, reads. Every (producer task, head partition) pair is asked for exactly once over all
    consumer tasks and partitions; the requested range exists in the head prepared by the producer;
    and all requests of one consumer task carry the same range and head (so that sharing one
    connection per producer is sound). *)
Theorem C01_shuffle_reads_once :
  forall (row : Type) (h : row -> nat) (i : splan row) (P N0 N M : nat)
         (q : nat -> partitioning row) (inp : nat -> splan row) (s : shuffle row),
    shuffle_try_new (SRepart (HashP h P) i) N0 = Ok s -> 0 < P -> 0 < M ->
    exists reqs : nat -> nat -> list (request row),
      (forall c j, shuffle_requests (shuffle_with_input_stage s (Remote N)) N (mkCtx c M) j
                   = Ok (reqs c j)) /\
      Permutation (flat_map (fun c => flat_map (fun j => map read_of (reqs c j)) (seq 0 P)) (seq 0 M))
                  (all_pairs N (P * M)) /\
      (forall c j r, c < M -> j < P -> In r (reqs c j) ->
         in_range r /\ rq_end r <= P * M /\
         exists plan, insert_head (rq_head r) (SRepart (q (rq_task r)) (inp (rq_task r))) = Ok plan /\
                      parts plan = P * M) /\
      (forall c j j' r r', In r (reqs c j) -> In r' (reqs c j') ->
         rq_start r = rq_start r' /\ rq_end r = rq_end r' /\ rq_head r = rq_head r').
Proof.
  intros row h i P N0 N M q inp s Hs HP HM. injection Hs as <-.
  exact (shuffle_reads h P N M i inp q HP HM).
Qed.
Print Assumptions C01_shuffle_reads_once.

(** C02. A row goes to the one (consumer task, partition) pair given by the hash of its key. *)
Theorem C02_shuffle_colocates :
  forall (row : Type) (h : row -> nat) (i : splan row) (P N M : nat)
         (q : nat -> partitioning row) (inp : nat -> splan row) (data : nat -> nat -> list row)
         (s : shuffle row) (out : nat -> nat -> list row),
    shuffle_try_new (SRepart (HashP h P) i) N = Ok s -> 0 < P -> 0 < M ->
    (forall t, t < N -> yields (inp t) (data t)) ->
    observes (shuffle_execute (fun t => SRepart (q t) (inp t))
                              (shuffle_with_input_stage s (Remote N))) M P out ->
    forall r c j, c < M -> j < P ->
      (In r (out c j) <->
       In r (stage_rows N (fun t => parts (inp t)) data) /\ h r mod (P * M) = P * c + j).
Proof.
  intros row h i P N M q inp data s out Hs HP HM Hd Hobs. injection Hs as <-.
  exact (shuffle_colocated h P N M _ inp q data HP HM Hd out Hobs).
Qed.
Print Assumptions C02_shuffle_colocates.

(** C02, both sides of a join: two shuffles with the same partition count feeding the same consumer
    stage put rows with equal hashes into the same partition of the same task. *)
Theorem C02_two_shuffles_agree :
  forall (rowA rowB : Type) (hA : rowA -> nat) (hB : rowB -> nat) (iA : splan rowA) (iB : splan rowB)
         (P NA NB M : nat) qA qB inpA inpB dataA dataB sA sB outA outB,
    shuffle_try_new (SRepart (HashP hA P) iA) NA = Ok sA ->
    shuffle_try_new (SRepart (HashP hB P) iB) NB = Ok sB ->
    0 < P -> 0 < M ->
    (forall t, t < NA -> yields (inpA t) (dataA t)) ->
    (forall t, t < NB -> yields (inpB t) (dataB t)) ->
    observes (shuffle_execute (fun t => SRepart (qA t) (inpA t))
                              (shuffle_with_input_stage sA (Remote NA))) M P outA ->
    observes (shuffle_execute (fun t => SRepart (qB t) (inpB t))
                              (shuffle_with_input_stage sB (Remote NB))) M P outB ->
    forall a b c j, c < M -> j < P -> hA a = hB b ->
      In a (outA c j) -> In b (stage_rows NB (fun t => parts (inpB t)) dataB) -> In b (outB c j).
Proof.
  intros rowA rowB hA hB iA iB P NA NB M qA qB inpA inpB dataA dataB sA sB outA outB
         HsA HsB HP HM HdA HdB HoA HoB a b c j Hc Hj Hh Ha Hb.
  apply (C02_shuffle_colocates _ hB iB P NB M qB inpB dataB sB outB HsB HP HM HdB HoB b c j Hc Hj).
  apply (C02_shuffle_colocates _ hA iA P NA M qA inpA dataA sA outA HsA HP HM HdA HoA a c j Hc Hj) in Ha.
  rewrite <- Hh. exact (conj Hb (proj2 Ha)).
Qed.
Print Assumptions C02_two_shuffles_agree.

(** C03. A broadcast built by the planner over [BroadcastExec(inp0, 1)] (insert_broadcast.rs:144) and
    connected to [N] producer tasks with [P] input partitions each: every one of the [M] consumer
    tasks sees every row of every producer exactly once. *)
Theorem C03_broadcast_full_copy :
  forall (row : Type) (inp0 : splan row) (N0 N M : nat) (b : broadcast row)
         (k0 : nat -> nat) (inp : nat -> splan row) (data : nat -> nat -> list row),
    broadcast_try_new (SBcast 1 inp0) N0 = Ok b ->
    0 < parts inp0 ->
    (forall t, t < N -> parts (inp t) = parts inp0 /\ yields (inp t) (data t)) ->
    let P := parts inp0 in
    let run := broadcast_execute (fun t => SBcast (k0 t) (inp t))
                                 (broadcast_with_input_stage b (Remote N)) in
    (exists out, observes run M P out) /\
    forall out, observes run M P out ->
      forall c, c < M ->
      Permutation (flat_map (out c) (seq 0 P)) (stage_rows N (fun _ => P) data).
Proof.
  intros row inp0 N0 N M b k0 inp data Hb HP Hd. cbn in Hb. injection Hb as <-. cbv zeta.
  rewrite Nat.mul_1_r.
  pose proof (fun t Ht => proj1 (Hd t Ht)) as Hp. pose proof (fun t Ht => proj2 (Hd t Ht)) as Hy.
  exact (conj (broadcast_observable (parts inp0) N M inp0 inp k0 data HP Hp Hy)
              (broadcast_cover (parts inp0) N M inp0 inp k0 data HP Hp Hy)).
Qed.
Print Assumptions C03_broadcast_full_copy.

(** C03, reads. The head prepared by every producer is a BroadcastExec with exactly [M] consumers and
    [P * M] partitions, each requested exactly once: no partition is missing and no input partition is
    asked for by more consumers than declared. *)
Theorem C03_broadcast_reads_once :
  forall (row : Type) (inp0 : splan row) (N0 N M : nat) (b : broadcast row)
         (k0 : nat -> nat) (inp : nat -> splan row),
    broadcast_try_new (SBcast 1 inp0) N0 = Ok b ->
    0 < parts inp0 ->
    (forall t, t < N -> parts (inp t) = parts inp0) ->
    let P := parts inp0 in
    let reqs c j := broadcast_requests (broadcast_with_input_stage b (Remote N)) N (mkCtx c M) j in
    Permutation (flat_map (fun c => flat_map (fun j => map read_of (reqs c j)) (seq 0 P)) (seq 0 M))
                (all_pairs N (P * M)) /\
    (forall c j r, c < M -> j < P -> In r (reqs c j) ->
       in_range r /\
       exists plan, insert_head (rq_head r) (SBcast (k0 (rq_task r)) (inp (rq_task r))) = Ok plan /\
                    parts plan = P * M /\ plan = SBcast M (inp (rq_task r))) /\
    (forall c j j' r r', In r (reqs c j) -> In r' (reqs c j') ->
       rq_start r = rq_start r' /\ rq_end r = rq_end r' /\ rq_head r = rq_head r').
Proof.
  intros row inp0 N0 N M b k0 inp Hb HP Hd. cbn in Hb. injection Hb as <-. cbv zeta.
  rewrite Nat.mul_1_r. exact (broadcast_reads (parts inp0) N M inp0 inp k0 HP Hd).
Qed.
Print Assumptions C03_broadcast_reads_once.

(** C03 fails when the BroadcastExec handed to [NetworkBroadcastExec::try_new] already declares two
    consumers: the consumer sees every row twice. *)
Theorem C03_prescaled_broadcast_refuted :
  exists (inp : splan nat) (data : nat -> list nat) (b : broadcast nat) out,
    broadcast_try_new (SBcast 2 inp) 2 = Ok b /\ yields inp data /\
    observes (broadcast_execute (fun _ => SBcast 2 inp) (broadcast_with_input_stage b (Remote 2)))
             1 (br_parts b) out /\
    stage_rows 2 (fun _ => 1) (fun _ => data) = [7; 7] /\
    consumer_rows 1 (br_parts b) out = [7; 7; 7; 7].
Proof.
  exists (SOther 1 (fun _ => [7])), (fun _ => [7]),
         (mkBroadcast 2 (Local (SBcast 2 (SOther 1 (fun _ => [7]))) 2) 2), (fun _ _ => [7; 7]).
  split; [reflexivity|]. split.
  { intros i Hi. cbn in *. replace i with 0 by lia. reflexivity. }
  split; [|split; reflexivity].
  intros c j Hc Hj. replace c with 0 by lia. cbn in Hj.
  exists [[7]; [7]]. split; [destruct j as [|[|j]]; [reflexivity|reflexivity|lia]|].
  apply (merge_concat [[7]; [7]]).
Qed.
Print Assumptions C03_prescaled_broadcast_refuted.

(** C04. A coalesce of [N] producer tasks into [M] consumer tasks: every execution of an advertised
    partition succeeds and the consumers, read in order, see exactly the producers' rows in task and
    partition order; every (producer task, partition) pair is requested exactly once. *)
Theorem C04_coalesce_exact_cover :
  forall (row : Type) (input : splan row) (N M : nat) (c c' : coalesce row)
         (prods : nat -> splan row) (data : nat -> nat -> list row),
    coalesce_try_new input N M = Ok c ->
    coalesce_with_input_stage c (Remote N) = Ok c' ->
    0 < N -> 0 < parts input ->
    (forall t, t < N -> plain (prods t) /\ parts (prods t) = parts input /\ yields (prods t) (data t)) ->
    let out_parts := partition_count (co_part c') in
    let run := coalesce_execute prods c' in
    (exists out, observes run M out_parts out) /\
    (forall out, observes run M out_parts out ->
       consumer_rows M out_parts out = stage_rows N (fun _ => parts input) data) /\
    Permutation
      (flat_map (fun t => flat_map (fun i =>
          match coalesce_request c' (mkCtx t M) i with
          | Ok (Some r) => [read_of r]
          | _ => []
          end) (seq 0 out_parts)) (seq 0 M))
      (all_pairs N (parts input)).
Proof.
  intros row input N M c c' prods data Hc Hc' HN HP Hd.
  destruct (coalesce_same_tasks input N M c c' HN Hc Hc') as (HM & Hst & Hpool & Hcount).
  exact (conj (coalesce_observable (parts input) N M prods data HP HM c' Hst Hpool Hcount Hd)
        (conj (coalesce_cover (parts input) N M prods data HP HM c' Hst Hpool Hcount Hd)
              (coalesce_reads_exact (parts input) N M HP HM c' Hst Hcount))).
Qed.
Print Assumptions C04_coalesce_exact_cover.

(** C04, groups. Consumer [c] reads the contiguous tasks [start .. start+len-1]; consecutive groups
    touch, the first starts at 0, the last ends at [N], sizes are [N/M] or [N/M + 1]. *)
Theorem C04_groups_contiguous :
  forall N M, 0 < M ->
    start_task (task_group N 0 M) = 0 /\
    start_task (task_group N M M) = N /\
    forall c, c < M ->
      start_task (task_group N c M) + group_len (task_group N c M) = start_task (task_group N (S c) M) /\
      N / M <= group_len (task_group N c M) <= N / M + 1.
Proof.
  intros N M HM. split; [exact (task_group_start N M HM)|]. split; [exact (task_group_end N M HM)|].
  intros c Hc. destruct (task_group_facts N c M Hc) as (_ & _ & E & L). exact (conj E L).
Qed.
Print Assumptions C04_groups_contiguous.

(** C05 for one consumer task (the only case the planner creates): replacing the input stage by one
    with any other number of tasks keeps the coalesce exact. *)
Theorem C05_rescale_single_consumer_partial :
  forall (row : Type) (input : splan row) (N N' : nat) (c c' : coalesce row)
         (prods : nat -> splan row) (data : nat -> nat -> list row),
    coalesce_try_new input N 1 = Ok c ->
    coalesce_with_input_stage c (Remote N') = Ok c' ->
    0 < N' -> 0 < parts input ->
    (forall t, t < N' -> plain (prods t) /\ parts (prods t) = parts input /\ yields (prods t) (data t)) ->
    let out_parts := partition_count (co_part c') in
    let run := coalesce_execute prods c' in
    (exists out, observes run 1 out_parts out) /\
    (forall out, observes run 1 out_parts out ->
       consumer_rows 1 out_parts out = stage_rows N' (fun _ => parts input) data).
Proof.
  intros row input N N' c c' prods data Hc Hc' HN HP Hd.
  destruct (coalesce_rescaled_one input N N' c c' HN Hc Hc') as (Hst & Hpool & Hcount).
  exact (conj (coalesce_observable (parts input) N' 1 prods data HP Nat.lt_0_1 c' Hst Hpool Hcount Hd)
              (coalesce_cover (parts input) N' 1 prods data HP Nat.lt_0_1 c' Hst Hpool Hcount Hd)).
Qed.
Print Assumptions C05_rescale_single_consumer_partial.

(** C05 is false for several consumers: with 2 consumers, going from 2 to 3 producer tasks leaves
    one output partition instead of two, and the rows of producer 1 are never read. *)
Theorem C05_rescale_several_consumers_refuted :
  exists (input : splan nat) (c c' : coalesce nat) (prods : nat -> splan nat) (data : nat -> nat -> list nat),
    coalesce_try_new input 2 2 = Ok c /\ coalesce_with_input_stage c (Remote 3) = Ok c' /\
    (forall t, t < 3 -> plain (prods t) /\ parts (prods t) = parts input /\ yields (prods t) (data t)) /\
    exists out,
      (forall t i, t < 2 -> i < partition_count (co_part c') ->
        (exists ss, coalesce_execute prods c' (mkCtx t 2) i = Ok ss /\ merge_of ss (out t i)) \/
        (out t i = [] /\ is_ok (coalesce_execute prods c' (mkCtx t 2) i) = false)) /\
      stage_rows 3 (fun _ => parts input) data = [0; 1; 2] /\
      consumer_rows 2 (partition_count (co_part c')) out <> [0; 1; 2] /\
      ~ In 1 (consumer_rows 2 (partition_count (co_part c')) out).
Proof.
  exists (SOther 1 (fun _ => [0])), (mkCoalesce (UnknownP 1) (Local (SOther 1 (fun _ => [0])) 2) 2),
    (mkCoalesce (UnknownP 1) (Remote 3) 3), (fun t => SOther 1 (fun _ => [t])), (fun t _ => [t]).
  split; [reflexivity|]. split; [reflexivity|]. split.
  { intros t _. split; [do 2 eexists; reflexivity|]. split; [reflexivity|].
    intros i Hi. cbn in *. replace i with 0 by lia. reflexivity. }
  exists (fun _ _ => []). split; [|split; [reflexivity|split; [discriminate|cbn; tauto]]].
  intros t i Ht Hi. cbn in Hi. replace i with 0 by lia. right. split; [reflexivity|].
  destruct t as [|[|t]]; [reflexivity|reflexivity|lia].
Qed.
Print Assumptions C05_rescale_several_consumers_refuted.

(** C06. Preparing a head for a shuffle or a broadcast twice (once when planning, once in the worker)
    is the same as preparing it once, and "no specific head" leaves a plan alone when its head is
    neither a repartition nor a broadcast. *)
Theorem C06_head_preparation_partial :
  forall (row : Type),
    (forall (h : head row) p p1, h <> HNone -> insert_head h p = Ok p1 -> insert_head h p1 = Ok p1) /\
    (forall (p : splan row), plain p -> insert_head HNone p = Ok p).
Proof.
  intros row. split; [exact insert_head_idem|]. intros p (n & r & ->). reflexivity.
Qed.
Print Assumptions C06_head_preparation_partial.

(** C06 is false in general: a coalesce over a round-robin RepartitionExec advertises 4 partitions per
    task, but the worker strips the repartition and then refuses to execute partitions that no longer
    exist. *)
Theorem C06_coalesce_strips_repartition_refuted :
  exists (input : splan nat) (c c' : coalesce nat),
    coalesce_try_new input 2 1 = Ok c /\ coalesce_with_input_stage c (Remote 2) = Ok c' /\
    parts input = 4 /\ partition_count (co_part c') = 8 /\
    (forall i, i < 4 -> is_ok (exec input i) = true) /\
    (forall i, i < 8 -> is_ok (coalesce_execute (fun _ => input) c' (mkCtx 0 1) i) = false).
Proof.
  exists (SRepart (RoundRobin 4) (SOther 1 (fun _ => [1; 2; 3; 4; 5]))),
    (mkCoalesce (RoundRobin 8) (Local (SRepart (RoundRobin 4) (SOther 1 (fun _ => [1; 2; 3; 4; 5]))) 2) 2),
    (mkCoalesce (RoundRobin 8) (Remote 2) 2).
  repeat (split; [reflexivity|]). split.
  - intros i Hi. do 4 (destruct i as [|i]; [reflexivity|]). lia.
  - intros i Hi. do 8 (destruct i as [|i]; [reflexivity|]). lia.
Qed.
Print Assumptions C06_coalesce_strips_repartition_refuted.

(** * Non-vacuity *)

Definition ex_inp (t : nat) : splan nat := SOther 2 (fun i => [10 * t + i; 5; t]).
Definition ex_data (t i : nat) : list nat := [10 * t + i; 5; t].

Example C01_hypotheses_met :
  shuffle_try_new (SRepart (HashP (fun x => x) 3) (ex_inp 0)) 2 =
    Ok (mkShuffle (HashP (fun x => x) 3) (Local (SRepart (HashP (fun x => x) 3) (ex_inp 0)) 2) 2) /\
  0 < parts (SRepart (HashP (fun x => x) 3) (ex_inp 0)) /\
  (forall t, t < 2 -> yields (ex_inp t) (ex_data t)) /\
  shuffle_execute (fun t => SRepart (HashP (fun x => x) 7) (ex_inp t))
    (mkShuffle (HashP (fun x => x) 3) (Remote 2) 2) (mkCtx 1 2) 2 = Ok [[5; 5]; [5; 11; 5]].
Proof.
  split; [reflexivity|]. split; [cbn; lia|]. split; [|reflexivity].
  intros t Ht i Hi. cbn in Hi. destruct i as [|[|i]]; [reflexivity|reflexivity|lia].
Qed.

Example C03_hypotheses_met :
  broadcast_try_new (SBcast 1 (ex_inp 0)) 2 =
    Ok (mkBroadcast 2 (Local (SBcast 1 (ex_inp 0)) 2) 2) /\
  broadcast_execute (fun t => SBcast 1 (ex_inp t)) (mkBroadcast 2 (Remote 2) 2) (mkCtx 2 3) 1 =
    Ok [[1; 5; 0]; [11; 5; 1]].
Proof. split; reflexivity. Qed.

Example C04_hypotheses_met :
  exists c c',
    coalesce_try_new (ex_inp 0) 3 2 = Ok c /\ coalesce_with_input_stage c (Remote 3) = Ok c' /\
    (forall t, plain (ex_inp t) /\ parts (ex_inp t) = parts (ex_inp 0) /\ yields (ex_inp t) (ex_data t)) /\
    coalesce_execute ex_inp c' (mkCtx 1 2) 1 = Ok [ex_data 2 1] /\
    coalesce_execute ex_inp c' (mkCtx 1 2) 2 = Ok [].
Proof.
  do 2 eexists. split; [reflexivity|]. split; [reflexivity|]. split; [|split; reflexivity].
  intros t. split; [do 2 eexists; reflexivity|]. split; [reflexivity|].
  intros i Hi. cbn in Hi. destruct i as [|[|i]]; [reflexivity|reflexivity|lia].
Qed.

Example C05_hypotheses_met :
  exists c c', coalesce_try_new (ex_inp 0) 2 1 = Ok c /\ coalesce_with_input_stage c (Remote 5) = Ok c' /\
    partition_count (co_part c') = 10.
Proof. do 2 eexists. repeat split; reflexivity. Qed.
