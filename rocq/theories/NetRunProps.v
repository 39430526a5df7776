(** Property C89: a query whose network boundaries are read over the network - through the connection
    pools, connections and streams in the worker's process, in any interleaving, with other calls and
    streams going on at the same time - returns the rows it should. *)
From Verif Require Import Base NetModel NetSpec NetProofs NetProps CiuModel EventsModel EventsSpec JoinModel JoinSpec PlannerModel
  PlannerSpec PlannerProofs ExecModel ExecSpec ExecProofs ExecPasses ExecEnd EventsProps ExecProps
  OrderModel OrderSpec OrderProofs OrderEnd OrderProps PoolModel PoolSpec PoolProofs PoolProps DemuxModel DemuxSpec DemuxProofs DemuxProps
  NetRunModel NetRunProofs NetRunDone.
From Coq Require Import Sorting.Sorted.

Lemma other_yields {row : Type} k (data : nat -> list row) : yields (SOther k data) data.
Proof. intros i Hi. cbn [parts] in Hi. cbn [exec]. apply Nat.ltb_lt in Hi. now rewrite Hi. Qed.

Section Boundaries.
Context {row err : Type}.
Variables (budget capacity : nat) (bad : nat -> err).
Notation net_delivers := (net_delivers budget capacity bad).
Notation node_history := (node_history budget capacity bad).

(** C89, shuffles. Whatever the schedule, the order of the calls, the number of connections, the sizes of
    the messages and the way they are mixed: once all partitions of all consumer tasks were read to their
    ends without an error, every row of the input stage was received exactly once, by the task and
    partition that its hash belongs to. *)
Theorem C89_shuffle_over_the_network (hash : row -> nat) P N M k q data (f : nat -> nat -> list row) :
  0 < P -> 0 < M ->
  net_delivers BShuffle (HashP hash P) N k (fun t => SRepart (q t) (SOther k (data t))) M f ->
  Permutation (consumer_rows M P f) (stage_rows N (fun _ => k) data) /\
  forall r c j, c < M -> j < P ->
    (In r (f c j) <-> In r (stage_rows N (fun _ => k) data) /\ hash r mod (P * M) = P * c + j).
Proof.
  intros HP HM H. apply network_sound, delivered_boundary in H. cbn [boundary_yields] in H. destruct H as (f0 & H & Hperm).
  assert (Hd : forall t, t < N -> yields (SOther k (data t)) (data t)).
  { intros t _. apply other_yields. }
  pose (i0 := SOther 1 (fun _ => @nil row)).
  split.
  - destruct (C01_shuffle_exact_cover row (SRepart (HashP hash P) i0) N N M _ q (fun t => SOther k (data t)) data eq_refl HP HM Hd) as [_ G].
    rewrite <- (G f0 H). unfold consumer_rows. cbn [parts partition_count] in *.
    apply flat_map_perm_ext. intros c Hc. apply in_seq in Hc. apply flat_map_perm_ext. intros j Hj. apply in_seq in Hj. apply Hperm; cbn in *; lia.
  - intros r c j Hc Hj.
    rewrite <- (C02_shuffle_colocates row hash i0 P N M q (fun t => SOther k (data t)) data _ f0 eq_refl HP HM Hd H r c j Hc Hj).
    split; apply Permutation_in; [|symmetry]; now apply Hperm.
Qed.

(** C89, broadcasts: every consumer task receives every row of the input stage exactly once. *)
Theorem C89_broadcast_over_the_network (part : partitioning row) P N M copies data (f : nat -> nat -> list row) :
  0 < P -> partition_count part = P ->
  net_delivers BBroadcast part N P (fun t => SBcast (copies t) (SOther P (data t))) M f ->
  forall c, c < M -> Permutation (flat_map (f c) (seq 0 P)) (stage_rows N (fun _ => P) data).
Proof.
  intros HP Hpart H. apply network_sound, delivered_boundary in H. cbn [boundary_yields boundary_execute] in H. rewrite Hpart in H.
  assert (Hd : forall t, t < N -> parts (SOther P (data t)) = P /\ yields (SOther P (data t)) (data t)).
  { intros t _. split; [reflexivity|]. apply other_yields. }
  destruct (C03_broadcast_full_copy row (SOther P (fun _ => [])) N N M _ copies (fun t => SOther P (data t)) data eq_refl HP Hd) as [_ G].
  unfold broadcast_with_input_stage in G. cbn [parts br_parts stage_task_count] in G. rewrite Nat.mul_1_r in G. exact (G f H).
Qed.

(** C89, coalesces: the consumer tasks, in order, receive the rows of the input stage, in order. *)
Theorem C89_coalesce_over_the_network P some N M (c c' : coalesce row) data (f : nat -> nat -> list row) :
  0 < P -> 0 < N ->
  coalesce_try_new (SOther P some) N M = Ok c -> coalesce_with_input_stage c (Remote N) = Ok c' ->
  net_delivers BCoalesce (co_part c') N P (fun t => SOther P (data t)) M f ->
  consumer_rows M (partition_count (co_part c')) f = stage_rows N (fun _ => P) data.
Proof.
  intros HP HN Hc Hc' H. apply network_sound, delivered_boundary in H. cbn [boundary_yields boundary_execute] in H.
  assert (E : mkCoalesce (co_part c') (Remote N) N = c').
  { unfold coalesce_with_input_stage in Hc'. destruct (scale_partitioning _ _) as [p|e|e]; try discriminate. cbn in Hc'. now injection Hc' as <-. }
  rewrite E in H.
  assert (Hd : forall t, t < N -> plain (SOther P (data t)) /\ parts (SOther P (data t)) = P /\ yields (SOther P (data t)) (data t)).
  { intros t _. split; [do 2 eexists; reflexivity|]. split; [reflexivity|]. apply other_yields. }
  destruct (C04_coalesce_exact_cover row (SOther P some) N M c c' (fun t => SOther P (data t)) data Hc Hc' HN HP Hd) as (_ & G & _).
  exact (G f H).
Qed.

(** C89, errors: a stream of the worker that fails, or whose connection fails, is never taken for one that
    is complete. *)
Theorem C89_errors_are_seen b part tasks P producers ctx ps (h : node_net row err) r got s e :
  node_history b part tasks P producers ctx ps h -> call_read h r got ->
  nth_error (nn_sources h (rq_task r)) (rq_target r - rq_start r) = Some s -> In (inr e) s ->
  exists e', In (inr e') got.
Proof.
  intros Hh (c & t & i & st & Ho & Hr) Hs He. destruct Hh as [Hpool _ Hans].
  destruct (C29_right_stream _ _ _ Hpool _ _ _ _ _ Ho) as (-> & Hle & -> & l & Hl & Hst).
  destruct (Hans _ _ Hl) as (q & Hq & Ht & Hlen & -> & Hlink & Hu).
  assert (Est : st = (rq_task r, rq_target r - rq_start r)).
  { rewrite nth_error_map in Hst. destruct (nth_error (seq _ _) _) as [j|] eqn:Ej; [|discriminate]. cbn in Hst. injection Hst as <-.
    assert (Hj : rq_target r - rq_start r < List.length (nn_sources h (rq_task r))) by (apply nth_error_Some; congruence).
    rewrite (nth_error_nth' _ 0) in Ej by now rewrite seq_length. rewrite seq_nth in Ej by assumption. now injection Ej as <-. }
  subst st. cbn [fst snd] in Hr. destruct (nn_link h (rq_task r)) as [reads|k|e' reads]; cbn in Hlink, Hu, Hr.
  - destruct Hlink as [_ HR]. destruct (Forall2_nth_error_r _ _ _ HR _ _ Hr) as (s' & Hs' & rest & E & Hrest). cbn in E, Hrest.
    rewrite (Hrest eq_refl), app_nil_r in E. subst s'. rewrite Hs in Hs'. injection Hs' as ->. eauto.
  - destruct Hlink as [_ HR], Hu as [Hcr Hlost]. destruct (nth_error (k_parts k) _) as [p|] eqn:Hp; [|discriminate]. cbn in Hr. injection Hr as <- Hend.
    eapply (C30_errors_reach_everyone _ _ _ _ _ _ _ _ _ _ _ HR Hcr Hlost Hp Hend Hs He).
  - destruct Hlink as [_ HF]. rewrite Forall_forall in HF. apply nth_error_In in Hr. destruct (HF _ Hr) as [E|E]; [discriminate|].
    cbn in E. subst got. exists e'. now left.
Qed.

(** C89. The boundaries of ExecModel.v and OrderModel.v, which C48, C60 and C88 speak about, are exactly the
    boundaries read over the network, whatever the budget of a connection and the capacity of the worker's
    channels, if there are any. *)
Theorem C89_boundaries_over_the_network b (part : partitioning row) tasks P producers n f :
  (net_delivers b part tasks P producers n f -> boundary_delivers b part tasks P producers n f) /\
  (0 < budget -> 0 < capacity ->
   boundary_delivers b part tasks P producers n f -> net_delivers b part tasks P producers n f).
Proof. split; [apply network_sound|]. intros; now apply network_complete. Qed.
End Boundaries.
Print Assumptions C89_shuffle_over_the_network.
Print Assumptions C89_broadcast_over_the_network.
Print Assumptions C89_coalesce_over_the_network.
Print Assumptions C89_errors_are_seen.
Print Assumptions C89_boundaries_over_the_network.

Section Queries.
Context {row err : Type}.
Notation tree := (tree row).
Notation table := (nat -> nat -> list row).
Variable acts : op row -> list row -> list row -> Prop.
Variables (budget capacity : nat) (bad : nat -> err).
Hypothesis Hbudget : 0 < budget.
Hypothesis Hcapacity : 0 < capacity.
Notation over_the_network := (delivers_networked budget capacity bad acts false).
Variable cfg : settings row.
Variable most : nat.
Hypothesis Hmost : max_tasks cfg = Ok most.
Hypothesis Hstatic : dynamic_task_count cfg = false.
Hypothesis Htarget : 0 < target_partitions cfg.
Hypothesis Hsane : sane_handlers cfg.
Hypothesis Hleaf : leaf_handlers cfg.

(** C89. [t] is a plan as in C48, whose operators yield the rows they are meant to. If it is distributed,
    and the distributed plan is executed with all its boundaries read over the network, in any number of
    stages, and no stream fails, it returns the rows of the original plan, executed in one process. *)
Theorem C89_query_over_the_network t D r :
  (forall o l out, acts o l out -> Permutation out (op_fun o l)) ->
  typed (partial_reduce cfg) t (@Permutation row) D -> ordinary t -> fed t -> spreadable t ->
  is_round_robin t = false -> every_scan (faithful_scan cfg most) t -> fits most t ->
  create_distributed_plan cfg (TPlan t) = Ok r ->
  match r with
  | TDistributed d => forall f g, over_the_network d 1 f -> delivers acts false t 1 g ->
      Permutation (all_rows d 1 f) (all_rows t 1 g)
  | r => r = TPlan t
  end.
Proof using Hbudget Hcapacity Hmost Hstatic Htarget Hsane Hleaf.
  intros Hacts Ht Ho Hf Hsp Hr Hs Hfits H.
  pose proof (C48_distributed_plan_same_rows cfg most Hmost Hstatic Htarget Hsane Hleaf t D r Ht Ho Hf Hsp Hr Hs Hfits H) as G.
  assert (S : forall d : tree, serves acts (fun _ => None) true d).
  { assert (W : forall o, well_behaved acts (fun _ => None) o) by (intros o l out Ha _; auto).
    intros d. induction d as [k cs IH|w m cs IH|b part q num tasks i IH _] using tree_ind2.
    - cbn [serves]. split; [|apply Forall_map, Forall_forall; assumption]. destruct k as [| | | | | |o]; auto.
      split; [auto|]. split; [discriminate|]. destruct o as [| |m d a| | |]; auto. destruct m; auto.
    - cbn [serves]. apply Forall_map, Forall_forall. assumption.
    - exact IH. }
  destruct r as [|d| |]; try exact G. intros f g Df Dg.
  apply G; [apply (delivers_runs acts (fun _ => None) true d (S d) false 1 f)|exact (delivers_runs acts (fun _ => None) true t (S t) false 1 g Dg)].
  now apply (plans_iff acts budget capacity bad Hbudget Hcapacity).
Qed.

(** C88 over the network: operators that need their input in an order get it. Partial as
    [C88_distributed_plan_keeps_orders_partial] is. *)
Theorem C88_over_the_network_partial needs t D r :
  typed (partial_reduce cfg) t (@Permutation row) D -> ordinary t -> fed t -> spreadable t ->
  is_round_robin t = false -> every_scan (faithful_scan cfg most) t -> fits most t ->
  serves acts needs false t -> every_scan (order_kept cfg) t ->
  create_distributed_plan cfg (TPlan t) = Ok r ->
  match r with
  | TDistributed d => forall f, over_the_network d 1 f ->
      (forall g, delivers acts false t 1 g -> Permutation (all_rows d 1 f) (all_rows t 1 g)) /\
      (forall le, one_part t -> promises acts false t le ->
        forall p, p < tparts d -> StronglySorted le (f 0 p))
  | r => r = TPlan t
  end.
Proof using Hbudget Hcapacity Hmost Hstatic Htarget Hsane Hleaf.
  intros Ht Ho Hf Hsp Hr Hs Hfits Hserves Hkept H.
  pose proof (C88_distributed_plan_keeps_orders_partial acts needs cfg most Hmost Hstatic Htarget Hsane Hleaf
    t D r Ht Ho Hf Hsp Hr Hs Hfits Hserves Hkept H) as G.
  destruct r as [|d| |]; try exact G. intros f Df. apply G. now apply (plans_iff acts budget capacity bad Hbudget Hcapacity).
Qed.

(** C89. Every execution of a plan that C48 and C88 allow is an execution over the network, and the other
    way round. *)
Theorem C89_plans_over_the_network (t : tree) n (f : table) :
  over_the_network t n f <-> delivers acts false t n f.
Proof using Hbudget Hcapacity. now apply plans_iff. Qed.
End Queries.
Print Assumptions C89_query_over_the_network.
Print Assumptions C88_over_the_network_partial.
Print Assumptions C89_plans_over_the_network.

(** SELECT DISTINCT on two files, with a shuffle and a coalesce. All hypotheses of the theorem hold of the
    query; it is executed over connections with a budget of one byte and channels of one message, and the
    shuffle delivers the rows of the second file first. *)
Module Case.
Import Ex Through.
Definition exactly (o : op nat) (l out : list nat) : Prop := out = op_fun o l.
Definition dedup (i p : nat) : list nat := nodup Nat.eq_dec (received i p).
Definition gathered (i p : nat) : list nat :=
  match boundary_execute BCoalesce (UnknownP 4) 2 (fun t => SOther 2 (dedup t)) (mkCtx i 1) p with
  | Ok l => List.concat l | _ => [] end.
Definition outcome (i _ : nat) : list nat := flat_map (gathered i) (seq 0 4).

Lemma executed : delivers exactly false distributed 1 outcome.
Proof.
  rewrite distributed_shape. exists [gathered]. split.
  - constructor; [|constructor]. exists dedup. split.
    + exists [received]. split.
      * constructor; [|constructor]. exists read. split.
        -- exists []. split; [constructor|]. intros i p Hi Hp. change (leaf_parts (LTasks scan_of_tasks)) with 1 in Hp.
           cases_below i; cases_below p; vm_compute; eexists; split; reflexivity.
        -- intros i p Hi Hp. change (partition_count (HashP (fun x : nat => x) 2)) with 2 in Hp.
           cases_below i; cases_below p; (eexists; eexists; split; [vm_compute; reflexivity|split; [apply self_sent|]]).
           ++ apply (merge_step [[0; 4]] 4 [8] []), (merge_step [[0; 4]] 8 [] []), (merge_step [] 0 [4] [[]]), (merge_step [] 4 [] [[]]).
              repeat constructor.
           ++ repeat constructor.
           ++ repeat constructor.
           ++ repeat constructor.
      * intros i p Hi Hp. reflexivity.
    + intros i p Hi Hp. change (partition_count (@UnknownP nat 4)) with 4 in Hp.
      cases_below i; cases_below p; (eexists; eexists; split; [vm_compute; reflexivity|split; [apply self_sent|apply merge_concat]]).
  - split; [vm_compute; lia|]. intros i Hi. cases_below i. eexists. split; [apply merge_concat|]. split; [exact Logic.I|].
    reflexivity.
Qed.
End Case.

Example C89_case :
  max_tasks Ex.cfg = Ok 2 /\ dynamic_task_count Ex.cfg = false /\ 0 < target_partitions Ex.cfg /\
  sane_handlers Ex.cfg /\ leaf_handlers Ex.cfg /\
  (forall o l out, Case.exactly o l out -> Permutation out (op_fun o l)) /\
  typed (partial_reduce Ex.cfg) Through.query (@Permutation nat) Anyhow /\ ordinary Through.query /\ fed Through.query /\
  spreadable Through.query /\ is_round_robin Through.query = false /\
  every_scan (faithful_scan Ex.cfg 2) Through.query /\ fits 2 Through.query /\
  create_distributed_plan Ex.cfg (TPlan Through.query) = Ok (TDistributed Through.distributed) /\
  delivers_networked 1 1 (fun _ => "bad"%string) Case.exactly false Through.distributed 1 Case.outcome /\
  Permutation (all_rows Through.distributed 1 Case.outcome) [0; 4; 8].
Proof.
  split; [reflexivity|]. split; [reflexivity|]. split; [cbn; lia|]. split; [apply Ex.sane|]. split; [apply Ex.leaves|].
  split; [intros o l out ->; reflexivity|]. split.
  { refine (ty_keyed _ Ex.distinct _ (fun x => x) 2 _ _ Anyhow _ eq_refl perm_additive Logic.I Ex.distinct_keyed Logic.I).
    eapply ty_hash; [lia|constructor]. }
  split; [cbn; repeat constructor|]. split; [cbn; repeat split; repeat constructor; discriminate|].
  split; [cbn; repeat split; repeat constructor; cbn; lia|]. split; [reflexivity|].
  split; [cbn; repeat constructor; apply Ex.scans|]. split; [vm_compute; repeat constructor|].
  split; [vm_compute; reflexivity|]. split.
  - apply C89_plans_over_the_network; [lia|lia|]. apply Case.executed.
  - vm_compute. apply NoDup_Permutation; [repeat constructor; cbn; lia|repeat constructor; cbn; lia|]. intros x. cbn. tauto.
Qed.

(** A shuffle from two tasks to two tasks read over the network, for [C89_shuffle_over_the_network]. *)
Example C89_shuffle_case :
  let data t (_ : nat) := [4 * t; 4 * t + 1; 4 * t + 2] in
  exists f, net_delivers 1 1 (fun _ => "bad"%string) BShuffle (HashP (fun x => x) 1) 2 1
    (fun t => SRepart (HashP (fun x => x) 1) (SOther 1 (data t))) 2 f /\
    f 0 0 = [0; 4; 2; 6] /\ f 1 0 = [5; 1].
Proof.
  intros data. exists (fun i _ => match i with 0 => [0; 4; 2; 6] | _ => [5; 1] end). split; [|split; reflexivity].
  apply C89_boundaries_over_the_network; [lia|lia|]. intros i p Hi Hp. cbn in Hp.
  Through.cases_below i; Through.cases_below p; (eexists; eexists; split; [vm_compute; reflexivity|split; [apply Through.self_sent|]]).
  - apply (merge_step [] 0 [2] [[4; 6]]), (merge_step [[2]] 4 [6] []), (merge_step [] 2 [] [[6]]), (merge_step [[]] 6 [] []). repeat constructor.
  - apply (merge_step [[1]] 5 [] []), (merge_step [] 1 [] [[]]). repeat constructor.
Qed.
