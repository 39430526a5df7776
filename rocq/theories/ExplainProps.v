(** Properties C82 and C83: the text of EXPLAIN, and EXPLAIN ANALYZE. *)
From Verif Require Import Base ShowModel NetModel CiuModel EventsModel PlannerModel PlannerSpec ExplainModel ExplainSpec ExplainProofs
  ExplainTell ExplainPlanned PlannerProps.
From Coq Require Import String Ascii NArith Lia.
Local Open Scope string_scope.

(** C82: the text of a distributed plan is the block of the coordinator followed by one block for each stage of the plan, and
    the block of a stage has one line for each of its operators. Not shown: the stage below a boundary that is all that
    its own stage consists of ([C82_stage_not_shown_refuted]). *)
Theorem C82_every_stage_shown_partial head_metrics v :
  no_bare_stage v -> single_lines v ->
  display_plan_ascii head_metrics v =
  Some (string_of_lines (List.concat (map stage_lines ((0, HDistributed head_metrics, v) :: stages 1 v)))).
Proof. intros HN HS. apply display_lines; [exact HN|exact HS|lia]. Qed.
Print Assumptions C82_every_stage_shown_partial.

(** The text tells the plan: two plans with the same text have the same operators, in the same places, in the same stages. *)
Theorem C82_text_tells_the_plan_partial head_metrics head_metrics' v w :
  on_one_line head_metrics -> on_one_line head_metrics' ->
  no_bare_stage v -> no_bare_stage w -> single_lines v -> single_lines w -> plain_texts v -> plain_texts w ->
  display_plan_ascii head_metrics v = display_plan_ascii head_metrics' w ->
  head_metrics = head_metrics' /\ outline_of v = outline_of w.
Proof.
  intros H1 H2 Nv Nw Sv Sw Pv Pw E. rewrite !C82_every_stage_shown_partial in E by assumption.
  apply (f_equal (fun o => match o with Some s => s | None => "" end)) in E.
  exact (text_tells 0 _ _ v w H1 H2 Sv Sw Pv Pw E).
Qed.
Print Assumptions C82_text_tells_the_plan_partial.

(** The text tells the numbers: two plans with the same text have the same boundaries, of the same kinds and with the same output
    partitions, above stages with the same numbers, tasks and shown partitions. *)
Theorem C82_text_tells_the_numbers_partial head_metrics head_metrics' v w :
  on_one_line head_metrics -> on_one_line head_metrics' ->
  no_bare_stage v -> no_bare_stage w -> single_lines v -> single_lines w -> plain_texts v -> plain_texts w ->
  separate_metrics v -> separate_metrics w ->
  display_plan_ascii head_metrics v = display_plan_ascii head_metrics' w ->
  head_metrics = head_metrics' /\ sketch_of v = sketch_of w.
Proof.
  intros H1 H2 Nv Nw Sv Sw Pv Pw Mv Mw E.
  destruct (C82_text_tells_the_plan_partial head_metrics head_metrics' v w H1 H2 Nv Nw Sv Sw Pv Pw E) as [EH EO].
  split; [exact EH|now apply sketch_told].
Qed.
Print Assumptions C82_text_tells_the_numbers_partial.

(** The header of a stage gives the number of its partitions if its output is hash partitioned exactly when it is below a
    shuffle. *)
Theorem C82_partitions_of_a_stage_partial b tasks v :
  (hashed (info_of v) = true <-> b = BShuffle) ->
  stage_partitions tasks v = partitions_made b tasks (partitions (info_of v)).
Proof.
  intros H. unfold stage_partitions, partitions_made. destruct (hashed (info_of v)).
  - now rewrite (proj1 H eq_refl).
  - destruct b; try reflexivity. discriminate (proj2 H eq_refl).
Qed.
Print Assumptions C82_partitions_of_a_stage_partial.

(** From the query: the plan that the planner makes of a query is shown with all its stages, unless the query merges a
    round-robin repartition or begins with a repartition. *)
Theorem C82_planned_queries_shown {row} (cfg : settings row) most t d text variants hash head_metrics :
  task_limit cfg most -> sane_handlers cfg -> leaf_handlers cfg ->
  has_net t = false -> dynamic_task_count cfg = false -> fits most t -> plain_merges t -> plain_root t ->
  create_distributed_plan cfg (TPlan t) = Ok (TDistributed d) ->
  let v := view_of text variants hash d in
  single_lines v ->
  display_plan_ascii head_metrics v =
  Some (string_of_lines (List.concat (map stage_lines ((0, HDistributed head_metrics, v) :: stages 1 v)))).
Proof.
  intros Hm Hs Hl Hn Hd Hf Hp Hr H v Hv. apply C82_every_stage_shown_partial; [|exact Hv].
  apply C11_the_maximum in Hm. exact (planned_not_bare cfg most Hm Hs Hl t d text variants hash Hn Hd Hf Hp Hr H).
Qed.
Print Assumptions C82_planned_queries_shown.

(** ** Cases *)
Module ExplainEx.
Import PlannerProps.Ex.
Definition text (t : tree nat) : string :=
  match t with
  | Node (KLeaf _) _ => "DataSourceExec"
  | Node (KRepart _) _ => "RepartitionExec"
  | Node (KBcast _) _ => "BroadcastExec"
  | Node (KCoalesce _ _) _ => "CoalescePartitionsExec"
  | Node KUnion _ => "UnionExec"
  | Node (KJoin _ _ _ _ _) _ => "HashJoinExec"
  | Node (KOp _) _ => "AggregateExec"
  | Ciu _ _ _ => "ChildrenIsolatorUnionExec"
  | Net _ _ _ _ _ _ => ""
  end.
(** Which operators have hash partitions: aggregations keep those of their input. *)
Fixpoint hash (t : tree nat) : bool :=
  match t with
  | Node (KRepart (HashP _ _)) _ | Net _ (HashP _ _) _ _ _ _ => true
  | Node (KOp _) [c] => hash c
  | _ => false
  end.
Definition view_of (t : tree nat) : view := ExplainModel.view_of text (fun _ => []) hash t.

Definition grouped_view : view := view_of (result (cfg true true 3) grouped).
Definition grouped_text : string :=
"┌───── DistributedExec
│ CoalescePartitionsExec
│   [Stage 2] => NetworkCoalesceExec: output_partitions=12, input_tasks=3
└──────────────────────────────────────────────────
  ┌───── Stage 2 ── tasks=3, partitions=4
  │ AggregateExec
  │   [Stage 1] => NetworkShuffleExec: output_partitions=4, input_tasks=3
  └──────────────────────────────────────────────────
    ┌───── Stage 1 ── tasks=3, partitions=12
    │ RepartitionExec
    │   AggregateExec
    │     DataSourceExec
    └──────────────────────────────────────────────────
".
Example grouped_shown :
  no_bare_stage grouped_view /\ single_lines grouped_view /\ plain_texts grouped_view /\ separate_metrics grouped_view /\
  display_plan_ascii "" grouped_view = Some grouped_text.
Proof.
  split; [vm_compute; tauto|]. split; [|split; [vm_compute; intuition discriminate|split; [vm_compute; tauto|vm_compute; reflexivity]]].
  vm_compute. intuition discriminate.
Qed.
Example grouped_planned :
  task_limit (cfg true true 3) 3 /\ has_net grouped = false /\ dynamic_task_count (cfg true true 3) = false /\
  fits 3 grouped /\ plain_merges grouped /\ plain_root grouped /\
  create_distributed_plan (cfg true true 3) (TPlan grouped) = Ok (TDistributed (result (cfg true true 3) grouped)).
Proof.
  split; [apply C11_the_maximum; reflexivity|]. split; [reflexivity|]. split; [reflexivity|]. split; [apply grouped_distributed|].
  split; [cbn; repeat constructor; discriminate|]. split; [exact Logic.I|reflexivity].
Qed.
End ExplainEx.

(** C82 without its condition: a plan that is nothing but a hash repartition into one partition; the coordinator's stage is
    a boundary and the stage below it is not in the text. *)
Theorem C82_stage_not_shown_refuted :
  exists (cfg : settings nat) t d text hash,
    sane_handlers cfg /\ leaf_handlers cfg /\ has_net t = false /\
    create_distributed_plan cfg (TPlan t) = Ok (TDistributed d) /\
    let v := view_of text (fun _ => []) hash d in
    List.length (stages 1 v) = 1 /\
    display_plan_ascii "" v = Some (string_of_lines (stage_lines (0, HDistributed "", v))).
Proof.
  set (t := Node (KRepart (HashP PlannerProps.Ex.h 1)) [PlannerProps.Ex.scan 2]).
  exists (PlannerProps.Ex.cfg true true 3), t, (PlannerProps.Ex.result (PlannerProps.Ex.cfg true true 3) t), ExplainEx.text, ExplainEx.hash.
  split; [apply PlannerProps.Ex.sane|]. split; [apply PlannerProps.Ex.leaves|]. split; [reflexivity|].
  split; [vm_compute; reflexivity|]. split; vm_compute; reflexivity.
Qed.
Print Assumptions C82_stage_not_shown_refuted.

(** The header of a stage below a coalescing boundary: GROUP BY over three tasks with four partitions each is shown with four
    partitions, although twelve different ones are read. *)
Theorem C82_partitions_refuted :
  exists (cfg : settings nat) t d text hash s,
    sane_handlers cfg /\ leaf_handlers cfg /\ has_net t = false /\
    create_distributed_plan cfg (TPlan t) = Ok (TDistributed d) /\
    In (1, HStage s, st_plan s) (stages 1 (view_of text (fun _ => []) hash d)) /\
    stage_partitions (st_tasks s) (st_plan s) = 4 /\
    partitions_made BCoalesce (st_tasks s) (partitions (info_of (st_plan s))) = 12 /\
    exists part q plan, d = Node (KCoalesce None None) [Net BCoalesce part q (st_num s) (st_tasks s) plan] /\ partition_count part = 12.
Proof.
  set (c := PlannerProps.Ex.cfg true true 3). set (t := PlannerProps.Ex.grouped).
  set (d := PlannerProps.Ex.result c t).
  exists c, t, d, ExplainEx.text, ExplainEx.hash.
  exists (match stages 1 (view_of ExplainEx.text (fun _ => []) ExplainEx.hash d) with (_, HStage s, _) :: _ => s | _ => mkStage 0 0 "" (VLeaf (mkInfo "" 0 false "") []) end).
  split; [apply PlannerProps.Ex.sane|]. split; [apply PlannerProps.Ex.leaves|]. split; [reflexivity|].
  split; [vm_compute; reflexivity|]. split; [vm_compute; now left|]. split; [vm_compute; reflexivity|].
  split; [vm_compute; reflexivity|]. do 3 eexists. split; [vm_compute|]; reflexivity.
Qed.
Print Assumptions C82_partitions_refuted.

(** C83: EXPLAIN ANALYZE answers only when the query has come to its end without error, and then with the plan and, if asked
    to, the number of rows of the query. *)
Theorem C83_runs_the_query partition batches plan_text full_text duration verbose answer :
  analyze_execute partition batches plan_text full_text duration verbose = Ok answer ->
  exists sizes plan, batches = Ok (map Ok sizes) /\ plan_text = Ok plan /\
    if verbose then
      exists full, full_text = Ok full /\
      answer = [("Plan with Metrics", plan); ("Plan with Full Metrics", full); ("Output Rows", num_text (list_sum sizes)); ("Duration", duration)]
    else answer = [("Plan with Metrics", plan)].
Proof.
  unfold analyze_execute. destruct (Nat.eqb partition 0); [|discriminate].
  destruct batches as [bs| |]; cbn [bind]; try discriminate.
  destruct (mapM (fun b => b) bs) as [rows| |] eqn:E; cbn [bind]; try discriminate.
  assert (Hbs : bs = map Ok rows).
  { clear - E. revert rows E. induction bs as [|b bs IH]; intros rows E; cbn in E; [injection E as <-; reflexivity|].
    destruct b as [n| |]; cbn in E; try discriminate. destruct (mapM _ bs) as [r| |]; cbn in E; try discriminate.
    injection E as <-. cbn. f_equal. now apply IH. }
  destruct plan_text as [plan| |]; cbn [bind]; try discriminate.
  destruct verbose; [destruct full_text as [full| |]|]; cbn [bind]; try discriminate; intros H; injection H as <-; subst bs.
  - exists rows, plan. split; [reflexivity|]. split; [reflexivity|]. exists full. now split.
  - exists rows, plan. repeat split.
Qed.
Print Assumptions C83_runs_the_query.

(** The error of the query is the error of EXPLAIN ANALYZE: the first one, whatever comes after it. *)
Theorem C83_errors_reported sizes e later plan_text full_text duration verbose :
  analyze_execute 0 (Ok (map Ok sizes ++ Err e :: later)%list) plan_text full_text duration verbose = Err e.
Proof.
  unfold analyze_execute. cbn [Nat.eqb bind].
  assert (H : mapM (fun b => b) (map Ok sizes ++ Err e :: later)%list = Err e).
  { induction sizes as [|n sizes IH]; cbn; [reflexivity|]. now rewrite IH. }
  now rewrite H.
Qed.
Print Assumptions C83_errors_reported.

Example analyzed : analyze_execute 0 (Ok [Ok 3; Ok 0; Ok 7]) (Ok "plan") (Ok "full") "1ms" true =
  Ok [("Plan with Metrics", "plan"); ("Plan with Full Metrics", "full"); ("Output Rows", "10"); ("Duration", "1ms")].
Proof. reflexivity. Qed.
Example shuffled_partitions :
  let v := VNode (mkInfo "RepartitionExec" 12 true "") [VNode (mkInfo "DataSourceExec" 3 false "") []] in
  (hashed (info_of v) = true <-> BShuffle = BShuffle) /\ stage_partitions 4 v = 12.
Proof. split; [split; reflexivity|reflexivity]. Qed.
