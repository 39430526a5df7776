(** Properties of the planner. *)
From Verif Require Import Base NetModel CiuModel CiuSpec EventsModel JoinModel JoinSpec PlannerModel PlannerSpec PlannerProofs.
From Coq Require Import ZArith.

Section Props.
Context {row : Type}.
Notation tree := (tree row).
Variable cfg : settings row.
Variable most : nat.
Hypothesis Hmost : max_tasks cfg = Ok most.
Hypothesis Hsane : sane_handlers cfg.
Hypothesis Hleaf : leaf_handlers cfg.

(** C11. Every stage of a plan with injected boundaries, and every child of a union, has at least one
    task, at most the configured maximum and at most every hard maximum announced in it. *)
Theorem C11_every_stage_within_limits p q a :
  has_net p = false -> fits most p -> inject cfg None p = Ok (q, a) ->
  planned_root cfg (within_limits cfg most) p (as_usize a) q.
Proof using Hmost Hsane. apply inject_planned; assumption. Qed.

(** The same for the final plan, as numbers. *)
Theorem C11_final_plan_within_limits t d :
  has_net t = false -> dynamic_task_count cfg = false -> fits most t ->
  create_distributed_plan cfg (TPlan t) = Ok (TDistributed d) ->
  Forall (fun tasks => 1 <= tasks <= most) (stage_tasks d).
Proof using Hmost Hsane Hleaf.
  intros Hn Hd Hf H. destruct (distribute_inv cfg most t _ Hn Hd Hf H) as (p & q & a & d0 & id & _ & Hi & Hp & Np & Fp & Hr).
  destruct Hr as [[_ E]|(_ & d' & Ha & E)]; [discriminate|]. injection E as ->.
  destruct (after_facts cfg d0 d' Ha) as (_ & _ & -> & _).
  destruct (inject_deployed cfg most Hmost Hsane Hleaf p q a d0 id Hd Np Fp Hi Hp) as [_ Hdc].
  exact (dchild_tasks cfg most Hleaf p _ _ _ Hdc).
Qed.

(** C12. Boundaries are at the cuts of the plan and nowhere else, *)
Theorem C12_boundaries_exactly_at_cuts p q a :
  has_net p = false -> fits most p -> inject cfg None p = Ok (q, a) ->
  planned_root cfg (fun _ _ => True) p (as_usize a) q.
Proof using Hmost Hsane.
  intros Hn Hf H. pose proof (inject_planned cfg most Hmost Hsane p q a Hn Hf H) as G. unfold planned_root in *.
  destruct (cut false p) as [b|].
  - destruct G as (tasks & i & E & _ & Hp). exists tasks, i. split; [exact E|]. split; [exact Logic.I|].
    eapply planned_mono; [|exact Hp]. auto.
  - split; [exact Logic.I|]. eapply planned_mono; [|exact (proj2 G)]. auto.
Qed.

(** and without them the plan is the one that was given. *)
Theorem C12_nothing_else_changes p q a :
  has_net p = false -> fits most p -> inject cfg None p = Ok (q, a) -> outline q = outline p.
Proof using Hmost Hsane Hleaf.
  intros Hn Hf H. pose proof (C12_boundaries_exactly_at_cuts p q a Hn Hf H) as G. unfold planned_root in G.
  destruct (cut false p) as [b|].
  - destruct G as (tasks & i & -> & _ & Hp). cbn. eapply planned_outline; eauto.
  - eapply planned_outline; [exact Hleaf|exact (proj2 G)].
Qed.

(** C13. After preparation of any plan (with injected or user-made boundaries): numbers 1, 2, ... in
    bottom-up order, one query id, no boundary between single tasks, heads for the right number of
    consumers. *)
Theorem C13_prepared_boundaries t d id :
  prepare cfg t 1 1 = Ok (d, id) ->
  stage_nums d = seq 1 (id - 1) /\ Forall (eq (query cfg)) (stage_queries d) /\ all_boundaries prepared d 1.
Proof using. intros H. destruct (prepare_tidy cfg t 1 1 d id H) as (_ & A & B & C). auto. Qed.

(** The later passes keep numbers and query ids. *)
Theorem C13_final_plan_numbered t d :
  create_distributed_plan cfg (TPlan t) = Ok (TDistributed d) -> dynamic_task_count cfg = false ->
  stage_nums d = seq 1 (List.length (stage_nums d)) /\ Forall (eq (query cfg)) (stage_queries d) /\
  stage_nums d <> [].
Proof using.
  intros H Hd. cbn [create_distributed_plan] in H. unfold distribute in H.
  assert (G : exists t0 d0 id, prepare cfg t0 1 1 = Ok (d0, id) /\ has_net d0 = true /\
     stage_nums d = stage_nums d0 /\ stage_queries d = stage_queries d0).
  { destruct (has_net t).
    - destruct (scale_leaves cfg t 1) as [t0| |]; cbn [bind] in H; try discriminate.
      destruct (prepare cfg t0 1 1) as [[d0 id]| |] eqn:E; cbn [bind fst] in H; try discriminate.
      destruct (has_net d0) eqn:N; cbn [negb] in H; [|discriminate].
      destruct (push_fetch d0) as [d'| |] eqn:P; cbn [bind] in H; try discriminate. injection H as <-.
      destruct (push_facts d0 d' P) as (A & B & _). exists t0, d0, id. auto.
    - destruct (before_injection cfg t) as [p| |]; cbn [bind] in H; try discriminate. rewrite Hd in H.
      unfold inject_and_prepare in H. destruct (inject cfg None p) as [[q a]| |]; cbn [bind fst] in H; try discriminate.
      destruct (prepare cfg q 1 1) as [[d0 id]| |] eqn:E; cbn [bind fst] in H; try discriminate.
      destruct (has_net d0) eqn:N; cbn [negb] in H; [|discriminate].
      destruct (after_prepare cfg d0) as [d'| |] eqn:P; cbn [bind] in H; try discriminate. injection H as <-.
      destruct (after_facts cfg d0 d' P) as (A & B & _). exists q, d0, id. auto. }
  destruct G as (t0 & d0 & id & Hp & Hnet & A & B). destruct (C13_prepared_boundaries t0 d0 id Hp) as (C & D & _).
  rewrite A, B. split; [rewrite C at 2; now rewrite seq_length|]. split; [exact D|].
  rewrite has_net_nums in Hnet. destruct (stage_nums d0); [discriminate|discriminate].
Qed.

(** C15. *)
Theorem C15_single_task_joins t d :
  has_net t = false -> dynamic_task_count cfg = false -> fits most t ->
  create_distributed_plan cfg (TPlan t) = Ok (TDistributed d) ->
  everywhere (joins_alone cfg) d 1.
Proof using Hmost Hsane Hleaf.
  intros Hn Hd Hf H. destruct (distribute_inv cfg most t _ Hn Hd Hf H) as (p & q & a & d0 & id & _ & Hi & Hp & Np & Fp & Hr).
  destruct Hr as [[_ E]|(_ & d' & Ha & E)]; [discriminate|]. injection E as ->.
  destruct (inject_deployed cfg most Hmost Hsane Hleaf p q a d0 id Hd Np Fp Hi Hp) as [_ Hdc].
  eapply everywhere_impl; [|apply (after_facts cfg d0 d' Ha); exact (dchild_alone cfg most Hleaf p _ _ Hdc)].
  intros n x [Hx _]. exact Hx.
Qed.

(** C52. Missing from the claim: a coalescing node directly above a hash repartition (see
    [C52_coalesce_above_shuffle_refuted]). *)
Theorem C52_coalescing_in_one_task_partial t d :
  has_net t = false -> dynamic_task_count cfg = false -> fits most t ->
  create_distributed_plan cfg (TPlan t) = Ok (TDistributed d) ->
  everywhere folds_alone d 1.
Proof using Hmost Hsane Hleaf.
  intros Hn Hd Hf H. destruct (distribute_inv cfg most t _ Hn Hd Hf H) as (p & q & a & d0 & id & _ & Hi & Hp & Np & Fp & Hr).
  destruct Hr as [[_ E]|(_ & d' & Ha & E)]; [discriminate|]. injection E as ->.
  destruct (inject_deployed cfg most Hmost Hsane Hleaf p q a d0 id Hd Np Fp Hi Hp) as [_ Hdc].
  eapply everywhere_impl; [|apply (after_facts cfg d0 d' Ha); exact (dchild_alone cfg most Hleaf p _ _ Hdc)].
  intros n x [_ Hx]. exact Hx.
Qed.

(** C49. A plan is returned unchanged, or the result has a boundary in it; *)
Theorem C49_unchanged_or_distributed t r :
  has_net t = false -> dynamic_task_count cfg = false ->
  create_distributed_plan cfg (TPlan t) = Ok r ->
  r = TPlan t \/ exists d, r = TDistributed d /\ has_net d = true.
Proof using.
  intros Hn Hd H. cbn [create_distributed_plan] in H. unfold distribute in H. rewrite Hn in H.
  destruct (before_injection cfg t) as [p| |]; cbn [bind] in H; try discriminate. rewrite Hd in H.
  unfold inject_and_prepare in H. destruct (inject cfg None p) as [[q a]| |]; cbn [bind fst] in H; try discriminate.
  destruct (prepare cfg q 1 1) as [[d0 id]| |] eqn:E; cbn [bind fst] in H; try discriminate.
  destruct (has_net d0) eqn:N; cbn [negb] in H.
  - right. destruct (after_prepare cfg d0) as [d'| |] eqn:P; cbn [bind] in H; try discriminate. injection H as <-.
    exists d'. split; [reflexivity|]. destruct (after_facts cfg d0 d' P) as (_ & _ & _ & -> & _). exact N.
  - left. now injection H.
Qed.

(** with one worker (or one task per stage) every plan is returned unchanged; *)
Theorem C49_one_task_per_stage_changes_nothing t r :
  has_net t = false -> dynamic_task_count cfg = false -> fits most t -> most = 1 ->
  create_distributed_plan cfg (TPlan t) = Ok r -> r = TPlan t.
Proof using Hmost Hsane Hleaf.
  intros Hn Hd Hf H1 H. destruct (distribute_inv cfg most t _ Hn Hd Hf H) as (p & q & a & d0 & id & _ & Hi & Hp & Np & Fp & Hr).
  destruct Hr as [[_ E]|(N & _)]; [exact E|]. exfalso.
  destruct (inject_deployed cfg most Hmost Hsane Hleaf p q a d0 id Hd Np Fp Hi Hp) as [Hw Hdc].
  assert (HQ : forall c k, within_limits cfg most c k -> k = 1) by (intros c k [Hk _]; lia).
  unfold dchild in Hdc. destruct (cut false p) as [b|].
  - destruct Hdc as (tasks & i & Hq & Hdi & Hx). rewrite (HQ _ _ Hq) in *. rewrite elided_static in Hx by assumption. cbn in Hx. subst d0.
    rewrite (deployed_single cfg _ HQ Hleaf Hd p i Hdi) in N. discriminate.
  - rewrite (HQ _ _ (Hw eq_refl)) in Hdc. rewrite (deployed_single cfg _ HQ Hleaf Hd p d0 Hdc) in N. discriminate.
Qed.

(** a distributed plan is returned as it is, *)
Theorem C49_already_distributed (t : tree) : create_distributed_plan cfg (TDistributed t) = Ok (TDistributed t).
Proof using. reflexivity. Qed.

(** and EXPLAIN ANALYZE is replaced only if what it analyses was distributed. *)
Theorem C49_analyze t r :
  has_net t = false -> dynamic_task_count cfg = false ->
  create_distributed_plan cfg (TAnalyze (TPlan t)) = Ok r ->
  r = TAnalyze (TPlan t) \/ exists d, r = TDistributedAnalyze (TDistributed d) /\ has_net d = true.
Proof using.
  intros Hn Hd H. change (create_distributed_plan cfg (TAnalyze (TPlan t))) with
    (let* input := create_distributed_plan cfg (TPlan t) in
     if is_distributed input then Ok (TDistributedAnalyze input) else Ok (TAnalyze input)) in H.
  destruct (create_distributed_plan cfg (TPlan t)) as [i| |] eqn:E; cbn [bind] in H; try discriminate.
  destruct (C49_unchanged_or_distributed t i Hn Hd E) as [->|(d & -> & N)]; cbn in H; injection H as <-; eauto.
Qed.

End Props.

(** Pushing fetches down always terminates with a plan. *)
Theorem push_fetch_never_fails {row} (t : tree row) : exists t', push_fetch t = Ok t'.
Proof. apply push_fetch_total. Qed.

(** The maximum in these theorems is the configured one. *)
Theorem C11_the_maximum {row} (cfg : settings row) most : max_tasks cfg = Ok most <-> task_limit cfg most.
Proof.
  unfold max_tasks, task_limit. destruct (max_tasks_per_stage cfg) as [|m]; split; intros H.
  - right. split; [reflexivity|]. destruct (worker_urls cfg) as [n| |]; cbn [bind] in H; try discriminate. injection H as <-. eauto.
  - destruct H as [[H1 H2]|(_ & n & -> & ->)]; [congruence|reflexivity].
  - left. injection H as <-. auto.
  - destruct H as [[-> _]|[H _]]; [reflexivity|discriminate].
Qed.
Print Assumptions C11_the_maximum.
Print Assumptions C11_every_stage_within_limits.
Print Assumptions C11_final_plan_within_limits.
Print Assumptions C12_boundaries_exactly_at_cuts.
Print Assumptions C12_nothing_else_changes.
Print Assumptions C13_prepared_boundaries.
Print Assumptions C13_final_plan_numbered.
Print Assumptions C15_single_task_joins.
Print Assumptions C52_coalescing_in_one_task_partial.
Print Assumptions C49_unchanged_or_distributed.
Print Assumptions C49_one_task_per_stage_changes_nothing.
Print Assumptions C49_already_distributed.
Print Assumptions C49_analyze.
Print Assumptions push_fetch_never_fails.

(** ** Cases *)

Module Ex.
Definition h (r : nat) : nat := r.
Definition scan (parts : nat) : tree nat := Node (KLeaf (LScan (mkLeaf parts 0 (fun p => Ok [p; 10 + p])))) [].
Definition tasks_wanted (t : tree nat) : Res (option annotation) :=
  match t with Node (KLeaf _) _ => Ok (Some (Desired 3)) | _ => Ok None end.
Definition cfg (broadcast isolated : bool) (workers : nat) : settings nat :=
  mkSettings broadcast isolated false false 0 (CiuModel.f64_div (f64_of_nat 3) (f64_of_nat 2)) 4 (Ok workers)
    tasks_wanted (fun _ _ => None) (fun _ => EEqual) 77.
Definition cond : condition nat :=
  mkCond Nat.eqb (fun a b => match a, b with Some a, Some b => a + b | _, _ => 0 end) (fun a _ => a).
Definition count : agg nat := mkAgg (fun l => [List.length l]) (fun l => [list_sum l]) (fun l => [list_sum l]) (fun l => [List.length l]).

(** GROUP BY: final aggregation above a shuffle above a partial aggregation. *)
Definition grouped : tree nat :=
  Node (KOp (OAgg AFinal (HashPartitioned h) count))
    [Node (KRepart (HashP h 4)) [Node (KOp (OAgg APartial AnyDistribution count)) [scan 2]]].
(** A join that must run in one task, above an isolated union. *)
Definition full_join : tree nat :=
  Node (KJoin (NestedLoop Full) cond h h (fun l _ => l)) [Node (KCoalesce None None) [Node KUnion [scan 2; grouped]]; scan 1].
Definition broadcast_join (build : tree nat) : tree nat :=
  Node (KJoin (HashJoin true false Inner) cond h h (fun l _ => l)) [build; scan 2].

Definition result (c : settings nat) (t : tree nat) : tree nat :=
  match create_distributed_plan c (TPlan t) with Ok (TDistributed d) => d | _ => Node KUnion [] end.

Lemma sane b i w : sane_handlers (cfg b i w).
Proof.
  intros t a E. unfold cfg in E. cbn [desired_task_count] in E. unfold tasks_wanted in E.
  destruct t as [[]| |]; injection E; intros; subst; cbn; lia || discriminate.
Qed.
Lemma leaves b i w : leaf_handlers (cfg b i w).
Proof. intros t n q E. discriminate. Qed.

Example grouped_distributed :
  create_distributed_plan (cfg true true 3) (TPlan grouped) = Ok (TDistributed (result (cfg true true 3) grouped)) /\
  stage_tasks (result (cfg true true 3) grouped) = [3; 3] /\
  stage_nums (result (cfg true true 3) grouped) = [1; 2] /\ has_net grouped = false /\ fits 3 grouped.
Proof. vm_compute. repeat split. Qed.

Example full_join_distributed :
  create_distributed_plan (cfg true true 4) (TPlan full_join) = Ok (TDistributed (result (cfg true true 4) full_join)) /\
  stage_tasks (result (cfg true true 4) full_join) = [3; 4] /\ fits 4 full_join.
Proof. vm_compute. repeat split. Qed.

Example grouped_one_worker :
  create_distributed_plan (cfg true true 1) (TPlan grouped) = Ok (TPlan grouped) /\ max_tasks (cfg true true 1) = Ok 1.
Proof. vm_compute. repeat split. Qed.

(** C52: a coalesce directly above a hash repartition in the middle of a plan runs in several tasks. *)
Definition folds_alone_strict (n : nat) (t : tree nat) : Prop :=
  match t with
  | Node (KCoalesce _ _) [Net BBroadcast _ _ _ _ _] => True
  | Node (KCoalesce _ _) [_] => n = 1
  | _ => True
  end.
Definition coalesced_shuffle : tree nat :=
  broadcast_join (Node (KOp (OProj (fun r => r))) [Node (KCoalesce None None) [Node (KRepart (HashP h 4)) [scan 2]]]).
End Ex.

Theorem C52_coalesce_above_shuffle_refuted :
  exists (cfg : settings nat) t d,
    has_net t = false /\ dynamic_task_count cfg = false /\ fits 3 t /\ max_tasks cfg = Ok 3 /\
    sane_handlers cfg /\ leaf_handlers cfg /\
    create_distributed_plan cfg (TPlan t) = Ok (TDistributed d) /\ ~ everywhere Ex.folds_alone_strict d 1.
Proof.
  exists (Ex.cfg true true 3), Ex.coalesced_shuffle, (Ex.result (Ex.cfg true true 3) Ex.coalesced_shuffle).
  split; [reflexivity|]. split; [reflexivity|]. split; [reflexivity|]. split; [reflexivity|].
  split; [apply Ex.sane|]. split; [apply Ex.leaves|]. split; [vm_compute; reflexivity|].
  intros H. vm_compute in H.
  repeat match goal with
  | H : _ /\ _ |- _ => destruct H
  | H : Forall _ (_ :: _) |- _ => inversion H; clear H; subst
  | H : 3 = 1 |- _ => discriminate H
  end.
Qed.
Print Assumptions C52_coalesce_above_shuffle_refuted.

(** C54: the planner does not look at the distribution an operator requires. An operator that needs its
    whole input in one partition, above a scan with one partition, is executed by several tasks if it is
    below a broadcast. *)
Theorem C54_single_partition_operators_refuted :
  exists (cfg : settings nat) t d,
    has_net t = false /\ dynamic_task_count cfg = false /\ fits 3 t /\ max_tasks cfg = Ok 3 /\
    sane_handlers cfg /\ leaf_handlers cfg /\ requirements_met t /\
    create_distributed_plan cfg (TPlan t) = Ok (TDistributed d) /\ ~ everywhere whole_alone d 1.
Proof.
  set (t := Ex.broadcast_join (Node (KOp (OAgg ASingle SinglePartition Ex.count)) [Ex.scan 1])).
  exists (Ex.cfg true true 3), t, (Ex.result (Ex.cfg true true 3) t).
  split; [reflexivity|]. split; [reflexivity|]. split; [reflexivity|]. split; [reflexivity|].
  split; [apply Ex.sane|]. split; [apply Ex.leaves|]. split; [|split; [vm_compute; reflexivity|]].
  { vm_compute. repeat split; try discriminate; repeat constructor; try discriminate. }
  intros H. vm_compute in H.
  repeat match goal with
  | H : _ /\ _ |- _ => destruct H
  | H : Forall _ (_ :: _) |- _ => inversion H; clear H; subst
  | H : true = true -> _ |- _ => specialize (H eq_refl); discriminate H
  end.
Qed.
Print Assumptions C54_single_partition_operators_refuted.
