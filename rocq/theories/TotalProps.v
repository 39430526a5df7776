(** Property C79: the planner accepts the plans that DataFusion makes. *)
From Verif Require Import Base NetModel NetSpec CiuModel CiuFloat EventsModel EventsSpec EventsProofs EventsProps JoinModel JoinSpec JoinProofs PlannerModel
  PlannerSpec PlannerProofs PlannerProps ExecModel ExecSpec ExecProofs ExecPasses ExecEnd ExecOps ExecProps RunSpec RunProofs RunProps
  TotalSpec TotalProofs TotalFloat TotalEnd.
From Coq Require Import ZArith SpecFloat.

Section Props.
Context {row : Type}.
Notation tree := (tree row).
Notation table := (nat -> nat -> list row).
Variable cfg : settings row.
Variable most : nat.
Hypothesis Hmost : max_tasks cfg = Ok most.
Hypothesis Htarget : 0 < target_partitions cfg.
Hypothesis Hsane : sane_handlers cfg.
Hypothesis Hleaf : leaf_handlers cfg.
Hypothesis Hans : answering_handlers cfg.
Hypothesis Hkeep : keeps_tasks cfg.

(** C79. Planning a regular plan succeeds, whether task counts are chosen when it is planned or when it
    runs, *)
Theorem C79_planning_succeeds t : regular t -> by_ranges t = false -> fits most t ->
  exists r, create_distributed_plan cfg (TPlan t) = Ok r.
Proof using Hmost Htarget Hsane Hleaf Hans Hkeep. intros H1 H2 H3. now apply (distribute_total cfg most). Qed.

(** and so does planning EXPLAIN ANALYZE of it. *)
Theorem C79_analyze_succeeds t : regular t -> by_ranges t = false -> fits most t ->
  exists r, create_distributed_plan cfg (TAnalyze (TPlan t)) = Ok r.
Proof using Hmost Htarget Hsane Hleaf Hans Hkeep.
  intros H1 H2 H3. destruct (C79_planning_succeeds t H1 H2 H3) as (r & E). cbn [create_distributed_plan] in *. rewrite E. cbn [bind].
  destruct (is_distributed r); eauto.
Qed.

(** C79, with C48 and C78: for a plan as in those, whose task counts are chosen when it is planned, the
    planner returns either the plan itself or a distributed one, both can be executed, and they return the
    same rows. *)
Theorem C79_query_succeeds t D :
  dynamic_task_count cfg = false ->
  typed (partial_reduce cfg) t (@Permutation row) D -> ordinary t -> fed t -> spreadable t ->
  is_round_robin t = false -> every_scan (faithful_scan cfg most) t -> every_scan (readable_scan cfg most) t ->
  every_scan readable t -> fits most t ->
  exists r, create_distributed_plan cfg (TPlan t) = Ok r /\
    (r = TPlan t \/
     exists d (f g : table), r = TDistributed d /\ runs false d 1 f /\ runs false t 1 g /\
       Permutation (all_rows d 1 f) (all_rows t 1 g)).
Proof using Hmost Htarget Hsane Hleaf Hans Hkeep.
  intros Hst Ht Ho Hf Hsp Hr Hs Hrd Hrd1 Hfits.
  destruct (typed_regular _ t _ D Ht Ho Hf Hrd1) as [Hreg Hrange].
  destruct (C79_planning_succeeds t Hreg Hrange Hfits) as (r & E). exists r. split; [exact E|].
  destruct (C49_unchanged_or_distributed cfg t r (ordinary_no_net t Ho) Hst E) as [->|(d & -> & _)]; [now left|right].
  destruct (C78_distributed_plan_can_run cfg most Hmost Hst Htarget Hsane Hleaf t D d Ht Ho Hf Hsp Hr Hs Hrd Hrd1 Hfits E)
    as (f & g & H). exists d, f, g. split; [reflexivity|exact H].
Qed.
End Props.
Print Assumptions C79_query_succeeds.
Print Assumptions C79_planning_succeeds.
Print Assumptions C79_analyze_succeeds.

(** The number of tasks of a stage is never made zero by a factor from 1 (the default) to below 2: the
    doubles in that range are m * 2^-52 with 2^52 <= m < 2^53. *)
Theorem C79_factors {row} (cfg : settings row) m :
  cardinality_task_count_factor cfg = S754_finite false m (-52) -> (2 ^ 52 <= Zpos m < 2 ^ 53)%Z -> keeps_tasks cfg.
Proof.
  intros E Hm. destruct (rep_one_two m Hm) as (r & Hr & H12). rewrite <- E in Hr. exact (factor_keeps_tasks cfg r Hr H12).
Qed.
Print Assumptions C79_factors.

Module TotalEx.
Import PlannerProps.Ex.
Lemma keeps b i w : keeps_tasks (cfg b i w).
Proof. eapply C79_factors; [vm_compute; reflexivity|]. split; vm_compute; [discriminate|reflexivity]. Qed.
Lemma answers b i w : answering_handlers (cfg b i w).
Proof. split; [intros t; cbn; unfold tasks_wanted; destruct t as [[]| |]; eauto|discriminate]. Qed.

Lemma full_join_regular : regular full_join /\ by_ranges full_join = false.
Proof. split; [|reflexivity]. cbn. repeat split; repeat constructor; cbn; lia. Qed.
Example full_join_planned : exists r, create_distributed_plan (cfg true true 4) (TPlan full_join) = Ok r.
Proof.
  apply (C79_planning_succeeds (cfg true true 4) 4 eq_refl); try apply full_join_regular.
  - cbn. lia.
  - apply sane.
  - apply leaves.
  - apply answers.
  - apply keeps.
  - vm_compute. repeat split.
Qed.

(** A plan with a range repartition below a coalescing node, which DataFusion can run, *)
Definition merged_ranges : tree nat := Node (KCoalesce None None) [Node (KRepart (RangeP 3)) [scan 2]].
(** is not planned, although everything else is as in [C79_planning_succeeds]. *)
Theorem C79_ranges_refuted :
  exists (cfg : settings nat) t, max_tasks cfg = Ok 3 /\ 0 < target_partitions cfg /\ sane_handlers cfg /\ leaf_handlers cfg /\
    answering_handlers cfg /\ keeps_tasks cfg /\ fits 3 t /\ ordinary t /\
    t = Node (KCoalesce None None) [Node (KRepart (RangeP 3)) [scan 2]] /\
    forall r, create_distributed_plan cfg (TPlan t) <> Ok r.
Proof.
  exists (cfg true true 3), merged_ranges. split; [reflexivity|]. split; [cbn; lia|]. split; [apply sane|]. split; [apply leaves|].
  split; [apply answers|]. split; [apply keeps|]. split; [vm_compute; repeat split|]. split; [cbn; repeat constructor|].
  split; [reflexivity|]. intros r E. vm_compute in E. discriminate E.
Qed.

(** With a factor of zero, which the configuration accepts, a union of two shuffles below operators that
    may add rows is not planned either. *)
Definition zero_cfg : settings nat :=
  mkSettings true true false false 0 f64_zero 4 (Ok 3) tasks_wanted (fun _ _ => None)
    (fun k => match k with KOp _ => EGreaterEqual | _ => EEqual end) 77.
Definition shuffled : tree nat := Node (KRepart (HashP h 4)) [Node (KOp (OAgg APartial AnyDistribution count)) [scan 2]].
Theorem C79_zero_factor_refuted :
  exists (cfg : settings nat) t, max_tasks cfg = Ok 3 /\ 0 < target_partitions cfg /\ sane_handlers cfg /\ leaf_handlers cfg /\
    answering_handlers cfg /\ fits 3 t /\ regular t /\ by_ranges t = false /\
    cardinality_task_count_factor cfg = f64_zero /\ t = Node KUnion [shuffled; shuffled] /\
    forall r, create_distributed_plan cfg (TPlan t) <> Ok r.
Proof.
  exists zero_cfg, (Node KUnion [shuffled; shuffled]). split; [reflexivity|]. split; [cbn; lia|]. split.
  { intros t a E. exact (sane true true 3 t a E). }
  split; [intros t n q E; discriminate|]. split; [exact (answers true true 3)|]. split; [vm_compute; repeat split|].
  split; [cbn; repeat split; repeat constructor; cbn; lia|]. split; [reflexivity|].
  split; [reflexivity|]. split; [reflexivity|]. intros r E. vm_compute in E. discriminate E.
Qed.
End TotalEx.
Print Assumptions TotalEx.C79_ranges_refuted.
Print Assumptions TotalEx.C79_zero_factor_refuted.

(** The query of C48: its hypotheses hold, so it is planned and executed. *)
Module TotalEx2.
Import ExecProps.Ex.
Lemma keeps b : keeps_tasks (cfg b).
Proof. eapply C79_factors; [vm_compute; reflexivity|]. split; vm_compute; [discriminate|reflexivity]. Qed.
Lemma answers b : answering_handlers (cfg b).
Proof.
  split; [intros t; cbn; unfold wanted; destruct t as [[]| |]; eauto|].
  intros [l|d] n r _ Hn E; cbn [cfg scale_up_leaf split] in E; [|discriminate]. injection E as <-.
  destruct (C22_preset_scan row (fun _ _ => None) (lf_schema l) (files (lf_schema l)) 2 n Hn ltac:(lia)) as (d & -> & Hl & Hv & _).
  eexists. split; [reflexivity|]. cbn. destruct (dle_variants d) as [|v vs]; [cbn in Hl; lia|].
  destruct (Hv v (or_introl eq_refl)) as [_ ->]. lia.
Qed.
Example query_planned_and_run b :
  exists r, create_distributed_plan (cfg b) (TPlan query) = Ok r /\
    (r = TPlan query \/
     exists d (f g : nat -> nat -> list row), r = TDistributed d /\ runs false d 1 f /\ runs false query 1 g /\
       Permutation (all_rows d 1 f) (all_rows query 1 g)).
Proof.
  destruct (query_admissible b) as (H1 & H2 & H3 & H4 & H5 & H6 & H7 & H8 & H9 & _).
  apply (C79_query_succeeds (cfg b) 3 H8 ltac:(cbn; lia) (sane b) (leaves b) (answers b) (keeps b) query Anyhow eq_refl); auto.
  - cbn. repeat constructor; apply (RunEx.reads b).
  - cbn. repeat constructor; try (apply (RunEx.reads b)); cbn; try lia.
Qed.
End TotalEx2.
