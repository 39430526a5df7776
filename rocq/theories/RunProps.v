(** Property C78: what can be executed on one node can be executed distributed. *)
From Verif Require Import Base NetModel NetSpec CiuModel EventsModel EventsSpec EventsProofs JoinModel JoinSpec JoinProofs PlannerModel
  PlannerSpec PlannerProofs ExecModel ExecSpec ExecProofs ExecPasses ExecEnd ExecOps ExecProps RunSpec RunProofs.

Section Props.
Context {row : Type}.
Notation tree := (tree row).
Notation table := (nat -> nat -> list row).
Variable cfg : settings row.
Variable most : nat.
Hypothesis Hmost : max_tasks cfg = Ok most.
Hypothesis Hstatic : dynamic_task_count cfg = false.
Hypothesis Htarget : 0 < target_partitions cfg.
Hypothesis Hsane : sane_handlers cfg.
Hypothesis Hleaf : leaf_handlers cfg.

(** C78. Let [t] be a plan as in [C48_distributed_plan_same_rows] whose scans can be read, on one node and
    in the tasks that they may be scaled for. It can be executed on one node, and the plan that the planner
    returns for it can be executed: no boundary asks a worker for a partition that does not exist, no join
    gets inputs with the wrong numbers of partitions, no operator an input without partitions, no isolated
    union a child that is not there. With the same rows. *)
Theorem C78_distributed_plan_can_run t D d :
  typed (partial_reduce cfg) t (@Permutation row) D -> ordinary t -> fed t -> spreadable t ->
  is_round_robin t = false -> every_scan (faithful_scan cfg most) t -> every_scan (readable_scan cfg most) t ->
  every_scan readable t -> fits most t ->
  create_distributed_plan cfg (TPlan t) = Ok (TDistributed d) ->
  exists f g : table, runs false d 1 f /\ runs false t 1 g /\ Permutation (all_rows d 1 f) (all_rows t 1 g).
Proof using Hmost Hstatic Htarget Hsane Hleaf.
  intros Ht Ho Hf Hsp Hr Hs Hrd Hrd1 Hfits H.
  destruct (distribute_inv cfg most t _ (ordinary_no_net t Ho) Hstatic Hfits H)
    as (p & q & a & d0 & id & Hp & _).
  destruct (distributed_can cfg most t p D d Ht Ho Hf Hr Hs Hrd Htarget Hstatic Hmost Hsane Hleaf Hfits Hp) as (f & Rf).
  { eapply spreadable_placed; eauto. }
  { exact H. }
  destruct (single_can (partial_reduce cfg) t D Ht Ho Hf Hrd1) as (g & Rg).
  exists f, g. split; [exact Rf|]. split; [exact Rg|].
  exact (C48_distributed_plan_same_rows cfg most Hmost Hstatic Htarget Hsane Hleaf t D (TDistributed d) Ht Ho Hf Hsp Hr Hs Hfits H f g Rf Rg).
Qed.

(** The same with operators that need their whole input, where the planner does not spread them. *)
Theorem C78_single_partition_operators_can_run t p D d :
  typed (partial_reduce cfg) t (@Permutation row) D -> ordinary t -> fed t ->
  is_round_robin t = false -> every_scan (faithful_scan cfg most) t -> every_scan (readable_scan cfg most) t ->
  every_scan readable t -> fits most t ->
  before_injection cfg t = Ok p -> ops_placed cfg most (in_head p) p ->
  create_distributed_plan cfg (TPlan t) = Ok (TDistributed d) ->
  exists f g : table, runs false d 1 f /\ runs false t 1 g /\ Permutation (all_rows d 1 f) (all_rows t 1 g).
Proof using Hmost Hstatic Htarget Hsane Hleaf.
  intros Ht Ho Hf Hr Hs Hrd Hrd1 Hfits Hp Hpl H.
  destruct (distributed_can cfg most t p D d Ht Ho Hf Hr Hs Hrd Htarget Hstatic Hmost Hsane Hleaf Hfits Hp Hpl H) as (f & Rf).
  destruct (single_can (partial_reduce cfg) t D Ht Ho Hf Hrd1) as (g & Rg).
  exists f, g. split; [exact Rf|]. split; [exact Rg|].
  exact (C48_with_single_partition_operators cfg most Hmost Hstatic Htarget Hsane Hleaf t p D d Ht Ho Hf Hr Hs Hfits Hp Hpl H f g Rf Rg).
Qed.
End Props.
Print Assumptions C78_distributed_plan_can_run.
Print Assumptions C78_single_partition_operators_can_run.

(** File scans split by the built-in handler can be read. *)
Theorem C78_file_scans_can_run (row : Type) (cfg : settings row) most partitioner schema
    (groups : list (list (list row))) P preset :
  groups <> [] ->
  (forall n gs, partitioner n groups = Some gs -> Permutation (group_rows gs) (group_rows groups)) ->
  (forall s, scale_up_leaf cfg (Node (KLeaf (LScan (scan schema groups))) []) s =
    Some (match file_scan_scale_up partitioner schema groups P preset s with
          | Ok d => Ok (Node (KLeaf (LTasks d)) [])
          | Err e => Err e
          | Panic e => Panic e
          end)) ->
  (forall s d, file_scan_scale_up partitioner schema groups P preset s = Ok d -> dle_parts d = List.length groups) ->
  readable (LScan (scan schema groups)) /\ readable_scan cfg most (LScan (scan schema groups)).
Proof.
  intros Hne H1 H2 H3.
  assert (Hr : readable (LScan (scan schema groups))).
  { split; [cbn; destruct groups; [congruence|cbn; lia]|]. cbn. intros p Hp.
    destruct (nth_error groups p) eqn:En; [eauto|]. apply nth_error_None in En. lia. }
  split; [exact Hr|]. apply split_readable; [|exact Hr]. eapply file_scan_split; eauto.
Qed.
Print Assumptions C78_file_scans_can_run.

(** The example of C48: the distributed query has an execution. *)
From Verif Require Import EventsProps.
Module RunEx.
Import ExecProps.Ex.
Lemma reads b k : readable (LScan (scan k (files k))) /\ readable_scan (cfg b) 3 (LScan (scan k (files k))).
Proof.
  apply (C78_file_scans_can_run row (cfg b) 3 (fun _ _ => None) k (files k) 2 true).
  - discriminate.
  - discriminate.
  - intros s. reflexivity.
  - intros s d E. destruct s as [|s]; [discriminate|].
    destruct (C22_preset_scan row (fun _ _ => None) k (files k) 2 (S s)) as (d' & E' & Hl & Hv & _); [lia|lia|].
    rewrite E in E'. injection E' as <-. destruct (dle_variants d) as [|v vs]; [discriminate|].
    exact (proj2 (Hv v (or_introl eq_refl))).
Qed.
Example query_runs b : exists f g : nat -> nat -> list row,
  runs false (distributed b) 1 f /\ runs false query 1 g /\ Permutation (all_rows (distributed b) 1 f) (all_rows query 1 g).
Proof.
  destruct (query_admissible b) as (H1 & H2 & H3 & H4 & H5 & H6 & H7 & H8 & H9 & _).
  apply (C78_distributed_plan_can_run (cfg b) 3 H8 eq_refl ltac:(cbn; lia) (sane b) (leaves b) query Anyhow (distributed b) H1 H2 H3 H4 H5 H6); auto.
  - cbn. repeat constructor; apply (reads b).
  - cbn. repeat constructor; try (apply (reads b)); cbn; try lia.
Qed.
End RunEx.
