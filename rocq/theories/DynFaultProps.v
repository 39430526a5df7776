(** Properties C96 and C98 for task counts that are chosen while the query runs: what failures, abandoned
    partitions and interrupted queries do to the plan that runs, whatever was observed in its stages. *)
From Verif Require Import Base NetModel NetSpec NetProofs CiuModel CiuSpec CiuProofs EventsModel EventsSpec JoinModel JoinSpec PlannerModel
  PlannerSpec PlannerProofs ExecModel ExecSpec ExecProofs ExecPasses ExecEnd EventsProps ExecProps
  DynModel DynSpec DynProofs DynProps FetchProps OrderModel OrderSpec OrderProofs OrderEnd OrderProps PoolModel PoolSpec
  NetRunModel NetRunProofs NetRunDone NetRunProps DynNetProps FaultModel FaultSpec FaultProofs FaultEnd FaultProps CutModel CutProofs CutProps.
From Coq Require Import Sorting.Sorted NArith.

Section Props.
Context {row err : Type}.
Notation tree := (tree row).
Notation table := (nat -> nat -> list row).
Variable acts : op row -> list row -> list row -> Prop.
Variable cfg : settings row.
Variable bytes : N.
Variable most : nat.
Hypothesis Hmost : max_tasks cfg = Ok most.
Hypothesis Hdyn : dynamic_task_count cfg = true.
Hypothesis Htarget : 0 < target_partitions cfg.
Hypothesis Hsane : sane_handlers cfg.
Hypothesis Hleaf : leaf_handlers cfg.
Hypothesis Hignore : ignores_boundaries cfg.

Lemma running_well (t p : tree) D obs num d :
  typed false t (@Permutation row) D -> ordinary t -> fed t -> spreadable t ->
  is_round_robin t = false -> every_scan (faithful_scan cfg most) t -> fits most t ->
  create_distributed_plan cfg (TPlan t) = Ok (TDistributed p) -> dynamic_plan cfg bytes obs num p = Ok d -> well_cut d 1.
Proof using Hmost Hdyn Htarget Hsane Hleaf Hignore.
  intros Ht Ho Hf Hsp Hr Hs Hfits H Hd.
  destruct (distribute_dynamic cfg most Hdyn t p (ordinary_no_net t Ho) Hfits H) as (Hp & Np & Fp).
  destruct (before_keeps cfg false Htarget (faithful_scan cfg most) t p D Ht Ho Hf Hr Hp) as ((D' & T) & M & F2 & S).
  destruct (dynamic_deployed cfg bytes most Hmost Hdyn Hsane Hleaf Hignore obs num p d Np Fp Hd) as (s & HW & HD).
  pose proof (spreadable_placed cfg most false t p D Htarget Ht Ho Hf Hr Hsp Hp) as Hplaced.
  apply (well_child cfg most false false p _ _ T (typed_well cfg most _ p _ _ T) true false s 1 d HD).
  - split; [|split; [lia|split; [auto|unfold cut; destruct (is_hash_repart p), (is_bcast p); discriminate]]].
    intros Ec. destruct (HW Ec) as [Hw1 Hw2]. repeat split; auto; try lia; discriminate.
  - apply placed_of; auto.
  - auto.
  - discriminate.
Qed.

Variables (budget capacity : nat) (bad : nat -> err).

(** C96. [t] is a plan as in C60; [d] is the plan that runs after [obs] was observed. Anything may fail in any of
    its stages. If the result ended normally nevertheless, in all its partitions, it has the rows of the original plan. *)
Theorem C96_running_plan_complete t p D : 0 < budget -> 0 < capacity ->
  (forall o l out, acts o l out -> Permutation out (op_fun o l)) ->
  typed false t (@Permutation row) D -> ordinary t -> fed t -> spreadable t ->
  is_round_robin t = false -> every_scan (faithful_scan cfg most) t -> fits most t ->
  create_distributed_plan cfg (TPlan t) = Ok (TDistributed p) ->
  forall obs num d, dynamic_plan cfg bytes obs num p = Ok d ->
  forall o g, runs_with_failures budget capacity bad acts false d 1 o -> (forall q, q < tparts d -> o 0 q <> None) -> delivers acts false t 1 g ->
    Permutation (all_rows d 1 (rows o)) (all_rows t 1 g).
Proof using Hmost Hdyn Htarget Hsane Hleaf Hignore.
  intros HB HC Hacts Ht Ho Hf Hsp Hr Hs Hfits H obs num d Hd o g Hrun He Hg.
  refine (C60_over_the_network acts cfg bytes most Hmost Hdyn Htarget Hsane Hleaf Hignore budget capacity bad HB HC
    t p D Hacts Ht Ho Hf Hsp Hr Hs Hfits H obs num d Hd (rows o) g _ Hg).
  apply failure_free; [eapply running_well; eauto|exact Hrun|]. intros i Hi. assert (i = 0) as -> by lia. exact He.
Qed.

(** C96. A partition of a scan that cannot be read in a task that executes it fails the query. *)
Theorem C96_running_plan_unreadable_scans t p D :
  typed false t (@Permutation row) D -> ordinary t -> fed t -> spreadable t ->
  is_round_robin t = false -> every_scan (faithful_scan cfg most) t -> fits most t ->
  create_distributed_plan cfg (TPlan t) = Ok (TDistributed p) ->
  forall obs num d, dynamic_plan cfg bytes obs num p = Ok d ->
  forall o, runs_with_failures budget capacity bad acts false d 1 o -> ~ readable false d 1 -> exists q, q < tparts d /\ o 0 q = None.
Proof using Hmost Hdyn Htarget Hsane Hleaf Hignore.
  intros Ht Ho Hf Hsp Hr Hs Hfits H obs num d Hd o Hrun Hread. apply some_none. intros He. apply Hread.
  eapply delivered_readable, failure_free; [eapply running_well; eauto|exact Hrun|]. intros i Hi. assert (i = 0) as -> by lia. exact He.
Qed.

(** C98. What the plan that runs has returned at some point of its execution is among the rows of the original
    plan, each as often as there or less often; if the ends of all partitions were seen, it is all of them. *)
Theorem C98_running_plan_rows_so_far t p D :
  (forall o l out, acts o l out -> Permutation out (op_fun o l)) ->
  typed false t (@Permutation row) D -> ordinary t -> fed t -> spreadable t ->
  is_round_robin t = false -> every_scan (faithful_scan cfg most) t -> fits most t ->
  create_distributed_plan cfg (TPlan t) = Ok (TDistributed p) ->
  forall obs num d, dynamic_plan cfg bytes obs num p = Ok d ->
  forall f0 o g, delivers acts false d 1 f0 -> runs_so_far budget capacity bad acts false d 1 o -> delivers acts false t 1 g ->
    exists rest, Permutation (rows_so_far d o ++ rest) (all_rows t 1 g) /\
      ((forall q, q < tparts d -> closed (o 0 q) = true) -> rest = []).
Proof using Hmost Hdyn Htarget Hsane Hleaf Hignore.
  intros Hacts Ht Ho Hf Hsp Hr Hs Hfits H obs num d Hd f0 o g H0 Hrun Hg.
  destruct (beginnings_of_all acts budget capacity bad d f0 o H0 Hrun) as (f & Hdf & rest & H1 & H2).
  exists rest. split; [|exact H2]. rewrite <- H1.
  apply (C60_same_rows_for_all_observations cfg bytes most Hmost Hdyn Hsane Hleaf Hignore t p D
      Htarget Ht Ho Hf Hsp Hr Hs Hfits H obs num d Hd);
    eapply (delivers_runs acts (fun _ => None) true); eauto; now apply always_serves.
Qed.
End Props.
Print Assumptions C96_running_plan_complete.
Print Assumptions C96_running_plan_unreadable_scans.
Print Assumptions C98_running_plan_rows_so_far.

(** [SELECT *] on the files of [FetchEx] with task counts chosen while it runs: 30 bytes are seen in the scans and
    a task is given 10 of them, hence three tasks, as in [C98_failing_case]. *)
Module Ex.
Definition dyn : settings ExecProps.Ex.row :=
  mkSettings true true false true 0 (CiuModel.f64_div (f64_of_nat 3) (f64_of_nat 2)) 4 (Ok 3)
    ExecProps.Ex.wanted ExecProps.Ex.split (fun _ => EEqual) 77.
Lemma sane : sane_handlers dyn.
Proof. intros t a E. cbn [dyn desired_task_count] in E. pose proof (ExecProps.Ex.sane false t a) as H. cbn [ExecProps.Ex.cfg desired_task_count] in H. exact (H E). Qed.
Lemma leaves : leaf_handlers dyn.
Proof. intros t n q E. cbn [dyn scale_up_leaf] in E. pose proof (ExecProps.Ex.leaves false t n q) as H. cbn [ExecProps.Ex.cfg scale_up_leaf] in H. exact (H E). Qed.
Lemma scans : faithful_scan dyn 3 (LScan (scan 5 (ExecProps.Ex.files 5))).
Proof.
  apply (C48_file_scans_qualify ExecProps.Ex.row dyn 3 (fun _ _ => None) 5 (ExecProps.Ex.files 5) 2 true).
  - discriminate.
  - intros s. reflexivity.
  - intros s d E. destruct s as [|s]; [discriminate|].
    destruct (C22_preset_scan ExecProps.Ex.row (fun _ _ => None) 5 (ExecProps.Ex.files 5) 2 (S s)) as (d' & E' & Hl & Hv & _); [lia|lia|].
    rewrite E in E'. injection E' as <-. destruct (dle_variants d) as [|v vs]; [discriminate|].
    exact (proj2 (Hv v (or_introl eq_refl))).
Qed.
End Ex.
Example C96_running_case :
  (max_tasks Ex.dyn = Ok 3 /\ dynamic_task_count Ex.dyn = true /\ 0 < target_partitions Ex.dyn /\
   sane_handlers Ex.dyn /\ leaf_handlers Ex.dyn /\ ignores_boundaries Ex.dyn) /\
  typed false Failing.whole (@Permutation ExecProps.Ex.row) Anyhow /\
  every_scan (faithful_scan Ex.dyn 3) Failing.whole /\ fits 3 Failing.whole /\
  (exists p, create_distributed_plan Ex.dyn (TPlan Failing.whole) = Ok (TDistributed p) /\
    dynamic_plan Ex.dyn 10 DynNetProps.Ex.obs DynNetProps.Ex.num p = Ok Failing.distributed) /\
  (exists f0, delivers Stopped.exactly false Failing.distributed 1 f0 /\
     runs_with_failures 1 1 (fun _ => "bad"%string) Stopped.exactly false Failing.distributed 1 (fun i p => Some (f0 i p))) /\
  runs_so_far 1 1 (fun _ => "bad"%string) Stopped.exactly false Failing.distributed 1 Failing.result.
Proof.
  split.
  { split; [reflexivity|]. split; [reflexivity|]. split; [cbn; lia|]. split; [exact Ex.sane|].
    split; [exact Ex.leaves|]. intros b part q n tasks i count. reflexivity. }
  split; [eapply ty_coalesce; [constructor|reflexivity]|]. split; [cbn; repeat constructor; exact Ex.scans|].
  split; [vm_compute; repeat constructor|].
  split; [eexists; split; [vm_compute; reflexivity|]; vm_compute; reflexivity|].
  split; [|exact Failing.executed]. destruct Failing.complete as (f0 & H0). exists f0. split; [exact H0|].
  apply C96_undisturbed_executions. apply C89_plans_over_the_network; [lia|lia|exact H0].
Qed.
