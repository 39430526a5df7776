(** Properties C78 and C98 for plans whose scans can be read: what the planner makes of them can be executed
    over the network, with task counts that are chosen before or while the query runs. *)
From Verif Require Import Base NetModel NetSpec NetProofs CiuModel CiuSpec CiuProofs EventsModel EventsSpec JoinModel JoinSpec PlannerModel
  PlannerSpec PlannerProofs ExecModel ExecSpec ExecProofs ExecPasses ExecEnd EventsProps ExecProps RunSpec RunProofs RunProps
  DynModel DynSpec DynProofs DynProps OrderModel OrderSpec OrderProofs OrderEnd OrderProps PoolModel PoolSpec
  NetRunModel NetRunProofs NetRunDone NetRunProps DynNetProps FaultModel FaultSpec FaultProofs FaultEnd FaultProps CutModel CutProofs CutProps
  DynFaultProps AnswerSpec AnswerProofs PlanAnswerProofs.
From Coq Require Import NArith.

Section Static.
Context {row err : Type}.
Notation tree := (tree row).
Variable acts : op row -> list row -> list row -> Prop.
Variables (budget capacity : nat) (bad : nat -> err).
Hypothesis Hacts : forall o l out, acts o l out -> Permutation out (op_fun o l).
Hypothesis Hanswers : always_answers acts.
Variable cfg : settings row.
Variable most : nat.
Hypothesis Hmost : max_tasks cfg = Ok most.
Hypothesis Htarget : 0 < target_partitions cfg.
Hypothesis Hsane : sane_handlers cfg.
Hypothesis Hleaf : leaf_handlers cfg.

(** C78 over the network. Let [t] be a plan as in [C78_distributed_plan_can_run] whose sort-preserving merges
    compare any two rows. It can be executed in one process, the plan that the planner returns for it can be
    executed with all its boundaries read over connections of any budget, and all that they can return are
    the same rows. *)
Theorem C78_can_run_over_the_network t D d : 0 < budget -> 0 < capacity ->
  dynamic_task_count cfg = false ->
  typed (partial_reduce cfg) t (@Permutation row) D -> ordinary t -> fed t -> spreadable t ->
  is_round_robin t = false -> every_scan (faithful_scan cfg most) t -> every_scan (readable_scan cfg most) t ->
  every_scan RunSpec.readable t -> fits most t -> comparable t ->
  create_distributed_plan cfg (TPlan t) = Ok (TDistributed d) ->
  (exists f, delivers_networked budget capacity bad acts false d 1 f) /\
  (exists g, delivers acts false t 1 g) /\
  forall f g, delivers_networked budget capacity bad acts false d 1 f -> delivers acts false t 1 g ->
    Permutation (all_rows d 1 f) (all_rows t 1 g).
Proof using Hacts Hanswers Hmost Htarget Hsane Hleaf.
  intros HB HC Hstatic Ht Ho Hf Hsp Hr Hs Hrd Hrd1 Hfits Hcmp H.
  destruct (C78_distributed_plan_can_run cfg most Hmost Hstatic Htarget Hsane Hleaf t D d Ht Ho Hf Hsp Hr Hs Hrd Hrd1 Hfits H) as (f & g & Rf & Rg & _).
  pose proof (planned_answerable cfg most t D d Ht Ho Hf Hr Hrd Hcmp Htarget Hstatic Hmost Hsane Hleaf Hfits H) as Ad.
  pose proof (single_answerable _ t D Ht Ho Hf Hrd1 Hcmp) as At.
  split; [|split].
  - destruct (can_deliver acts Hanswers d false 1 f Ad Rf) as (f' & Hf'). exists f'. now apply C89_plans_over_the_network.
  - exact (can_deliver acts Hanswers t false 1 g At Rg).
  - exact (C89_query_over_the_network acts budget capacity bad HB HC cfg most Hmost Hstatic Htarget Hsane Hleaf
      t D (TDistributed d) Hacts Ht Ho Hf Hsp Hr Hs Hfits H).
Qed.

(** C98 for plans whose scans can be read: as [C98_rows_so_far], without assuming that the distributed plan
    can be executed. *)
Theorem C98_rows_so_far_of_readable_scans t D d :
  dynamic_task_count cfg = false ->
  typed (partial_reduce cfg) t (@Permutation row) D -> ordinary t -> fed t -> spreadable t ->
  is_round_robin t = false -> every_scan (faithful_scan cfg most) t -> every_scan (readable_scan cfg most) t ->
  every_scan RunSpec.readable t -> fits most t -> comparable t ->
  create_distributed_plan cfg (TPlan t) = Ok (TDistributed d) ->
  forall o g, runs_so_far budget capacity bad acts false d 1 o -> delivers acts false t 1 g ->
    exists rest, Permutation (rows_so_far d o ++ rest) (all_rows t 1 g) /\
      ((forall p, p < tparts d -> closed (o 0 p) = true) -> rest = []).
Proof using Hacts Hanswers Hmost Htarget Hsane Hleaf.
  intros Hstatic Ht Ho Hf Hsp Hr Hs Hrd Hrd1 Hfits Hcmp H o g Hrun Hg.
  destruct (C78_distributed_plan_can_run cfg most Hmost Hstatic Htarget Hsane Hleaf t D d Ht Ho Hf Hsp Hr Hs Hrd Hrd1 Hfits H) as (f & _ & Rf & _).
  pose proof (planned_answerable cfg most t D d Ht Ho Hf Hr Hrd Hcmp Htarget Hstatic Hmost Hsane Hleaf Hfits H) as Ad.
  destruct (can_deliver acts Hanswers d false 1 f Ad Rf) as (f0 & Hf0).
  exact (C98_rows_so_far acts budget capacity bad cfg most Hmost Hstatic Htarget Hsane Hleaf Hacts t D d Ht Ho Hf Hsp Hr Hs Hfits H f0 o g Hf0 Hrun Hg).
Qed.

(** ** Task counts chosen while the query runs *)

Variable bytes : N.
Hypothesis Hignore : ignores_boundaries cfg.

Lemma running_can (t p : tree) D obs num d : dynamic_task_count cfg = true ->
  typed false t (@Permutation row) D -> ordinary t -> fed t -> spreadable t ->
  is_round_robin t = false -> every_scan (faithful_scan cfg most) t -> every_scan (readable_scan cfg most) t -> fits most t ->
  create_distributed_plan cfg (TPlan t) = Ok (TDistributed p) -> dynamic_plan cfg bytes obs num p = Ok d ->
  (exists f, runs false d 1 f) /\ (comparable t -> answerable d).
Proof using bad Hmost Htarget Hsane Hleaf Hignore.
  intros Hdyn Ht Ho Hf Hsp Hr Hs Hrd Hfits H Hd.
  destruct (distribute_dynamic cfg most Hdyn t p (ordinary_no_net t Ho) Hfits H) as (Hp & Np & Fp).
  destruct (before_keeps cfg false Htarget (faithful_scan cfg most) t p D Ht Ho Hf Hr Hp) as ((D' & T) & M & F2 & S).
  destruct (before_keeps cfg false Htarget (readable_scan cfg most) t p D Ht Ho Hf Hr Hp) as (_ & _ & _ & S').
  destruct (dynamic_deployed cfg bytes most Hmost Hdyn Hsane Hleaf Hignore obs num p d Np Fp Hd) as (s & HW & HD).
  pose proof (spreadable_placed cfg most false t p D Htarget Ht Ho Hf Hr Hsp Hp) as Hplaced.
  split; [apply (root_can cfg most false p D' s d T HW HD); auto; now apply placed_of|].
  intros Hcmp. apply answerable_of.
  - eapply dchild_comparable; [|exact HD]. apply deployed_comparable; [exact Hleaf|]. eapply before_comparable; eauto.
  - eapply (child_joins cfg most false p (deployed_joins cfg most _ p _ _ T) true false s 1 d (S' Hrd)); [|exact HD].
    split; [|split; [lia|split; [auto|unfold cut; destruct (is_hash_repart p), (is_bcast p); discriminate]]].
    intros Ec. destruct (HW Ec) as [Hw1 Hw2]. repeat split; auto; try lia; discriminate.
Qed.

(** C78. Whatever is observed in the stages, the plan that runs can be executed, over the network too, and
    all that it can return are the rows of the original plan in one process. *)
Theorem C78_running_plan_can_run t p D : 0 < budget -> 0 < capacity ->
  dynamic_task_count cfg = true ->
  typed false t (@Permutation row) D -> ordinary t -> fed t -> spreadable t ->
  is_round_robin t = false -> every_scan (faithful_scan cfg most) t -> every_scan (readable_scan cfg most) t ->
  every_scan RunSpec.readable t -> fits most t -> comparable t ->
  create_distributed_plan cfg (TPlan t) = Ok (TDistributed p) ->
  forall obs num d, dynamic_plan cfg bytes obs num p = Ok d ->
  (exists f, delivers_networked budget capacity bad acts false d 1 f) /\
  (exists g, delivers acts false t 1 g) /\
  forall f g, delivers_networked budget capacity bad acts false d 1 f -> delivers acts false t 1 g ->
    Permutation (all_rows d 1 f) (all_rows t 1 g).
Proof using Hacts Hanswers Hmost Htarget Hsane Hleaf Hignore.
  intros HB HC Hdyn Ht Ho Hf Hsp Hr Hs Hrd Hrd1 Hfits Hcmp H obs num d Hd.
  destruct (running_can t p D obs num d Hdyn Ht Ho Hf Hsp Hr Hs Hrd Hfits H Hd) as [(f & Rf) Ad].
  destruct (single_can _ t D Ht Ho Hf Hrd1) as (g & Rg).
  pose proof (single_answerable _ t D Ht Ho Hf Hrd1 Hcmp) as At.
  split; [|split].
  - destruct (can_deliver acts Hanswers d false 1 f (Ad Hcmp) Rf) as (f' & Hf'). exists f'. now apply C89_plans_over_the_network.
  - exact (can_deliver acts Hanswers t false 1 g At Rg).
  - exact (C60_over_the_network acts cfg bytes most Hmost Hdyn Htarget Hsane Hleaf Hignore budget capacity bad HB HC
      t p D Hacts Ht Ho Hf Hsp Hr Hs Hfits H obs num d Hd).
Qed.

(** C98 for the plan that runs, without assuming that it can be executed. *)
Theorem C98_running_plan_rows_so_far_of_readable_scans t p D :
  dynamic_task_count cfg = true ->
  typed false t (@Permutation row) D -> ordinary t -> fed t -> spreadable t ->
  is_round_robin t = false -> every_scan (faithful_scan cfg most) t -> every_scan (readable_scan cfg most) t -> fits most t ->
  comparable t ->
  create_distributed_plan cfg (TPlan t) = Ok (TDistributed p) ->
  forall obs num d, dynamic_plan cfg bytes obs num p = Ok d ->
  forall o g, runs_so_far budget capacity bad acts false d 1 o -> delivers acts false t 1 g ->
    exists rest, Permutation (rows_so_far d o ++ rest) (all_rows t 1 g) /\
      ((forall q, q < tparts d -> closed (o 0 q) = true) -> rest = []).
Proof using Hacts Hanswers Hmost Htarget Hsane Hleaf Hignore.
  intros Hdyn Ht Ho Hf Hsp Hr Hs Hrd Hfits Hcmp H obs num d Hd o g Hrun Hg.
  destruct (running_can t p D obs num d Hdyn Ht Ho Hf Hsp Hr Hs Hrd Hfits H Hd) as [(f & Rf) Ad].
  destruct (can_deliver acts Hanswers d false 1 f (Ad Hcmp) Rf) as (f0 & Hf0).
  exact (C98_running_plan_rows_so_far acts cfg bytes most Hmost Hdyn Htarget Hsane Hleaf Hignore budget capacity bad
    t p D Hacts Ht Ho Hf Hsp Hr Hs Hfits H obs num d Hd f0 o g Hf0 Hrun Hg).
Qed.
End Static.
Print Assumptions C78_can_run_over_the_network.
Print Assumptions C98_rows_so_far_of_readable_scans.
Print Assumptions C78_running_plan_can_run.
Print Assumptions C98_running_plan_rows_so_far_of_readable_scans.

(** The query of C48 (a join and an aggregation on files). *)
Module Answered.
Import ExecProps.Ex.
Definition exactly (o : op row) (l out : list row) : Prop := out = op_fun o l.
Lemma answers : always_answers exactly.
Proof. intros o l. eexists. reflexivity. Qed.
Lemma same_as o l out : exactly o l out -> Permutation out (op_fun o l).
Proof. now intros ->. Qed.
Lemma merges : comparable query.
Proof. cbn. repeat constructor. Qed.
Example C78_network_case b : exists f g,
  delivers_networked 1 1 (fun _ => "bad"%string) exactly false (distributed b) 1 f /\ delivers exactly false query 1 g /\
  Permutation (all_rows (distributed b) 1 f) (all_rows query 1 g).
Proof.
  destruct (query_admissible b) as (H1 & H2 & H3 & H4 & H5 & H6 & H7 & H8 & H9 & _).
  assert (R1 : every_scan (readable_scan (cfg b) 3) query) by (cbn; repeat constructor; apply (RunEx.reads b)).
  assert (R2 : every_scan RunSpec.readable query) by (cbn; repeat constructor; try (apply (RunEx.reads b)); cbn; try lia).
  pose proof (C78_can_run_over_the_network exactly 1 1 (fun _ : nat => "bad"%string) same_as answers (cfg b) 3 H8 (Nat.lt_0_succ _) (sane b) (leaves b)
    query Anyhow (distributed b) Nat.lt_0_1 Nat.lt_0_1 eq_refl H1 H2 H3 H4 H5 H6 R1 R2) as G.
  specialize (G H7 merges H9). destruct G as ((f & Hf) & (g & Hg) & G). exists f, g. split; [exact Hf|]. split; [exact Hg|]. exact (G f g Hf Hg).
Qed.
End Answered.

(** The plan of [C96_running_case], whose task counts are chosen while it runs. *)
Module Running.
Import ExecProps.Ex.
Lemma reads : RunSpec.readable (LScan (scan 5 (files 5))) /\ readable_scan DynFaultProps.Ex.dyn 3 (LScan (scan 5 (files 5))).
Proof.
  apply (C78_file_scans_can_run row DynFaultProps.Ex.dyn 3 (fun _ _ => None) 5 (files 5) 2 true).
  - discriminate.
  - discriminate.
  - intros s. reflexivity.
  - intros s d E. destruct s as [|s]; [discriminate|].
    destruct (C22_preset_scan row (fun _ _ => None) 5 (files 5) 2 (S s)) as (d' & E' & Hl & Hv & _); [lia|lia|].
    rewrite E in E'. injection E' as <-. destruct (dle_variants d) as [|v vs]; [discriminate|].
    exact (proj2 (Hv v (or_introl eq_refl))).
Qed.
Example C78_running_case : exists f g,
  delivers_networked 1 1 (fun _ => "bad"%string) Answered.exactly false Failing.distributed 1 f /\
  delivers Answered.exactly false Failing.whole 1 g /\
  Permutation (all_rows Failing.distributed 1 f) (all_rows Failing.whole 1 g).
Proof.
  destruct C96_running_case as ((H1 & H2 & H3 & H4 & H5 & H6) & H7 & H8 & H9 & (p & Hp & Hd) & _).
  assert (R1 : every_scan (readable_scan DynFaultProps.Ex.dyn 3) Failing.whole) by (cbn; repeat constructor; apply reads).
  assert (R2 : every_scan RunSpec.readable Failing.whole) by (cbn; repeat constructor; try apply reads; cbn; lia).
  assert (O : ordinary Failing.whole) by (cbn; repeat constructor).
  assert (F : fed Failing.whole) by (cbn; repeat split; repeat constructor; discriminate).
  assert (S : spreadable Failing.whole) by (cbn; repeat split; repeat constructor; cbn; lia).
  assert (M : comparable Failing.whole) by (cbn; repeat constructor).
  pose proof (C78_running_plan_can_run Answered.exactly 1 1 (fun _ : nat => "bad"%string) Answered.same_as Answered.answers
    DynFaultProps.Ex.dyn 3 H1 H3 H4 H5 10%N H6 Failing.whole p Anyhow Nat.lt_0_1 Nat.lt_0_1 H2 H7 O F S eq_refl H8 R1 R2 H9 M Hp
    DynNetProps.Ex.obs DynNetProps.Ex.num Failing.distributed Hd) as ((f & Hf) & (g & Hg) & G).
  exists f, g. split; [exact Hf|]. split; [exact Hg|]. exact (G f g Hf Hg).
Qed.
End Running.
