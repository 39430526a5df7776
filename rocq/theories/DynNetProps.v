(** Properties C60, C88 and C89 for task counts that are chosen while the query runs: what is executed over
    the network returns the rows of the original plan, in the orders that it promises, whatever is observed. *)
From Verif Require Import Base NetModel NetSpec CiuModel EventsModel EventsSpec JoinModel JoinSpec PlannerModel
  PlannerSpec PlannerProofs ExecModel ExecSpec ExecProofs ExecPasses ExecEnd EventsProps ExecProps
  DynModel DynSpec DynProofs DynProps OrderModel OrderSpec OrderProofs OrderEnd OrderProps
  NetRunModel NetRunProofs NetRunDone NetRunProps.
From Coq Require Import Sorting.Sorted NArith.

Section Props.
Context {row err : Type}.
Notation tree := (tree row).
Notation table := (nat -> nat -> list row).
Variable acts : op row -> list row -> list row -> Prop.
Variable needs : op row -> option (row -> row -> Prop).
Variable cfg : settings row.
Variable bytes : N.
Variable most : nat.
Hypothesis Hmost : max_tasks cfg = Ok most.
Hypothesis Hdyn : dynamic_task_count cfg = true.
Hypothesis Htarget : 0 < target_partitions cfg.
Hypothesis Hsane : sane_handlers cfg.
Hypothesis Hleaf : leaf_handlers cfg.
Hypothesis Hignore : ignores_boundaries cfg.

Lemma running_serves (t p : tree) D obs num d :
  typed false t (@Permutation row) D -> ordinary t -> fed t -> is_round_robin t = false -> fits most t ->
  serves acts needs false t -> every_scan (order_kept cfg) t ->
  create_distributed_plan cfg (TPlan t) = Ok (TDistributed p) -> dynamic_plan cfg bytes obs num p = Ok d ->
  serves acts needs false d /\ forall le, one_part t -> promises acts false t le -> promises acts false d le.
Proof using Hmost Hdyn Htarget Hsane Hleaf Hignore.
  intros Ht Ho Hf Hr Hfits Hs Hk H Hd.
  destruct (distribute_dynamic cfg most Hdyn t p (ordinary_no_net t Ho) Hfits H) as (Hp & Np & Fp).
  destruct (before_keeps cfg false Htarget (order_kept cfg) t p D Ht Ho Hf Hr Hp) as ((D' & T) & _ & _ & Sk).
  specialize (Sk Hk). destruct (before_serves acts needs cfg t p Hs Hp) as [Sp Pp].
  destruct (dynamic_deployed cfg bytes most Hmost Hdyn Hsane Hleaf Hignore obs num p d Np Fp Hd) as (s & _ & HD).
  split.
  - eapply dchild_serves; [|exact HD]. eapply deployed_serves; eauto.
  - intros le Hone Hle. assert (Hle' : promises acts false p le).
    { apply Pp; [|exact Hle]. intros t1 E1.
      destruct (normalize_keeps cfg false Htarget (order_kept cfg) t _ _ Ht t1 Ho Hf E1) as ((A1 & _ & A3 & _) & _).
      rewrite (one_part_tparts _ _ _ _ A1 (A3 Hone)). lia. }
    eapply dchild_promises; [exact Hle'| |exact HD]. apply deployed_promises; auto.
Qed.

(** C88. The same as [C88_distributed_plan_keeps_orders_partial], and partial as it is, for the plan that
    runs when task counts are chosen while the query runs. *)
Theorem C88_running_plan_keeps_orders_partial t p D :
  typed false t (@Permutation row) D -> ordinary t -> fed t -> spreadable t ->
  is_round_robin t = false -> every_scan (faithful_scan cfg most) t -> fits most t ->
  serves acts needs false t -> every_scan (order_kept cfg) t ->
  create_distributed_plan cfg (TPlan t) = Ok (TDistributed p) ->
  forall obs num d, dynamic_plan cfg bytes obs num p = Ok d ->
  forall f, delivers acts false d 1 f ->
    (forall g, delivers acts false t 1 g -> Permutation (all_rows d 1 f) (all_rows t 1 g)) /\
    (forall le, one_part t -> promises acts false t le -> forall q, q < tparts d -> StronglySorted le (f 0 q)).
Proof using Hmost Hdyn Htarget Hsane Hleaf Hignore.
  intros Ht Ho Hf Hsp Hr Hs Hfits Hserves Hkept H obs num d Hd f Df.
  destruct (running_serves t p D obs num d Ht Ho Hf Hr Hfits Hserves Hkept H Hd) as [Sd Pd]. split.
  - intros g Dg. apply (C60_same_rows_for_all_observations cfg bytes most Hmost Hdyn Hsane Hleaf Hignore t p D
      Htarget Ht Ho Hf Hsp Hr Hs Hfits H obs num d Hd);
      [exact (delivers_runs acts needs false d Sd false 1 f Df)|exact (delivers_runs acts needs false t Hserves false 1 g Dg)].
  - intros le Hone Hle q Hq. exact (promises_kept acts false d le (Pd le Hone Hle) false 1 f Df 0 q ltac:(lia) Hq).
Qed.

Variables (budget capacity : nat) (bad : nat -> err).
Hypothesis Hbudget : 0 < budget.
Hypothesis Hcapacity : 0 < capacity.
Notation over_the_network := (delivers_networked budget capacity bad acts false).

(** C60 over the network: whatever the costs observed in the stages, and in whatever interleaving the
    boundaries of the plan that runs are read over the network, it returns the rows of the original plan. *)
Theorem C60_over_the_network t p D :
  (forall o l out, acts o l out -> Permutation out (op_fun o l)) ->
  typed false t (@Permutation row) D -> ordinary t -> fed t -> spreadable t ->
  is_round_robin t = false -> every_scan (faithful_scan cfg most) t -> fits most t ->
  create_distributed_plan cfg (TPlan t) = Ok (TDistributed p) ->
  forall obs num d, dynamic_plan cfg bytes obs num p = Ok d ->
  forall f g, over_the_network d 1 f -> delivers acts false t 1 g -> Permutation (all_rows d 1 f) (all_rows t 1 g).
Proof using Hmost Hdyn Htarget Hsane Hleaf Hignore Hbudget Hcapacity.
  intros Hacts Ht Ho Hf Hsp Hr Hs Hfits H obs num d Hd f g Df Dg.
  assert (S : forall d : tree, serves acts (fun _ => None) true d).
  { assert (W : forall o, well_behaved acts (fun _ => None) o) by (intros o l out Ha _; auto).
    intros d'. induction d' as [k cs IH|w m cs IH|b part q n tasks i IH _] using tree_ind2.
    - cbn [serves]. split; [|apply Forall_map, Forall_forall; assumption]. destruct k as [| | | | | |o]; auto.
      split; [auto|]. split; [discriminate|]. destruct o as [| |m d0 a| | |]; auto. destruct m; auto.
    - cbn [serves]. apply Forall_map, Forall_forall. assumption.
    - exact IH. }
  apply (C60_same_rows_for_all_observations cfg bytes most Hmost Hdyn Hsane Hleaf Hignore t p D
      Htarget Ht Ho Hf Hsp Hr Hs Hfits H obs num d Hd);
    [apply (delivers_runs acts (fun _ => None) true d (S d) false 1 f)|exact (delivers_runs acts (fun _ => None) true t (S t) false 1 g Dg)].
  now apply (plans_iff acts budget capacity bad Hbudget Hcapacity).
Qed.

(** C88 likewise. *)
Theorem C88_running_plan_over_the_network_partial t p D :
  typed false t (@Permutation row) D -> ordinary t -> fed t -> spreadable t ->
  is_round_robin t = false -> every_scan (faithful_scan cfg most) t -> fits most t ->
  serves acts needs false t -> every_scan (order_kept cfg) t ->
  create_distributed_plan cfg (TPlan t) = Ok (TDistributed p) ->
  forall obs num d, dynamic_plan cfg bytes obs num p = Ok d ->
  forall f, over_the_network d 1 f ->
    (forall g, delivers acts false t 1 g -> Permutation (all_rows d 1 f) (all_rows t 1 g)) /\
    (forall le, one_part t -> promises acts false t le -> forall q, q < tparts d -> StronglySorted le (f 0 q)).
Proof using Hmost Hdyn Htarget Hsane Hleaf Hignore Hbudget Hcapacity.
  intros Ht Ho Hf Hsp Hr Hs Hfits Hserves Hkept H obs num d Hd f Df.
  apply (C88_running_plan_keeps_orders_partial t p D Ht Ho Hf Hsp Hr Hs Hfits Hserves Hkept H obs num d Hd).
  now apply (plans_iff acts budget capacity bad Hbudget Hcapacity).
Qed.
End Props.
Print Assumptions C88_running_plan_keeps_orders_partial.
Print Assumptions C60_over_the_network.
Print Assumptions C88_running_plan_over_the_network_partial.

(** The sorted query of OrderProps with task counts chosen while it runs: 30 bytes are seen in every stage
    and a task is given 10 of them, but there are two workers. *)
Module Ex.
Import OrderProps.Ex.
Definition dyn : settings nat :=
  mkSettings true true false true 0 (CiuModel.f64_div (f64_of_nat 3) (f64_of_nat 2)) 4 (Ok 2)
    wanted split (fun _ => EEqual) 77.
Definition obs (_ : list nat) : observation := mkObs (Ok (Some 30%N)) (Ok tt).
Definition num (at_ : list nat) : nat := fold_left (fun acc i => 5 * acc + i + 1) at_ 0.
End Ex.

Example C88_running_case :
  (max_tasks Ex.dyn = Ok 2 /\ dynamic_task_count Ex.dyn = true /\ 0 < target_partitions Ex.dyn /\
   sane_handlers Ex.dyn /\ leaf_handlers Ex.dyn /\ ignores_boundaries Ex.dyn) /\
  typed false OrderProps.Ex.sorted_query (@Permutation nat) Anyhow /\
  every_scan (faithful_scan Ex.dyn 2) OrderProps.Ex.sorted_query /\
  every_scan (order_kept Ex.dyn) OrderProps.Ex.sorted_query /\
  exists p d, create_distributed_plan Ex.dyn (TPlan OrderProps.Ex.sorted_query) = Ok (TDistributed p) /\
    dynamic_plan Ex.dyn 10 Ex.obs Ex.num p = Ok d /\ stage_tasks d = [2; 2].
Proof.
  split.
  { split; [reflexivity|]. split; [reflexivity|]. split; [cbn; lia|]. split; [exact OrderProps.Ex.sane|].
    split; [exact OrderProps.Ex.leaves|]. intros b part q n tasks i count. reflexivity. }
  destruct OrderProps.Ex.sorted_query_admissible as (A & _). split; [exact A|].
  split; [cbn; repeat constructor; exact OrderProps.Ex.scans|].
  split; [cbn; repeat constructor; exact OrderProps.Ex.scans_keep|].
  do 2 eexists. split; [vm_compute; reflexivity|]. split; [vm_compute; reflexivity|]. vm_compute. reflexivity.
Qed.
