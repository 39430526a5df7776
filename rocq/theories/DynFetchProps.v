(** Properties C19 and C98 for task counts that are chosen while the query runs: LIMIT, OFFSET and ORDER BY. *)
From Verif Require Import Base NetModel NetSpec NetProofs CiuModel EventsModel EventsSpec JoinModel JoinSpec PlannerModel PlannerSpec
  PlannerProofs ExecModel ExecSpec ExecProofs ExecPasses ExecEnd EventsProps ExecProps FetchSpec FetchProofs FetchEnd FetchSort FetchMore FetchProps
  DynModel DynSpec DynProofs DynProps DynFetch OrderModel OrderSpec OrderProofs OrderEnd OrderProps NetRunModel NetRunProofs FaultModel CutModel CutProofs CutProps DynNetProps DynFaultProps.
From Coq Require Import Sorting.Sorted NArith.

Section Props.
Context {row : Type}.
Notation tree := (tree row).
Notation table := (nat -> nat -> list row).
Variable cfg : settings row.
Variable bytes : N.
Variable most : nat.
Hypothesis Hmost : max_tasks cfg = Ok most.
Hypothesis Hdyn : dynamic_task_count cfg = true.
Hypothesis Htarget : 0 < target_partitions cfg.
Hypothesis Hsane : sane_handlers cfg.
Hypothesis Hleaf : leaf_handlers cfg.
Hypothesis Hignore : ignores_boundaries cfg.

(** C19. LIMIT [n] of a plan [t0] that qualifies for C60: whatever is observed in the stages, the rows of the plan
    that runs are the first [n] of the rows of [t0] on a single node, in some order. *)
Theorem C19_running_plan_limit spm n (t0 p : tree) D :
  typed false t0 (@Permutation row) D -> is_round_robin t0 = false ->
  ordinary t0 -> fed t0 -> spreadable t0 ->
  every_scan (faithful_scan cfg most) t0 -> fits most (Node (KCoalesce spm (Some n)) [t0]) ->
  create_distributed_plan cfg (TPlan (Node (KCoalesce spm (Some n)) [t0])) = Ok (TDistributed p) ->
  forall obs num d, dynamic_plan cfg bytes obs num p = Ok d ->
  forall f g, runs false d 1 f -> runs false t0 1 g -> tparts d = 1 /\ window 0 (Some n) (all_rows t0 1 g) (all_rows d 1 f).
Proof using Hmost Hdyn Htarget Hsane Hleaf Hignore.
  intros Ht Hr Ho Hf Hsp Hs Hfits H obs num d Hd f g Rd Rt.
  destruct (running_limit cfg bytes most Hmost Hdyn Htarget Hsane Hleaf Hignore [] spm (Some n) t0 p d Anyhow obs num)
    as (x & -> & Hx); auto; [now left|eapply ty_coalesce; eauto|]. cbn [nest] in *. split; [reflexivity|].
  destruct (runs_gathered spm (Some n) x f _ Hx Rd) as (l & Hl & El).
  exists l. rewrite (all_rows_one (Node (KCoalesce spm (Some n)) [x]) f eq_refl), El. split; [|reflexivity].
  rewrite Hl. symmetry. eapply single_rows; eauto.
Qed.

(** The same with OFFSET [skip] above the gathering operator, whose own limit, if any, leaves enough. *)
Theorem C19_running_plan_offset skip fetch spm need (t0 p : tree) D : enough need skip fetch ->
  typed false t0 (@Permutation row) D -> is_round_robin t0 = false ->
  ordinary t0 -> fed t0 -> spreadable t0 -> every_scan (faithful_scan cfg most) t0 ->
  let t := Node (KOp (OGlobalLimit skip fetch)) [Node (KCoalesce spm need) [t0]] in
  fits most t -> create_distributed_plan cfg (TPlan t) = Ok (TDistributed p) ->
  forall obs num d, dynamic_plan cfg bytes obs num p = Ok d ->
  forall f g, runs false d 1 f -> runs false t0 1 g ->
    tparts d = 1 /\ exists out, Permutation (all_rows d 1 f) out /\ window skip fetch (all_rows t0 1 g) out.
Proof using Hmost Hdyn Htarget Hsane Hleaf Hignore.
  intros He Ht Hr Ho Hf Hsp Hs t Hfits H obs num d Hd f g Rd Rt.
  destruct (running_limit cfg bytes most Hmost Hdyn Htarget Hsane Hleaf Hignore [KOp (OGlobalLimit skip fetch)] spm need t0 p d Anyhow obs num)
    as (x & -> & Hx); auto; [right; eauto|eapply ty_coalesce; eauto|]. cbn [nest] in *. split; [reflexivity|].
  apply runs_op in Rd as (h & Rh & Rx). destruct (runs_gathered spm need x h _ Hx Rh) as (l & Hl & El).
  destruct (Rx 0 0) as (l' & Hl' & E'); [lia|cbn; lia|].
  rewrite (all_rows_one (Node (KOp (OGlobalLimit skip fetch)) [Node (KCoalesce spm need) [x]]) f eq_refl). rewrite El in Hl'.
  exists (op_fun (OGlobalLimit skip fetch) l'). split; [exact E'|].
  destruct (limit_reorder need l l' Hl') as (l'' & Hl'' & <-). exists l''. cbn [op_fun]. rewrite limit_window by exact He.
  split; [|reflexivity]. rewrite Hl'', Hl. symmetry. eapply single_rows; eauto.
Qed.

(** ORDER BY and LIMIT: partitions are sorted, each keeping as many rows as are needed, and merged. *)
Variable le : row -> row -> Prop.
Hypothesis total : forall a b, le a b \/ le b a.
Hypothesis trans : forall a b c, le a b -> le b c -> le a c.

Theorem C19_running_plan_order_by_limit s need fetch (t0 p : tree) D :
  (forall l, Permutation (s l) l /\ StronglySorted le (s l)) -> keeps fetch need ->
  typed false t0 (@Permutation row) D ->
  ordinary t0 -> fed t0 -> spreadable t0 -> every_scan (faithful_scan cfg most) t0 ->
  let t := Node (KCoalesce (Some le) need) [Node (KOp (OSort s fetch)) [t0]] in
  fits most t -> create_distributed_plan cfg (TPlan t) = Ok (TDistributed p) ->
  forall obs num d, dynamic_plan cfg bytes obs num p = Ok d ->
  forall f g, ordered false d 1 f -> runs false t0 1 g -> sorted_window le 0 need (all_rows t0 1 g) (f 0 0).
Proof using Hmost Hdyn Htarget Hsane Hleaf Hignore total trans.
  intros Hsort Hk Ht Ho Hf Hsp Hs t Hfits H obs num d Hd f g Rd Rt.
  destruct (running_sort_limit cfg bytes most Hmost Hdyn Htarget Hsane Hleaf Hignore le total trans
    [] s need fetch t0 p d D obs num f) as (l & Hl & Hsl & El); auto; [now left|].
  exists l. split; [|split; [exact Hsl|rewrite El; now destruct need]].
  rewrite Hl. symmetry. eapply single_rows; eauto.
Qed.

Theorem C19_running_plan_order_by_offset skip lim s need fetch (t0 p : tree) D : enough need skip lim ->
  (forall l, Permutation (s l) l /\ StronglySorted le (s l)) -> keeps fetch need ->
  typed false t0 (@Permutation row) D ->
  ordinary t0 -> fed t0 -> spreadable t0 -> every_scan (faithful_scan cfg most) t0 ->
  let t := Node (KOp (OGlobalLimit skip lim)) [Node (KCoalesce (Some le) need) [Node (KOp (OSort s fetch)) [t0]]] in
  fits most t -> create_distributed_plan cfg (TPlan t) = Ok (TDistributed p) ->
  forall obs num d, dynamic_plan cfg bytes obs num p = Ok d ->
  forall f g, ordered false d 1 f -> runs false t0 1 g -> sorted_window le skip lim (all_rows t0 1 g) (f 0 0).
Proof using Hmost Hdyn Htarget Hsane Hleaf Hignore total trans.
  intros He Hsort Hk Ht Ho Hf Hsp Hs t Hfits H obs num d Hd f g Rd Rt.
  destruct (running_sort_limit cfg bytes most Hmost Hdyn Htarget Hsane Hleaf Hignore le total trans
    [KOp (OGlobalLimit skip lim)] s need fetch t0 p d D obs num f) as (l & Hl & Hsl & El); auto; [right; eauto|].
  exists l. split; [|split; [exact Hsl|rewrite El, limit_window by exact He; now destruct lim]].
  rewrite Hl. symmetry. eapply single_rows; eauto.
Qed.

(** C98. LIMIT [n] at some point of an execution over the network, whatever has failed or was abandoned: what was
    returned is the beginning of [n] rows of [t0], or of all if there are fewer; if the query has ended, it is these. *)
Context {err : Type}.
Variable acts : op row -> list row -> list row -> Prop.
Variables (budget capacity : nat) (bad : nat -> err).
Theorem C98_running_plan_limit spm n (t0 p : tree) D :
  (forall o l out, acts o l out -> Permutation out (op_fun o l)) ->
  typed false t0 (@Permutation row) D -> is_round_robin t0 = false ->
  ordinary t0 -> fed t0 -> spreadable t0 ->
  every_scan (faithful_scan cfg most) t0 -> fits most (Node (KCoalesce spm (Some n)) [t0]) ->
  create_distributed_plan cfg (TPlan (Node (KCoalesce spm (Some n)) [t0])) = Ok (TDistributed p) ->
  forall obs num d, dynamic_plan cfg bytes obs num p = Ok d ->
  forall f0 o g, delivers acts false d 1 f0 -> runs_so_far budget capacity bad acts false d 1 o -> runs false t0 1 g ->
    tparts d = 1 /\
    exists rest, window 0 (Some n) (all_rows t0 1 g) (seen (o 0 0) ++ rest) /\ (closed (o 0 0) = true -> rest = []).
Proof using Hmost Hdyn Htarget Hsane Hleaf Hignore.
  intros Hacts Ht Hr Ho Hf Hsp Hs Hfits H obs num d Hd f0 o g H0 Hrun Hg.
  destruct (C98_executions_are_beginnings acts budget capacity bad d 1 f0 o H0 Hrun) as (f & Hdf & Hc).
  pose proof (delivers_runs acts (fun _ => None) true d (always_serves acts Hacts d) false 1 f Hdf) as Rf.
  destruct (C19_running_plan_limit spm n t0 p D Ht Hr Ho Hf Hsp Hs Hfits H obs num d Hd f g Rf Hg) as [E W].
  split; [exact E|]. rewrite (all_rows_one d f E) in W. destruct (Hc 0 0) as (rest & E1 & E2). exists rest. rewrite <- E1. auto.
Qed.
End Props.
Print Assumptions C19_running_plan_limit.
Print Assumptions C19_running_plan_offset.
Print Assumptions C19_running_plan_order_by_limit.
Print Assumptions C19_running_plan_order_by_offset.
Print Assumptions C98_running_plan_limit.

(** The queries of [FetchEx] with task counts chosen while they run, in three tasks. *)
Module DynFetchEx.
Import FetchEx.
Definition prepared (t : tree ExecProps.Ex.row) : tree ExecProps.Ex.row :=
  match create_distributed_plan DynFaultProps.Ex.dyn (TPlan t) with Ok (TDistributed p) => p | _ => Node KUnion [] end.
Definition running (t : tree ExecProps.Ex.row) : tree ExecProps.Ex.row :=
  match dynamic_plan DynFaultProps.Ex.dyn 10 DynNetProps.Ex.obs DynNetProps.Ex.num (prepared t) with Ok d => d | _ => Node KUnion [] end.
End DynFetchEx.
Import DynFetchEx.

Example running_limits_admissible :
  (max_tasks DynFaultProps.Ex.dyn = Ok 3 /\ dynamic_task_count DynFaultProps.Ex.dyn = true /\ 0 < target_partitions DynFaultProps.Ex.dyn /\
   sane_handlers DynFaultProps.Ex.dyn /\ leaf_handlers DynFaultProps.Ex.dyn /\ ignores_boundaries DynFaultProps.Ex.dyn) /\
  every_scan (faithful_scan DynFaultProps.Ex.dyn 3) (ExecProps.Ex.file_scan 5) /\
  forall t, t = FetchEx.limited \/ t = FetchEx.page \/ t = FetchEx.top_rows ->
    fits 3 t /\ create_distributed_plan DynFaultProps.Ex.dyn (TPlan t) = Ok (TDistributed (prepared t)) /\
    dynamic_plan DynFaultProps.Ex.dyn 10 DynNetProps.Ex.obs DynNetProps.Ex.num (prepared t) = Ok (running t) /\
    stage_tasks (running t) = [3].
Proof.
  split.
  { split; [reflexivity|]. split; [reflexivity|]. split; [cbn; lia|]. split; [exact DynFaultProps.Ex.sane|].
    split; [exact DynFaultProps.Ex.leaves|]. intros b part q n tasks i count. reflexivity. }
  split; [cbn; repeat constructor; exact DynFaultProps.Ex.scans|].
  intros t [->|[->| ->]]; (split; [vm_compute; repeat constructor|]; split; [vm_compute; reflexivity|];
    split; [vm_compute; reflexivity|]; vm_compute; reflexivity).
Qed.

(** Limits reach the stages when the planner has placed them ([C19_stages_are_limited]), not when they are placed
    while the query runs: below LIMIT 1 a partition of the stage has two rows to hand over, where the same
    query with task counts chosen by the planner has one. *)
Theorem C19_running_stages_are_limited_refuted : exists (t p d i : tree ExecProps.Ex.row) spm part q num tasks f,
  create_distributed_plan DynFaultProps.Ex.dyn (TPlan t) = Ok (TDistributed p) /\
  dynamic_plan DynFaultProps.Ex.dyn 10 DynNetProps.Ex.obs DynNetProps.Ex.num p = Ok d /\
  d = Node (KCoalesce spm (Some 1)) [Net BCoalesce part q num tasks i] /\
  runs true i tasks f /\ (exists a b, a < tasks /\ b < tparts i /\ 1 < List.length (f a b)) /\
  exists d' i' q' num', create_distributed_plan (ExecProps.Ex.cfg false) (TPlan t) = Ok (TDistributed d') /\
    d' = Node (KCoalesce spm (Some 1)) [Net BCoalesce part q' num' tasks i'] /\
    forall f', runs true i' tasks f' -> forall a b, a < tasks -> b < tparts i' -> List.length (f' a b) <= 1.
Proof.
  exists (Node (KCoalesce None (Some 1)) [ExecProps.Ex.file_scan 5]).
  set (p := prepared (Node (KCoalesce None (Some 1)) [ExecProps.Ex.file_scan 5])).
  exists p, (running (Node (KCoalesce None (Some 1)) [ExecProps.Ex.file_scan 5])), (FetchEx.task_leaf 5 3), None, (UnknownP 6).
  do 2 eexists. exists 3, (FetchEx.three 5).
  split; [vm_compute; reflexivity|]. split; [vm_compute; reflexivity|]. split; [vm_compute; reflexivity|].
  split; [apply FetchEx.three_runs; now left|]. split.
  { exists 0, 0. split; [lia|]. split; [vm_compute; lia|]. vm_compute. lia. }
  exists (FetchEx.plan_of (Node (KCoalesce None (Some 1)) [ExecProps.Ex.file_scan 5])), (Node (KOp (OLocalLimit 1)) [FetchEx.task_leaf 5 3]).
  do 2 eexists. split; [vm_compute; reflexivity|]. split; [vm_compute; reflexivity|].
  intros f' R a b Ha Hb. apply runs_op in R as (h & _ & R). destruct (R a b Ha Hb) as (l & _ & E). rewrite E. cbn [op_fun].
  rewrite firstn_length. lia.
Qed.
Print Assumptions C19_running_stages_are_limited_refuted.
