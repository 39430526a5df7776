(** Which nodes the scale-up handlers are asked about when the plan is made. *)
From Coq Require Import NArith.
From Verif Require Import Base NetModel CiuModel EventsModel JoinModel PlannerModel PlannerSpec PlannerProofs DynModel DynSpec.
Open Scope nat_scope.

Section Ask.
Context {row : Type}.
Notation tree := (tree row).
Variable cfg : settings row.
Variable g : tree -> nat -> option (Res tree).
Hypothesis Hg : forall t n, is_net t = false -> g t n = scale_up_leaf cfg t n.
Notation cfg' := (with_scale_up cfg g).

Lemma asked_propagate : forall (t : tree) n, propagate cfg' t n = propagate cfg t n.
Proof using Hg.
  intros t. induction t as [k cs IH|w m cs IH|b part q num ts i IH] using tree_ind'; intros n; [| |reflexivity].
  - destruct cs as [|c0 cs0]; [cbn; now rewrite Hg|]. cbn [propagate].
    rewrite (map_ext_in (fun c => propagate cfg' c n) (fun c => propagate cfg c n)); [reflexivity|].
    rewrite Forall_forall in IH. intros c Hc. now apply IH.
  - destruct cs as [|c0 cs0]; [cbn; now rewrite Hg|]. cbn [propagate].
    destruct (negb _); [reflexivity|]. destruct (split_children w n) as [m'| |]; cbn [bind]; [|reflexivity..].
    match goal with |- bind (seqM ?a) _ = bind (seqM ?b) _ => assert (E : a = b); [|now rewrite E] end.
    generalize (map_task_counts (List.length (c0 :: cs0)) m'). induction IH as [|c cs Hc _ IHl]; intros [|x l]; [reflexivity..|].
    cbn [map combine]. f_equal; [apply Hc|apply IHl].
Qed.

Lemma asked_scale_leaves : forall (t : tree) n, scale_leaves cfg' t n = scale_leaves cfg t n.
Proof using Hg.
  intros t. induction t as [k cs IH|w m cs IH|b part q num ts i IH] using tree_ind'; intros n.
  - destruct cs as [|c0 cs0]; [cbn; now rewrite Hg|]. cbn [scale_leaves].
    rewrite (map_ext_in (fun c => scale_leaves cfg' c n) (fun c => scale_leaves cfg c n)); [reflexivity|].
    rewrite Forall_forall in IH. intros c Hc. now apply IH.
  - destruct cs as [|c0 cs0]; [cbn; now rewrite Hg|]. cbn [scale_leaves].
    match goal with |- bind (seqM ?a) _ = bind (seqM ?b) _ => assert (E : a = b); [|now rewrite E] end.
    generalize (map_task_counts (List.length (c0 :: cs0)) m). induction IH as [|c cs Hc _ IHl]; intros [|x l]; [reflexivity..|].
    cbn [map combine]. f_equal; [apply Hc|apply IHl].
  - cbn [scale_leaves]. now rewrite IH.
Qed.

Lemma asked_boundary b (t : tree) count : boundary cfg' b t count = boundary cfg b t count.
Proof using Hg. unfold boundary. now rewrite asked_propagate. Qed.

Lemma asked_node par (t : tree) cs :
  inject_node cfg' (propagate cfg') (boundary cfg') par t cs = inject_node cfg (propagate cfg) (boundary cfg) par t cs.
Proof using Hg.
  unfold inject_node. change (desired_task_count cfg' t) with (desired_task_count cfg t).
  destruct (desired_task_count cfg t) as [des| |]; cbn [bind]; [|reflexivity..].
  change (node_count cfg' t des) with (node_count cfg t des). change (max_tasks cfg') with (max_tasks cfg).
  destruct (max_tasks cfg) as [most| |]; cbn [bind]; [|reflexivity..]. rewrite !asked_boundary, !asked_propagate. reflexivity.
Qed.

Lemma asked_inject : forall (t : tree) at_ par,
  inject_by cfg' (propagate cfg') (fun _ => boundary cfg') at_ par t =
  inject_by cfg (propagate cfg) (fun _ => boundary cfg) at_ par t.
Proof using Hg.
  intros t. induction t as [k cs IH|w m cs IH|b part q num ts i IH] using tree_ind'; intros at_ par; cbn [inject_by].
  3: { rewrite IH. destruct (seqM _); cbn [bind]; [|reflexivity..]. now rewrite asked_node. }
  all: match goal with |- bind (seqM ?a) _ = bind (seqM ?b) _ => assert (E : a = b) end.
  1,3: match goal with |- context [is_coalesce ?t] => generalize (is_coalesce t) end; intros c0;
    generalize 0; induction IH as [|c cs Hc _ IHl]; intros j; [reflexivity|]; cbn [map combine seq List.length]; f_equal; [apply Hc|apply IHl].
  all: rewrite E; destruct (seqM _); cbn [bind]; [|reflexivity..]; now rewrite asked_node.
Qed.

Theorem asked_leaves_only (t : tree) : dynamic_task_count cfg = false ->
  create_distributed_plan cfg' (TPlan t) = create_distributed_plan cfg (TPlan t).
Proof using Hg.
  intros Hd. cbn [create_distributed_plan]. unfold distribute. rewrite asked_scale_leaves.
  change (before_injection cfg' t) with (before_injection cfg t). change (dynamic_task_count cfg') with (dynamic_task_count cfg). rewrite Hd.
  destruct (has_net t); [reflexivity|]. destruct (before_injection cfg t) as [p| |]; cbn [bind]; [|reflexivity..].
  unfold inject_and_prepare, inject. rewrite asked_inject. reflexivity.
Qed.

End Ask.
