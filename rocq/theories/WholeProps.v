(** C54: operators that need their whole input in one partition and get it from a coalescing node run in one task. *)
From Coq Require Import NArith.
From Verif Require Import Base NetModel CiuModel JoinModel EventsModel PlannerModel PlannerSpec PlannerProofs PlannerProps DynModel DynSpec DynProps WholeSpec.
Open Scope nat_scope.

Section Lemmas.
Context {row : Type}.
Notation tree := (tree row).

Lemma everywhere_nested (P : nat -> tree -> Prop) t n : everywhere P t n -> everywhere (fun n x => everywhere P x n) t n.
Proof.
  revert n. induction t as [k cs IH|w m cs IH|b part q num tasks i IH] using tree_ind'; intros n H.
  - split; [exact H|]. cbn [everywhere] in H. destruct H as [_ H]. rewrite Forall_forall in *.
    intros X HX. apply in_map_iff in HX as (c & <- & Hc). apply IH; [exact Hc|]. apply H. apply in_map_iff. eauto.
  - rewrite Forall_forall in IH. cbn [everywhere] in *.
    match goal with |- context [map (everywhere ?R) cs] =>
      fold (combined (everywhere P) cs (map_task_counts (List.length cs) m)) in H;
      fold (combined (everywhere R) cs (map_task_counts (List.length cs) m)) end.
    rewrite combined_Forall in * by apply map_task_counts_length. intros i c Hc. apply IH; [eapply nth_error_In; exact Hc|auto].
  - cbn in *. auto.
Qed.

Lemma folded_one (t : tree) n : everywhere folds_alone t n -> folded t -> n = 1.
Proof.
  revert n. induction t as [k cs IH|w m cs IH|b part q num tasks i IH] using tree_ind'; intros n H F; [|destruct F|destruct F].
  assert (G : fold_right or False (map folded cs) -> n = 1).
  { intros G. cbn [everywhere] in H. destruct H as [_ H]. rewrite Forall_forall in IH, H.
    assert (X : exists c, In c cs /\ folded c).
    { clear -G. induction cs as [|c cs IH]; cbn in G; [destruct G|]. destruct G as [G|G]; [exists c; cbn; auto|].
      destruct (IH G) as (x & Hx & Fx). exists x. cbn. auto. }
    destruct X as (c & Hc & Fc). apply (IH c Hc n); [|exact Fc]. apply H. apply in_map_iff. eauto. }
  destruct k; try exact (G F). cbn [everywhere] in H. destruct H as [H _].
  destruct cs as [|c [|c' cs]]; [exact (G F)| |destruct c as [| |[]]; exact (G F)].
  destruct c as [| |[]]; cbn in H, F; auto; destruct F.
Qed.

Lemma folded_everywhere (d : tree) : everywhere folds_alone d 1 -> everywhere folded_alone d 1.
Proof.
  intros H. apply everywhere_nested in H. revert H. apply everywhere_impl. intros n [k [|c cs]| |] H; cbn [folded_alone]; auto.
  intros _. apply folded_one, H.
Qed.
End Lemmas.

Section Props.
Context {row : Type}.
Variable cfg : settings row.
Variable most : nat.
Hypothesis Hmost : max_tasks cfg = Ok most.
Hypothesis Hsane : sane_handlers cfg.
Hypothesis Hleaf : leaf_handlers cfg.

(** Missing from the claim: operators whose input has one partition without a coalescing node below them in their stage
    ([C54_single_partition_operators_refuted]), or with one that reads a hash repartition ([C52_coalesce_above_shuffle_refuted]). *)
Theorem C54_folded_input_partial (t d : tree row) :
  has_net t = false -> dynamic_task_count cfg = false -> fits most t ->
  create_distributed_plan cfg (TPlan t) = Ok (TDistributed d) ->
  everywhere folded_alone d 1.
Proof using Hmost Hsane Hleaf.
  intros Hn Hd Hf H. apply folded_everywhere. exact (C52_coalescing_in_one_task_partial cfg most Hmost Hsane Hleaf t d Hn Hd Hf H).
Qed.

(** The same for task counts chosen at run time. *)
Theorem C54_folded_input_dynamic_partial bytes (t p : tree row) :
  dynamic_task_count cfg = true -> ignores_boundaries cfg ->
  has_net t = false -> fits most t -> create_distributed_plan cfg (TPlan t) = Ok (TDistributed p) ->
  forall obs num d, dynamic_plan cfg bytes obs num p = Ok d -> everywhere folded_alone d 1.
Proof using Hmost Hsane Hleaf.
  intros Hd Hi Hn Hf H obs num d E. apply folded_everywhere.
  exact (C52_coalescing_in_one_task_dynamic_partial cfg bytes most Hmost Hd Hsane Hleaf Hi t p Hn Hf H obs num d E).
Qed.
End Props.
Print Assumptions C54_folded_input_partial.
Print Assumptions C54_folded_input_dynamic_partial.

Definition count_all : tree nat :=
  Ex.broadcast_join (Node (KOp (OAgg ASingle SinglePartition Ex.count)) [Node (KCoalesce None None) [Ex.scan 2]]).
Example C54_hypotheses_met :
  create_distributed_plan (Ex.cfg true true 3) (TPlan count_all) = Ok (TDistributed (Ex.result (Ex.cfg true true 3) count_all)) /\
  has_net count_all = false /\ fits 3 count_all /\ max_tasks (Ex.cfg true true 3) = Ok 3 /\
  stage_tasks (Ex.result (Ex.cfg true true 3) count_all) = [3; 1; 3].
Proof. vm_compute. repeat split. Qed.
