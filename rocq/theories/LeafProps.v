(** Property C48: a leaf that is given several tasks and that no scale-up handler splits is read by each of them. *)
From Verif Require Import Base NetModel NetSpec CiuModel EventsModel EventsSpec JoinModel JoinSpec PlannerModel
  PlannerSpec ExecModel ExecSpec ExecProofs EventsProps ExecProps RobinProps.

Module Leaf.
Definition row := (nat * nat)%type.
(** A user's leaf, for which a handler asks for three tasks; there is no scale-up handler. *)
Definition cfg : settings row :=
  mkSettings true true false false 0 (CiuModel.f64_div (f64_of_nat 3) (f64_of_nat 2)) 4 (Ok 3)
    ExecProps.Ex.wanted (fun _ _ => None) (fun _ => EEqual) 77.
Definition query : tree row := Node (KOp (OProj (fun r => (snd r, fst r)))) [Robin.file_scan 5].
Definition distributed : tree row :=
  match create_distributed_plan cfg (TPlan query) with Ok (TDistributed d) => d | _ => Node KUnion [] end.
Lemma sane : sane_handlers cfg.
Proof.
  intros t a E. cbn [cfg desired_task_count] in E. unfold ExecProps.Ex.wanted in E.
  destruct t as [[]| |]; injection E; intros; subst; cbn; lia || discriminate.
Qed.
Lemma leaves : leaf_handlers cfg.
Proof. intros t n q E. discriminate. Qed.

Definition groups (i p : nat) : list row := Robin.rows_or_none (lf_exec (scan 5 (Robin.files 5)) p).
Definition swapped (i p : nat) : list row := map (fun r => (snd r, fst r)) (groups i p).
Definition received (i p : nat) : list row :=
  match boundary_execute BCoalesce (UnknownP 9) 3 (fun t => SOther 3 (swapped t)) (mkCtx i 1) p with
  | Ok l => List.concat l | _ => [] end.
Definition outcome (i _ : nat) : list row := flat_map (received i) (seq 0 9).
Lemma distributed_shape : distributed = Node (KCoalesce None None)
  [Net BCoalesce (UnknownP 9) 77 1 3 query].
Proof. vm_compute. reflexivity. Qed.
Ltac cases_below i := repeat (destruct i as [|i]; [|try lia]).
Lemma single_runs b n : runs b query n swapped.
Proof.
  exists [groups]. split.
  - constructor; [|constructor]. exists []. split; [constructor|]. intros i p Hi Hp.
    change (leaf_parts (LScan (scan 5 (Robin.files 5)))) with 3 in Hp. cases_below p; reflexivity.
  - cbn. intros i p Hi Hp. eexists. split; [apply Permutation_refl|reflexivity].
Qed.
Lemma distributed_runs : runs false distributed 1 outcome.
Proof.
  rewrite distributed_shape. exists [received]. split.
  - constructor; [|constructor]. exists swapped. split; [apply single_runs|].
    intros i p Hi Hp. change (partition_count (UnknownP 9)) with 9 in Hp.
      cases_below i; cases_below p; (eexists; split; [vm_compute; reflexivity|apply merge_concat]).
  - split; [vm_compute; lia|]. intros i Hi. eexists. split; [|reflexivity]. cases_below i. apply Permutation_refl.
Qed.
End Leaf.

(** C48 without the condition on scans: every row is returned three times, without an error. *)
Theorem C48_unsplit_leaf_refuted :
  exists (cfg : settings (nat * nat)) t d f g,
    max_tasks cfg = Ok 3 /\ dynamic_task_count cfg = false /\ 0 < target_partitions cfg /\
    sane_handlers cfg /\ leaf_handlers cfg /\
    typed (partial_reduce cfg) t (@Permutation _) Anyhow /\ ordinary t /\ fed t /\ spreadable t /\
    is_round_robin t = false /\ fits 3 t /\
    create_distributed_plan cfg (TPlan t) = Ok (TDistributed d) /\
    runs false d 1 f /\ runs false t 1 g /\
    all_rows t 1 g <> [] /\ Permutation (all_rows d 1 f) (all_rows t 1 g ++ all_rows t 1 g ++ all_rows t 1 g) /\
    ~ Permutation (all_rows d 1 f) (all_rows t 1 g).
Proof.
  exists Leaf.cfg, Leaf.query, Leaf.distributed, Leaf.outcome, Leaf.swapped.
  split; [reflexivity|]. split; [reflexivity|]. split; [cbn; lia|]. split; [apply Leaf.sane|]. split; [apply Leaf.leaves|].
  split.
  { apply (ty_distributive _ _ _ (@Permutation _) (@Permutation _) Anyhow Anyhow);
      [exact (ty_leaf _ _)|reflexivity|apply perm_additive|exact Logic.I|apply (proj1 (proj2 (C48_rowwise_operators_qualify _)))|exact Logic.I]. }
  split; [cbn; repeat constructor|].
  split; [cbn; repeat split; repeat constructor; discriminate|]. split; [cbn; repeat split; repeat constructor; cbn; lia|].
  split; [reflexivity|]. split; [vm_compute; repeat constructor|].
  split; [vm_compute; reflexivity|]. split; [apply Leaf.distributed_runs|]. split; [apply Leaf.single_runs|].
  split; [vm_compute; discriminate|]. split; [vm_compute; apply Permutation_refl|].
  intros HP. apply Permutation_length in HP. vm_compute in HP. discriminate.
Qed.
Print Assumptions C48_unsplit_leaf_refuted.
