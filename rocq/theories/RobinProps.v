(** Property C48: a round-robin repartition directly below a coalescing operator, or at the root of the plan, loses
    rows. *)
From Verif Require Import Base NetModel NetSpec CiuModel EventsModel EventsSpec JoinModel JoinSpec PlannerModel
  PlannerSpec ExecModel ExecSpec ExecProofs EventsProps ExecProps.

Module Robin.
Definition row := (nat * nat)%type.
(** Seven files in three groups. *)
Definition files (k : nat) : list (list (list row)) :=
  [[[(0, k)]; [(1, k)]; [(2, k)]]; [[(3, k)]; [(4, k)]]; [[(5, k)]; [(6, k)]]].
Definition file_scan (k : nat) : tree row := Node (KLeaf (LScan (scan k (files k)))) [].
Definition split (t : tree row) (s : nat) : option (Res (tree row)) :=
  match t with
  | Node (KLeaf (LScan l)) [] =>
      Some (match file_scan_scale_up (fun _ _ => None) (lf_schema l) (files (lf_schema l)) 3 true s with
            | Ok d => Ok (Node (KLeaf (LTasks d)) [])
            | Err e => Err e
            | Panic e => Panic e
            end)
  | _ => None
  end.
Definition cfg : settings row :=
  mkSettings true true false false 0 (CiuModel.f64_div (f64_of_nat 3) (f64_of_nat 2)) 4 (Ok 3)
    ExecProps.Ex.wanted split (fun _ => EEqual) 77.
(** [df.repartition(RoundRobinBatch(2))] over the files. *)
Definition query : tree row := Node (KRepart (RoundRobin 2)) [file_scan 5].
Definition distributed : tree row :=
  match create_distributed_plan cfg (TPlan query) with Ok (TDistributed d) => d | _ => Node KUnion [] end.

Lemma sane : sane_handlers cfg.
Proof.
  intros t a E. cbn [cfg desired_task_count] in E. unfold ExecProps.Ex.wanted in E.
  destruct t as [[]| |]; injection E; intros; subst; cbn; lia || discriminate.
Qed.
Lemma leaves : leaf_handlers cfg.
Proof.
  intros t n q E. cbn [cfg scale_up_leaf] in E. unfold split in E.
  destruct t as [[[l|]| | | | | |] []| |]; try discriminate. destruct (file_scan_scale_up _ _ _ _ _ _); try discriminate.
  injection E as <-. eauto.
Qed.
Lemma scans k : faithful_scan cfg 3 (LScan (scan k (files k))).
Proof.
  apply (C48_file_scans_qualify row cfg 3 (fun _ _ => None) k (files k) 3 true).
  - discriminate.
  - intros s. reflexivity.
  - intros s d E. destruct s as [|s]; [discriminate|].
    destruct (C22_preset_scan row (fun _ _ => None) k (files k) 3 (S s)) as (d' & E' & Hl & Hv & _); [lia|lia|].
    rewrite E in E'. injection E' as <-. destruct (dle_variants d) as [|v vs]; [discriminate|].
    exact (proj2 (Hv v (or_introl eq_refl))).
Qed.

(** The stage below the coordinator: the scan, without the repartition. *)
Definition scan_of_tasks : dle row :=
  match distributed with
  | Node _ [Net _ _ _ _ _ (Node (KLeaf (LTasks d)) _)] => d
  | _ => mkDle (scan 0 []) 0 []
  end.
Definition rows_or_none (r : Res (list row)) : list row := match r with Ok l => l | _ => [] end.
Definition read (i p : nat) : list row :=
  match dle_to_task_specialized scan_of_tasks i with Ok v => rows_or_none (lf_exec v p) | _ => [] end.
Definition received (i p : nat) : list row :=
  match boundary_execute BCoalesce (RoundRobin 6) 3 (fun t => SOther 3 (read t)) (mkCtx i 1) p with
  | Ok l => List.concat l | _ => [] end.
Definition outcome (i _ : nat) : list row := flat_map (received i) (seq 0 6).
Definition groups (i p : nat) : list row := rows_or_none (lf_exec (scan 5 (files 5)) p).
Definition single (i p : nat) : list row := rows_or_none (exec (SRepart (RoundRobin 2) (SOther 3 (groups i))) p).

Lemma distributed_shape : distributed = Node (KCoalesce None None)
  [Net BCoalesce (RoundRobin 6) 77 1 3 (Node (KLeaf (LTasks scan_of_tasks)) [])].
Proof. vm_compute. reflexivity. Qed.

Ltac cases_below i := repeat (destruct i as [|i]; [|try lia]).
Lemma distributed_runs : runs false distributed 1 outcome.
Proof.
  rewrite distributed_shape. exists [received]. split.
  - constructor; [|constructor]. exists read. split.
    + exists []. split; [constructor|]. intros i p Hi Hp. change (leaf_parts (LTasks scan_of_tasks)) with 3 in Hp.
      cases_below i; cases_below p; vm_compute; eexists; split; reflexivity.
    + intros i p Hi Hp. change (partition_count (RoundRobin 6)) with 6 in Hp.
      cases_below i; cases_below p; (eexists; split; [vm_compute; reflexivity|apply merge_concat]).
  - split; [vm_compute; lia|]. intros i Hi. eexists. split; [|reflexivity]. cases_below i. apply Permutation_refl.
Qed.
Lemma single_runs : runs false query 1 single.
Proof.
  exists [groups]. split.
  - constructor; [|constructor]. exists []. split; [constructor|]. intros i p Hi Hp.
    change (leaf_parts (LScan (scan 5 (files 5)))) with 3 in Hp. cases_below i; cases_below p; reflexivity.
  - intros i p Hi Hp. change (partition_count (RoundRobin 2)) with 2 in Hp.
    cases_below i; cases_below p; vm_compute; eexists; split; reflexivity || apply Permutation_refl.
Qed.
End Robin.

(** C48 without the condition on round-robin repartitions: the plan of a repartition into fewer partitions than the
    scan has is distributed into one that leaves out the rows of the partitions beyond. The repartition is taken away
    when the stage is prepared (ProducerHead::insert), and the consumer reads as many partitions as the repartition had. *)
Theorem C48_round_robin_refuted :
  exists (cfg : settings (nat * nat)) t d f g,
    max_tasks cfg = Ok 3 /\ dynamic_task_count cfg = false /\ 0 < target_partitions cfg /\
    sane_handlers cfg /\ leaf_handlers cfg /\
    typed (partial_reduce cfg) t (@Permutation _) Anyhow /\ ordinary t /\ fed t /\ spreadable t /\
    every_scan (faithful_scan cfg 3) t /\ fits 3 t /\
    create_distributed_plan cfg (TPlan t) = Ok (TDistributed d) /\
    runs false d 1 f /\ runs false t 1 g /\
    In (6, 5) (all_rows t 1 g) /\ ~ In (6, 5) (all_rows d 1 f) /\
    ~ Permutation (all_rows d 1 f) (all_rows t 1 g).
Proof.
  exists Robin.cfg, Robin.query, Robin.distributed, Robin.outcome, Robin.single.
  split; [reflexivity|]. split; [reflexivity|]. split; [cbn; lia|]. split; [apply Robin.sane|]. split; [apply Robin.leaves|].
  split; [eapply ty_round_robin; [lia|constructor]|]. split; [cbn; repeat constructor|].
  split; [cbn; repeat split; repeat constructor; discriminate|]. split; [cbn; repeat split; repeat constructor; cbn; lia|].
  split; [cbn; repeat constructor; apply Robin.scans|]. split; [vm_compute; repeat constructor|].
  split; [vm_compute; reflexivity|]. split; [apply Robin.distributed_runs|]. split; [apply Robin.single_runs|].
  assert (H1 : In (6, 5) (all_rows Robin.query 1 Robin.single)) by (vm_compute; intuition).
  assert (H2 : ~ In (6, 5) (all_rows Robin.distributed 1 Robin.outcome)).
  { vm_compute. intros H. repeat (destruct H as [H|H]; [discriminate|]). exact H. }
  split; [exact H1|]. split; [exact H2|]. intros HP. apply H2. eapply Permutation_in; [symmetry; exact HP|exact H1].
Qed.
Print Assumptions C48_round_robin_refuted.
