(** Model of task counts chosen while the query runs ([dynamic_task_count]):
    src/coordinator/prepare_dynamic_plan.rs lines 28-192 and src/coordinator/distributed.rs lines 221-224,
    with the propagation of src/distributed_planner/inject_network_boundaries.rs lines 439-524 over
    boundaries whose stage is remote.

    The SamplerExec put below the head of a stage (line 81) is left out of the trees: it hands on the
    stream of its input (C37) and has its partitioning. Sampling itself is GatherModel. *)
From Coq Require Import NArith.
From Verif Require Import Base NetModel CiuModel EventsModel JoinModel PlannerModel.
Open Scope nat_scope.

Section Dyn.
Context {row : Type}.
Notation tree := (tree row).
Variable cfg : settings row.
(** [DistributedConfig::dynamic_bytes_per_partition]. *)
Variable bytes_per_partition : N.

(** [usize::div_ceil]: panics for a zero divisor. *)
Definition usize_div_ceil (a b : N) : Res N :=
  if (b =? 0)%N then Panic "attempt to divide by zero" else Ok ((a + b - 1) / b)%N.

(** Lines 62-68: the cost of the stage in bytes, over the bytes per partition, over the partitions of a
    task, between 1 and the allowed number of tasks. *)
Definition compute_based_task_count (cpu : N) (partitions most : nat) : Res nat :=
  let* a := usize_div_ceil cpu (N.max bytes_per_partition 1) in
  let* b := usize_div_ceil a (N.of_nat partitions) in
  Ok (N.to_nat (N.min (N.max b 1) (N.of_nat most))).

(** inject_network_boundaries.rs:439-524. A boundary whose stage is remote has no children, so it counts
    as a leaf (line 445) and the scale-up handlers are asked about it. *)
Fixpoint propagate_remote (t : tree) (count : nat) : Res tree :=
  match t with
  | Node _ [] | Ciu _ _ [] | Net _ _ _ _ _ _ =>
      match scale_up_leaf cfg t count with
      | None => Ok t
      | Some r => r
      end
  | Ciu w _ cs =>
      if negb (List.length cs =? List.length w) then Err "children and weights differ" else
      let* m := split_children w count in
      let* cs' := seqM (map (fun '(f, n) => f n)
                     (combine (map propagate_remote cs) (map_task_counts (List.length cs) m))) in
      Ok (Ciu w m cs')
  | Node k cs =>
      let* cs' := seqM (map (fun c => propagate_remote c count) cs) in
      Ok (Node k cs')
  end.

(** What the outside world contributes to the building of a stage: the outcome of [calculate_cost]
    (line 49; its cpu cost may be unknown), and of routing, sending and sampling the stage
    (lines 88-100, 108). *)
Record observation := mkObs { o_cost : Res (option N); o_started : Res unit }.

(** Lines 36-131, followed by the constructor of the boundary (inject_network_boundaries.rs:338-341,
    357-360, 379-391). [count] is the annotation of the stage (line 70). *)
Definition dynamic_boundary (obs : observation) (b : bkind) (t : tree) (count : annotation)
  : Res (tree * annotation) :=
  let* cost := o_cost obs in
  let* most := max_tasks cfg in
  let* n := compute_based_task_count (match cost with Some c => c | None => 0%N end) (tparts t) most in
  let count := merge count (Desired n) in
  let* plan := propagate_remote t (as_usize count) in
  let tasks := as_usize count in
  let* _ := o_started obs in
  match b with
  | BShuffle => Ok (Net BShuffle (tpartitioning plan) 0 0 tasks plan, Desired 1)
  | BBroadcast => Ok (Net BBroadcast (UnknownP (tparts plan)) 0 0 tasks plan, Desired 1)
  | BCoalesce =>
      let* p := scale_partitioning (tpartitioning plan) (fun p => p * Nat.max (div_ceil tasks 1) 1) in
      Ok (Net BCoalesce p 0 0 tasks plan, Maximum 1)
  end.

(** Line 34, for the observations [obs] made at the positions of the plan. *)
Definition dynamic_inject (obs : list nat -> observation) (t : tree) : Res (tree * annotation) :=
  inject_by cfg propagate_remote (fun at_ => dynamic_boundary (obs at_)) [] None t.

(** The number of a stage is taken from a counter when the walk reaches it
    (inject_network_boundaries.rs:329, 347, 370); which one depends on timing, [num] gives it for every
    position. Until here the stages carry 0. *)
Fixpoint number (num : list nat -> nat) (at_ : list nat) (t : tree) : tree :=
  match t with
  | Node k cs => Node k (map (fun '(f, i) => f (i :: at_))
                     (combine (map (fun c at_ => number num at_ c) cs) (seq 0 (List.length cs))))
  | Ciu w m cs => Ciu w m (map (fun '(f, i) => f (i :: at_))
                     (combine (map (fun c at_ => number num at_ c) cs) (seq 0 (List.length cs))))
  | Net b part _ _ tasks input => Net b part (query cfg) (num at_) tasks (number num (0 :: at_) input)
  end.

(** The plan that runs: a worker that is asked for the output of a stage puts the head for the asking
    stage's task count on top of it. The head looks at the top node and its partition count only, so it
    may be put there before or after the boundaries below are done. *)
Fixpoint connect (t : tree) (count : nat) : Res tree :=
  match t with
  | Node k cs => let* cs' := seqM (map (fun c => connect c count) cs) in Ok (Node k cs')
  | Ciu w m cs =>
      let* cs' := seqM (map (fun '(f, n) => f n)
                     (combine (map connect cs) (map_task_counts (List.length cs) m))) in
      Ok (Ciu w m cs')
  | Net b part q num tasks input =>
      let* input' := connect input tasks in
      let* h := producer_head_of b part count in
      let* plan := insert_head_node h input' in
      let* part' := restage b part tasks tasks in
      Ok (Net b part' q num tasks plan)
  end.

(** A stage built by the injection carries the number 0 in this model until [number] gives it one. A
    boundary with another number comes from the user, through [prepare_network_boundaries]; its stage was
    never sent to workers, and stage.rs:94-105 [LocalStage::execute] refuses to run it in several tasks.
    (Every boundary of a plan that runs is executed by some task.) *)
Fixpoint local_stages (t : tree) : Res unit :=
  match t with
  | Node _ cs | Ciu _ _ cs => let* _ := seqM (map local_stages cs) in Ok tt
  | Net _ _ _ num tasks input =>
      if negb (num =? 0) && (1 <? tasks) then Err "Cannot execute a local stage with more than 1 task"
      else local_stages input
  end.

(** distributed.rs:221-224 with [dynamic_task_count]: [p] is the plan below the coordinator node. *)
Definition dynamic_plan (obs : list nat -> observation) (num : list nat -> nat) (p : tree) : Res tree :=
  let* r := dynamic_inject obs p in
  let* _ := local_stages (fst r) in
  connect (number num [] (fst r)) 1.

(** ** Lines 153-191, the plan that is shown *)

(** A boundary whose stage is remote: the plan of the stage is gone. *)
Definition gone : tree := Node KUnion [].
Fixpoint remote (t : tree) : tree :=
  match t with
  | Node k cs => Node k (map remote cs)
  | Ciu w m cs => Ciu w m (map remote cs)
  | Net b part q num tasks _ => Net b part q num tasks gone
  end.
(** The map of the reconstructor (line 155), filled when a stage is done (line 120). *)
Fixpoint stage_map (t : tree) : list (nat * tree) :=
  match t with
  | Node _ cs | Ciu _ _ cs => flat_map stage_map cs
  | Net _ _ _ num _ input => stage_map input ++ [(num, remote input)]
  end.
(** [DashMap::remove]. *)
Fixpoint take (num : nat) (m : list (nat * tree)) : option (tree * list (nat * tree)) :=
  match m with
  | [] => None
  | (k, t) :: m =>
      if k =? num then Some (t, m)
      else match take num m with Some (t', m') => Some (t', (k, t) :: m') | None => None end
  end.
(** Children left to right, passing the map on. *)
Fixpoint thread {S : Type} (fs : list (S -> Res (tree * S))) (s : S) : Res (list tree * S) :=
  match fs with
  | [] => Ok ([], s)
  | f :: fs =>
      let* (x, s) := f s in
      let* (xs, s) := thread fs s in
      Ok (x :: xs, s)
  end.
(** Lines 163-191, [transform_down_with_task_count] (C14): the node first, then its new children. A plan
    from the map is not part of the tree, so the recursion is bounded by [fuel]. *)
Fixpoint reconstruct (fuel : nat) (t : tree) (count : nat) (m : list (nat * tree)) : Res (tree * list (nat * tree)) :=
  match fuel with
  | 0 => Panic "out of fuel"
  | S fuel =>
      match t with
      | Node k cs =>
          let* (cs', m) := thread (map (fun c => reconstruct fuel c count) cs) m in
          Ok (Node k cs', m)
      | Ciu w ctxs cs =>
          let* (cs', m) := thread (map (fun '(f, n) => f n)
             (combine (map (reconstruct fuel) cs) (map_task_counts (List.length cs) ctxs))) m in
          Ok (Ciu w ctxs cs', m)
      | Net b part q num tasks _ =>
          match take num m with
          | None => Err "Failed to retrieve plan for stage"
          | Some (plan, m) =>
              let* h := producer_head_of b part count in
              let* plan := insert_head_node h plan in
              let* part' := restage b part tasks tasks in
              let* (plan', m) := reconstruct fuel plan tasks m in
              Ok (Net b part' q num tasks plan', m)
          end
      end
  end.

End Dyn.
