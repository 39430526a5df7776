(** Model of the pictures of plans (stage.rs:625-1049, [display_plan_graphviz]).

    Simplified: the text is represented by the boxes and arrows that it contains, without colours and layout; a box is named
    by operator, stage, task and index (the text joins them by underscores; the last three are numbers, so the text
    determines all four). Only plans with local stages, which is what the planner returns and what the coordinator
    reconstructs after execution (prepare_dynamic_plan.rs:163-199); for a remote stage the function returns an error
    (lines 706-708, 945-950). *)
From Coq Require Import String.
From Verif Require Import Base.

(** network_shuffle.rs, network_coalesce.rs, network_broadcast.rs. *)
Inductive bkind := BShuffle | BCoalesce | BBroadcast.

(** A plan with what is drawn of it: names ([ExecutionPlan::name]) and partition counts; a boundary has the number, the
    task count and the plan of its input stage. *)
Inductive vplan :=
| VOp (name : string) (parts : nat) (cs : list vplan)
| VBoundary (k : bkind) (parts num tasks : nat) (input : vplan).

(** [ExecutionPlan::name] (network_shuffle.rs:184-186 and its siblings). *)
Definition bname (k : bkind) : string :=
  match k with BShuffle => "NetworkShuffleExec" | BCoalesce => "NetworkCoalesceExec" | BBroadcast => "NetworkBroadcastExec" end.
Definition vname (p : vplan) : string := match p with VOp n _ _ => n | VBoundary k _ _ _ _ => bname k end.
Definition vparts (p : vplan) : nat := match p with VOp _ n _ => n | VBoundary _ n _ _ _ => n end.
(** [ExecutionPlan::children]: a boundary shows the plan of its local stage (network_shuffle.rs:190-195). *)
Definition vchildren (p : vplan) : list vplan := match p with VOp _ _ cs => cs | VBoundary _ _ _ _ input => [input] end.

(** Number of nodes, with the input stages. *)
Fixpoint vsize (p : vplan) : nat :=
  match p with VOp _ _ cs => S (list_sum (map vsize cs)) | VBoundary _ _ _ _ input => S (vsize input) end.

(** A stage: number, tasks, plan. *)
Record vstage := mkVStage { vs_num : nat; vs_tasks : nat; vs_plan : vplan }.

(** stage.rs:1040-1049. *)
Fixpoint find_all_stages (p : vplan) : list vstage :=
  match p with
  | VOp _ _ cs => flat_map find_all_stages cs
  | VBoundary _ _ num tasks input => mkVStage num tasks input :: find_all_stages input
  end.
(** stage.rs:1028-1038: what the loop does with a child. *)
Fixpoint input_stages_of_child (c : vplan) : list vstage :=
  match c with
  | VOp _ _ cs => flat_map input_stages_of_child cs
  | VBoundary _ _ num tasks input => [mkVStage num tasks input]
  end.
Definition find_input_stages (p : vplan) : list vstage := flat_map input_stages_of_child (vchildren p).

(** The loops over a queue (lines 759-774, 782-818 and 953-1011): visited nodes with their index and that of their
    parent. [next]: the children that are put in the queue. [fuel] is never exhausted (GraphProofs.bfs_fuel). *)
Fixpoint bfs (next : vplan -> list vplan) (fuel index : nat) (queue : list (vplan * option nat)) : list (nat * vplan * option nat) :=
  match fuel, queue with
  | S fuel, (p, parent) :: queue => (S index, p, parent) :: bfs next fuel (S index) (queue ++ map (fun c => (c, Some (S index))) (next p))
  | _, _ => []
  end.

(** Lines 768-773 and 811-817: boundaries are not entered. *)
Definition next_drawn (p : vplan) : list vplan := match p with VOp _ _ cs => cs | VBoundary _ _ _ _ _ => [] end.
(** Lines 957-1010: only shuffles and coalesces are not entered. *)
Definition next_linked (p : vplan) : list vplan :=
  match p with VBoundary BShuffle _ _ _ _ | VBoundary BCoalesce _ _ _ _ => [] | _ => vchildren p end.

Definition visit (next : vplan -> list vplan) (p : vplan) : list (nat * vplan * option nat) := bfs next (vsize p) 0 [(p, None)].

(** The name of a box. *)
Record vid := mkVid { id_name : string; id_stage : nat; id_task : nat; id_index : nat }.
(** A box: its name, its ports at the top (t0, t1, …) and at the bottom (b0, b1, …). *)
Record vnode := mkVNode { vn_id : vid; vn_top : nat; vn_bottom : nat }.
(** An arrow from a port at the top of a box to one at the bottom of another. *)
Record vedge := mkVEdge { ve_from : vid; ve_top : nat; ve_to : vid; ve_bottom : nat }.

(** Lines 865-937 [display_single_plan]. *)
Definition display_single_plan (p : vplan) (stage_num task_i index : nat) : vnode :=
  let input_partitions :=
    match p with
    | VBoundary _ n _ _ _ => n
    | VOp _ _ (child :: _) => vparts child
    | VOp _ _ [] => 1
    end in
  mkVNode (mkVid (vname p) stage_num task_i index) (vparts p) input_partitions.

(** Lines 749-774, the boxes of [display_plan]. *)
Definition plan_nodes (p : vplan) (task_i stage_num : nat) : list vnode :=
  map (fun '(index, q, _) => display_single_plan q stage_num task_i index) (visit next_drawn p).
(** The name of the box that has the given index: lines 800-803 take the name of the parent from the queue. *)
Definition name_at (l : list (nat * vplan * option nat)) (index : nat) : string :=
  match find (fun '(i, _, _) => i =? index) l with Some (_, q, _) => vname q | None => EmptyString end.
(** Lines 776-819, the arrows of [display_plan]. *)
Definition plan_edges (p : vplan) (task_i stage_num : nat) : list vedge :=
  let l := visit next_drawn p in
  flat_map (fun '(index, q, parent) =>
    match parent with
    | None => []
    | Some pi => map (fun i => mkVEdge (mkVid (vname q) stage_num task_i index) i (mkVid (name_at l pi) stage_num task_i pi) i) (seq 0 (vparts q))
    end) l.

(** Lines 939-1014 [display_inter_task_edges]; [/] by zero panics, which needs a stage without tasks, and then the loop
    around it does not call it. *)
Definition inter_task_edges (stage : vstage) (task_i : nat) (input : vstage) (input_task_i : nat) : list vedge :=
  flat_map (fun '(index, q, _) =>
    let from := mkVid (vname (vs_plan input)) (vs_num input) input_task_i 1 in
    let to := mkVid (vname q) (vs_num stage) task_i index in
    match q with
    | VBoundary BShuffle output_partitions num _ _ =>
        if num =? vs_num input then map (fun p => mkVEdge from (p + task_i * output_partitions) to p) (seq 0 output_partitions) else []
    | VBoundary BCoalesce output_partitions num _ _ =>
        if num =? vs_num input then
          let per_task := output_partitions / vs_tasks input in
          map (fun p => mkVEdge from p to (p + input_task_i * per_task)) (seq 0 per_task)
        else []
    | _ => []
    end) (visit next_linked (vs_plan stage)).

(** Lines 670-692. *)
Definition stage_edges (stage : vstage) : list vedge :=
  flat_map (fun input => flat_map (fun task_i => flat_map (fun input_task_i => inter_task_edges stage task_i input input_task_i)
    (seq 0 (vs_tasks input))) (seq 0 (vs_tasks stage))) (find_input_stages (vs_plan stage)).

(** Lines 648-661: the stages that are drawn; the head stage has the next number and one task. *)
Definition drawn_stages (p : vplan) : list vstage :=
  let stages := find_all_stages p in
  mkVStage (fold_right Nat.max 0 (map vs_num stages) + 1) 1 p :: stages.

(** Lines 636-703 for a plan whose head is DistributedExec: boxes, arrows within tasks, arrows between tasks. *)
Definition graph_nodes (p : vplan) : list vnode :=
  flat_map (fun s => flat_map (fun i => plan_nodes (vs_plan s) i (vs_num s)) (seq 0 (vs_tasks s))) (drawn_stages p).
Definition graph_inner (p : vplan) : list vedge :=
  flat_map (fun s => flat_map (fun i => plan_edges (vs_plan s) i (vs_num s)) (seq 0 (vs_tasks s))) (drawn_stages p).
Definition graph_between (p : vplan) : list vedge := flat_map stage_edges (drawn_stages p).

(** Lines 710, 722, 1016-1026: the partitions in the label of a task. *)
Definition build_partition_group (task_i partitions : nat) : list nat := seq (task_i * partitions) partitions.
