(** Executions of physical plans with the order of rows.

    [runs] (ExecModel.v) tells which rows the partitions of a plan yield. Here they are sequences, because
    some operators of DataFusion rely on the order of their input: window functions, aggregates over
    sorted groups, streaming distinct. *)
From Verif Require Import Base NetModel NetSpec CiuModel EventsModel JoinModel JoinSpec PlannerModel ExecModel.
From Coq Require Import Sorting.Sorted.

Section Order.
Context {row : Type}.
Notation tree := (tree row).
Notation table := (nat -> nat -> list row).

(** [acts o l out]: the operator [o], given the rows [l] of a partition in this order, may yield [out]. *)
Variable acts : op row -> list row -> list row -> Prop.

(** Joins that yield, for every row of the probe side in turn, the rows it takes part in (DataFusion
    HashJoinExec and NestedLoopJoinExec [maintains_input_order]). *)
Definition probe_order (j : join_op) : option join_type :=
  match j with
  | HashJoin true true _ | Cross => None
  | HashJoin _ _ ty | NestedLoop ty => if is_left_broadcast_safe ty then Some ty else None
  end.
Definition build_rows (j : join_op) (L : nat -> list row) (p : nat) : list row :=
  match j with HashJoin false _ _ => L p | _ => L 0 end.
Definition in_probe_order (j : join_op) (c : condition row) (np : nat) (L R out : nat -> list row) : Prop :=
  forall ty, probe_order j = Some ty -> forall p, p < np -> exists blocks,
    Forall2 (fun r b => Permutation b (join ty c (build_rows j L p) [r])) (R p) blocks /\
    out p = List.concat blocks.

(** Executing a node in [n] tasks, as [node_runs]. A RepartitionExec reads its input partitions
    concurrently, but keeps the order of a single one (DataFusion [maintains_input_order]; its
    [preserve_order] flag is not modelled). A SortPreservingMergeExec merges sorted streams into a sorted
    one, a CoalescePartitionsExec interleaves its input partitions. *)
Definition node_delivers (remote : bool) (k : kind row) (ps : list nat) (n : nat) (fs : list table) (f : table)
  : Prop :=
  match k, fs with
  | KLeaf l, [] => forall i p, i < n -> p < leaf_parts l -> leaf_runs remote l (mkCtx i n) p (f i p)
  | KRepart part, [g] => forall i p, i < n -> p < partition_count part ->
      exists rows, exec (SRepart part (SOther (nth 0 ps 0) (g i))) p = Ok rows /\ Permutation (f i p) rows /\
        (nth 0 ps 0 <= 1 -> f i p = rows)
  | KBcast m, [g] => forall i p, i < n -> p < nth 0 ps 0 * m ->
      exec (SBcast m (SOther (nth 0 ps 0) (g i))) p = Ok (f i p)
  | KCoalesce spm fetch, [g] => 1 <= nth 0 ps 0 /\ forall i, i < n ->
      exists l, merge_of (map (g i) (seq 0 (nth 0 ps 0))) l /\
        match spm with
        | Some le => (forall p, p < nth 0 ps 0 -> StronglySorted le (g i p)) -> StronglySorted le l
        | None => True
        end /\
        f i 0 = limit_to fetch l
  | KUnion, _ => forall i c g p, i < n -> nth_error fs c = Some g -> p < nth c ps 0 ->
      f i (list_sum (firstn c ps) + p) = g i p
  | KJoin j c _ _ na, [l; r] => node_runs remote k ps n fs f /\
      forall i, i < n -> in_probe_order j c (nth 1 ps 0) (l i) (r i) (f i)
  | KOp o, [g] => forall i p, i < n -> p < nth 0 ps 0 -> acts o (g i p) (f i p)
  | _, _ => False
  end.

(** What a task of a stage sends for one partition, given the rows [canon] of the partition in the order
    of the input partitions, [P] of them. The RepartitionExec that heads the tasks below a shuffle
    (network_boundary.rs:100-103; built with [RepartitionExec::try_new], so without [preserve_order])
    reads its input partitions concurrently. *)
Definition sent (b : bkind) (P : nat) (canon s : list row) : Prop :=
  match b with
  | BShuffle => Permutation s canon /\ (P <= 1 -> s = canon)
  | _ => s = canon
  end.

(** A boundary interleaves the streams of the producer tasks (network_shuffle.rs:247-251,
    network_broadcast.rs:271-275: [select_all]). *)
Definition boundary_delivers (b : bkind) (part : partitioning row) (tasks P : nat) (producers : nat -> splan row)
    (n : nat) (f : table) : Prop :=
  forall i p, i < n -> p < partition_count part -> exists canon streams,
    boundary_execute b part tasks producers (mkCtx i n) p = Ok canon /\
    Forall2 (sent b P) canon streams /\ merge_of streams (f i p).

(** [delivers remote t n f]: [f] is what the partitions of [t] may yield, in this order, when it is
    executed by [n] tasks; as [runs]. *)
Fixpoint delivers (remote : bool) (t : tree) (n : nat) (f : table) {struct t} : Prop :=
  match t with
  | Node k cs => exists fs,
      Forall2 (fun R g => R g) (map (fun c => delivers remote c n) cs) fs /\
      node_delivers remote k (map tparts cs) n fs f
  | Ciu w m cs => exists fs,
      Forall2 (fun R g => R g)
        (map (fun '(R, k) => R k) (combine (map (delivers remote) cs) (map_task_counts (List.length cs) m))) fs /\
      forall i p, i < n -> p < tparts t ->
        ciu_execute (mkCiu (tparts t) (isolated_children cs fs) w m) (mkCtx i n) p = Ok (f i p)
  | Net b part _ _ tasks plan =>
      match plan with
      | Node (KRepart p) [c] => exists g, delivers true c tasks g /\
          boundary_delivers b part tasks (tparts c) (fun t => SRepart p (SOther (tparts c) (g t))) n f
      | Node (KBcast m) [c] => exists g, delivers true c tasks g /\
          boundary_delivers b part tasks (tparts c) (fun t => SBcast m (SOther (tparts c) (g t))) n f
      | _ => exists g, delivers true plan tasks g /\
          boundary_delivers b part tasks (tparts plan) (fun t => SOther (tparts plan) (g t)) n f
      end
  end.

End Order.
