(** Executions of physical plans: which rows the partitions of a plan yield in the tasks that execute it.
    Ordinary operators are DataFusion's; leaves, unions and network boundaries are executed by the
    functions modelled in EventsModel.v, CiuModel.v and NetModel.v. *)
From Verif Require Import Base NetModel NetSpec CiuModel EventsModel JoinModel JoinSpec PlannerModel.

Section Exec.
Context {row : Type}.
Notation tree := (tree row).

(** [f i p]: the rows of partition [p] in task [i]. The order of the rows is one of the possible orders;
    row order is not part of the model (see [Permutation] below). *)
Notation table := (nat -> nat -> list row).

(** [ExecutionPlan::execute] of a DataFusion operator on the rows of one partition. *)
Definition limit_to (fetch : option nat) (l : list row) : list row :=
  match fetch with Some n => firstn n l | None => l end.
Definition op_fun (o : op row) : list row -> list row :=
  match o with
  | OLocal _ F => F
  | OProj f => map f
  | OAgg m _ a => agg_fun a m
  | OSort s fetch => fun l => limit_to fetch (s l)
  | OGlobalLimit skip fetch => fun l => limit_to fetch (skipn skip l)
  | OLocalLimit n => firstn n
  end.

(** Executing partition [p] of a leaf. In a stage that was sent to workers ([remote]) every per-task leaf
    was replaced by the variant of its task (execution_plans/distributed_leaf.rs:138-140, called from
    coordinator/query_coordinator.rs when a plan is sent); in the head stage it is executed itself
    (distributed_leaf.rs:180-199). *)
Definition leaf_runs (remote : bool) (l : leaf_node row) (ctx : TaskCtx) (p : nat) (rows : list row) : Prop :=
  match l with
  | LScan l => lf_exec l p = Ok rows
  | LTasks d =>
      if remote
      then exists v, dle_to_task_specialized d (task_index ctx) = Ok v /\ lf_exec v p = Ok rows
      else dle_execute d ctx p = Ok rows
  end.

(** Executing a join in one task (DataFusion): [L p] and [R p] are the rows of the partitions of its
    inputs, [np] the number of right partitions. A partitioned join joins partition by partition. The
    other modes read the whole of left partition 0; a join type that emits rows for the left side does so
    when all partitions of the right side are done, in any partition. *)
Definition join_runs (j : join_op) (c : condition row) (na : list row -> list row -> list row)
    (np : nat) (L R : nat -> list row) (out : nat -> list row) : Prop :=
  let every (F : list row -> list row -> list row) :=
    forall p, p < np -> Permutation (out p) (F (L 0) (R p)) in
  let together (F : list row -> list row -> list row) :=
    Permutation (flat_map out (seq 0 np)) (F (L 0) (flat_map R (seq 0 np))) in
  match j with
  | HashJoin false _ ty => forall p, p < np -> Permutation (out p) (join ty c (L p) (R p))
  | HashJoin true true _ => together na
  | HashJoin true false ty | NestedLoop ty =>
      if is_left_broadcast_safe ty then every (join ty c) else together (join ty c)
  | Cross => every (cross c)
  end.

(** Executing a node in [n] tasks; [ps] are the partition counts of its inputs and [fs] the rows of their
    partitions. Streams end without error. DataFusion refuses to merge the partitions of an input without
    partitions, to join partition by partition when the numbers of partitions differ, and to collect a
    left side that does not have exactly one partition. *)
Definition node_runs (remote : bool) (k : kind row) (ps : list nat) (n : nat) (fs : list table) (f : table)
  : Prop :=
  match k, fs with
  | KLeaf l, [] => forall i p, i < n -> p < leaf_parts l -> leaf_runs remote l (mkCtx i n) p (f i p)
  | KRepart part, [g] => forall i p, i < n -> p < partition_count part ->
      exists rows, exec (SRepart part (SOther (nth 0 ps 0) (g i))) p = Ok rows /\ Permutation (f i p) rows
  | KBcast m, [g] => forall i p, i < n -> p < nth 0 ps 0 * m ->
      exists rows, exec (SBcast m (SOther (nth 0 ps 0) (g i))) p = Ok rows /\ Permutation (f i p) rows
  | KCoalesce _ fetch, [g] => 1 <= nth 0 ps 0 /\ forall i, i < n ->
      exists l, Permutation l (flat_map (g i) (seq 0 (nth 0 ps 0))) /\ f i 0 = limit_to fetch l
  | KUnion, _ => forall i c g p, i < n -> nth_error fs c = Some g -> p < nth c ps 0 ->
      Permutation (f i (list_sum (firstn c ps) + p)) (g i p)
  | KJoin j c _ _ na, [l; r] => forall i, i < n ->
      (match j with HashJoin false _ _ => nth 0 ps 0 = nth 1 ps 0 | _ => nth 0 ps 0 = 1 end) /\
      join_runs j c na (nth 1 ps 0) (l i) (r i) (f i)
  | KOp o, [g] => forall i p, i < n -> p < nth 0 ps 0 ->
      exists l, Permutation l (g i p) /\ Permutation (f i p) (op_fun o l)
  | _, _ => False
  end.

(** Executing a boundary whose input stage runs in [tasks] worker tasks holding [producers]. *)
Definition boundary_execute (b : bkind) (part : partitioning row) (tasks : nat) (producers : nat -> splan row)
  : TaskCtx -> nat -> Res (list (list row)) :=
  match b with
  | BShuffle => shuffle_execute producers (mkShuffle part (Remote tasks) tasks)
  | BBroadcast => broadcast_execute producers (mkBroadcast (partition_count part) (Remote tasks) tasks)
  | BCoalesce => coalesce_execute producers (mkCoalesce part (Remote tasks) tasks)
  end.

(** The rows that a boundary hands on in [n] tasks. The RepartitionExec at the head of the tasks below a
    shuffle reads its input partitions concurrently, so the rows of its streams come in any order. *)
Definition boundary_yields (b : bkind) (part : partitioning row) (tasks : nat) (producers : nat -> splan row)
    (n : nat) (f : table) : Prop :=
  let observed := observes (boundary_execute b part tasks producers) n (partition_count part) in
  match b with
  | BShuffle => exists f0, observed f0 /\
      forall i p, i < n -> p < partition_count part -> Permutation (f i p) (f0 i p)
  | _ => observed f
  end.

(** The children of an isolated union, as its [execute] sees them. *)
Definition isolated_children (cs : list tree) (fs : list table) : list (child row) :=
  map (fun '(c, g) => mkChild (tparts c) (fun ctx p => Ok (g (task_index ctx) p))) (combine cs fs).

(** [runs remote t n f]: [f] is what the partitions of [t] may yield when it is executed by [n] tasks. *)
Fixpoint runs (remote : bool) (t : tree) (n : nat) (f : table) {struct t} : Prop :=
  match t with
  | Node k cs => exists fs,
      Forall2 (fun R g => R g) (map (fun c => runs remote c n) cs) fs /\
      node_runs remote k (map tparts cs) n fs f
  | Ciu w m cs => exists fs,
      Forall2 (fun R g => R g)
        (map (fun '(R, k) => R k) (combine (map (runs remote) cs) (map_task_counts (List.length cs) m))) fs /\
      forall i p, i < n -> p < tparts t -> exists rows,
        ciu_execute (mkCiu (tparts t) (isolated_children cs fs) w m) (mkCtx i n) p = Ok rows /\
        Permutation (f i p) rows
  | Net b part _ _ tasks plan =>
      let observed := fun producers => boundary_yields b part tasks producers n f in
      match plan with
      | Node (KRepart p) [c] => exists g, runs true c tasks g /\
          observed (fun t => SRepart p (SOther (tparts c) (g t)))
      | Node (KBcast m) [c] => exists g, runs true c tasks g /\
          observed (fun t => SBcast m (SOther (tparts c) (g t)))
      | _ => exists g, runs true plan tasks g /\ observed (fun t => SOther (tparts plan) (g t))
      end
  end.

(** All rows of an execution. *)
Definition all_rows (t : tree) (n : nat) (f : table) : list row := consumer_rows n (tparts t) f.

End Exec.
