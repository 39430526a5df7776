(** Vocabulary of the planner theorems: where a plan is cut into stages, which limits apply to a stage,
    and what a plan looks like after planning. *)
From Verif Require Import Base NetModel CiuModel CiuSpec EventsModel JoinModel JoinSpec PlannerModel.
From Coq Require Import ZArith.

Section Spec.
Context {row : Type}.
Notation tree := (tree row).

(** Is there a stage boundary above [c], and of which kind? A shuffle above a hash repartition, a
    broadcast above a BroadcastExec, and a coalesce below every other child of a
    CoalescePartitionsExec or SortPreservingMergeExec. *)
Definition cut (below_coalesce : bool) (c : tree) : option bkind :=
  if is_hash_repart c then Some BShuffle
  else if is_bcast c then Some BBroadcast
  else if below_coalesce then Some BCoalesce
  else None.

(** The partitions a boundary over [plan] in [tasks] tasks hands to its single consumer. *)
Definition boundary_partitioning (b : bkind) (plan : tree) (tasks : nat) : partitioning row :=
  match b with
  | BShuffle => tpartitioning plan
  | BBroadcast => UnknownP (tparts plan)
  | BCoalesce =>
      match tpartitioning plan with
      | RoundRobin n => RoundRobin (n * tasks)
      | HashP h n => HashP h (n * tasks)
      | RangeP n => RangeP (n * tasks)
      | UnknownP n => UnknownP (n * tasks)
      end
  end.

Variable cfg : settings row.

(** A leaf after scaling for [n] tasks. *)
Definition scaled (leaf : tree) (n : nat) (q : tree) : Prop :=
  match scale_up_leaf cfg leaf n with
  | None => q = leaf
  | Some r => r = Ok q
  end.

(** ** The plan after injection *)

(** [planned Q p n q]: [q] is [p] with its leaves scaled for the [n] tasks of the stage it runs in, with
    a boundary at every [cut] and nowhere else, and with the unions' children distributed over the
    tasks (each child gets all the tasks of some number between 1 and [n], see [good_allocation]). [Q c k] holds for every stage: [c] is the part of the original plan at its top and [k] its
    number of tasks; likewise for every child of a union and the tasks it is given. *)
Fixpoint planned (Q : tree -> nat -> Prop) (p : tree) (n : nat) (q : tree) : Prop :=
  let child (below : bool) (c : tree) (P : nat -> tree -> Prop) (n : nat) (q : tree) :=
    match cut below c with
    | None => P n q
    | Some b => exists tasks i,
        q = Net b (boundary_partitioning b i tasks) 0 0 tasks i /\ Q c tasks /\ P tasks i
    end in
  match p with
  | Node _ [] | Ciu _ _ [] => scaled p n q
  | Node k cs => exists qs,
      q = Node k qs /\
      Forall2 (fun P q => P q) (map (fun c => child (is_coalesce p) c (planned Q c) n) cs) qs
  | Ciu _ _ cs => exists w m qs,
      q = Ciu w m qs /\ split_children w n = Ok m /\ good_allocation w n m /\ List.length w = List.length cs /\
      (forall i c, nth_error cs i = Some c -> cut false c = None -> Q c (nth i (map_task_counts (List.length cs) m) 0)) /\
      Forall2 (fun P q => P q)
        (map (fun '(P, k) => P k)
          (combine (map (fun c => child false c (planned Q c)) cs) (map_task_counts (List.length cs) m))) qs
  | Net _ _ _ _ _ _ => False
  end.

(** The whole plan: the head stage is [p] itself unless it starts at a boundary. *)
Definition planned_root (Q : tree -> nat -> Prop) (p : tree) (n : nat) (q : tree) : Prop :=
  match cut false p with
  | None => Q p n /\ planned Q p n q
  | Some b => exists tasks i,
      q = Net b (boundary_partitioning b i tasks) 0 0 tasks i /\ Q p tasks /\ planned Q p tasks i
  end.

(** ** Limits *)

(** The hard maxima that apply to the stage with [p] at its top: those announced by handlers for nodes
    of the stage, and one task for leaves nobody can estimate, for joins that cannot be spread over
    tasks and for coalescing nodes above a coalesce boundary. The children of a union choose their own
    number of tasks. *)
Fixpoint announced (p : tree) : list nat :=
  let own := match desired_task_count cfg p with Ok (Some (Maximum k)) => [k] | _ => [] end in
  let below (b : bool) (c : tree) (l : list nat) : list nat :=
    match cut b c with
    | None => l
    | Some BCoalesce => [1]
    | Some _ => []
    end in
  match p with
  | Node _ [] | Ciu _ _ [] =>
      match desired_task_count cfg p with Ok None => [1] | _ => own end
  | Node (KJoin j _ _ _ _) cs =>
      own ++ (if one_task_join (broadcast_joins cfg) j then [1] else []) ++
      flat_map (fun c => below false c (announced c)) cs
  | Node k cs => own ++ flat_map (fun c => below (is_coalesce p) c (announced c)) cs
  | Ciu _ _ _ => []
  | Net _ _ _ _ _ _ => own
  end.

(** The maximum of tasks per stage: as configured; by default (zero) the number of workers. *)
Definition task_limit (most : nat) : Prop :=
  max_tasks_per_stage cfg = most /\ most <> 0 \/
  max_tasks_per_stage cfg = 0 /\ exists workers, worker_urls cfg = Ok workers /\ most = Nat.max workers 1.

(** A stage respects its limits. *)
Definition within_limits (most : nat) (c : tree) (tasks : nat) : Prop :=
  1 <= tasks <= most /\ forall k, In k (announced c) -> tasks <= k.

(** Handlers never ask for zero tasks. *)
Definition sane_handlers : Prop :=
  forall t a, desired_task_count cfg t = Ok (Some a) -> 1 <= as_usize a.

(** Scale-up handlers replace a leaf by a leaf. *)
Definition leaf_handlers : Prop :=
  forall t n q, scale_up_leaf cfg t n = Some (Ok q) -> exists l, q = Node (KLeaf l) [].

(** The largest number of children of a union. *)
Fixpoint union_width (t : tree) : nat :=
  match t with
  | Node KUnion cs => Nat.max (List.length cs) (list_max (map union_width cs))
  | Node _ cs => list_max (map union_width cs)
  | Ciu _ _ cs => Nat.max (List.length cs) (list_max (map union_width cs))
  | Net _ _ _ _ _ i => union_width i
  end.
(** Tasks and children of unions stay away from the precision of a double (see C07). *)
Definition fits (most : nat) (t : tree) : Prop :=
  (Z.of_nat most * (2 * Z.of_nat (union_width t) + 3) < 2 ^ 53)%Z.

(** ** The plan after preparation *)

(** A boundary between two single tasks disappears, provided task counts are chosen before execution. *)
Definition elided (consumers tasks : nat) : bool :=
  negb (dynamic_task_count cfg) && ((consumers =? 1) && (tasks =? 1)).

(** [deployed Q p s n d]: like [planned], for the final plan [d] in a stage executed by [n] tasks whose
    leaves and unions were scaled for [s] tasks ([s] and [n] differ in the head stage only). A boundary
    that is [elided] has disappeared; the others carry
    the query id, and the head of their plan produces the partitions of all [n] consumers. *)
Fixpoint deployed (Q : tree -> nat -> Prop) (p : tree) (s n : nat) (d : tree) : Prop :=
  let child (below : bool) (c : tree) (P : nat -> nat -> tree -> Prop) (s n : nat) (d : tree) :=
    match cut below c with
    | None => P s n d
    | Some b => exists tasks i,
        Q c tasks /\ P tasks tasks i /\
        if elided n tasks then d = i
        else exists num h plan,
          producer_head_of b (boundary_partitioning b i tasks) n = Ok h /\
          insert_head_node h i = Ok plan /\
          d = Net b (boundary_partitioning b i tasks) (query cfg) num tasks plan
    end in
  match p with
  | Node _ [] | Ciu _ _ [] => scaled p s d
  | Node k cs => exists ds,
      d = Node k ds /\
      Forall2 (fun P d => P d) (map (fun c => child (is_coalesce p) c (deployed Q c) s n) cs) ds
  | Ciu _ _ cs => exists w m ds,
      d = Ciu w m ds /\ split_children w s = Ok m /\ good_allocation w s m /\ List.length w = List.length cs /\
      (forall i c, nth_error cs i = Some c -> cut false c = None -> Q c (nth i (map_task_counts (List.length cs) m) 0)) /\
      Forall2 (fun P d => P d)
        (map (fun '(P, k) => P k)
          (combine (map (fun c k => child false c (deployed Q c) k k) cs)
                   (map_task_counts (List.length cs) m))) ds
  | Net _ _ _ _ _ _ => False
  end.

(** The numbers of the stages of a plan, inner stages before the stages that read them, in visiting
    order; and their query ids. *)
Fixpoint stage_nums (t : tree) : list nat :=
  match t with
  | Node _ cs | Ciu _ _ cs => flat_map stage_nums cs
  | Net _ _ _ num _ i => stage_nums i ++ [num]
  end.
Fixpoint stage_queries (t : tree) : list nat :=
  match t with
  | Node _ cs | Ciu _ _ cs => flat_map stage_queries cs
  | Net _ _ q _ _ i => stage_queries i ++ [q]
  end.

(** The numbers of tasks of the stages of a plan. *)
Fixpoint stage_tasks (t : tree) : list nat :=
  match t with
  | Node _ cs | Ciu _ _ cs => flat_map stage_tasks cs
  | Net _ _ _ _ tasks i => stage_tasks i ++ [tasks]
  end.

(** [everywhere P t count]: [P n x] for every ordinary node [x] of [t], [n] being the number of tasks
    that execute it, when [t] itself is executed by [count] tasks. *)
Fixpoint everywhere (P : nat -> tree -> Prop) (t : tree) (count : nat) : Prop :=
  match t with
  | Node _ cs => P count t /\ Forall (fun P => P) (map (fun c => everywhere P c count) cs)
  | Ciu _ m cs =>
      Forall (fun P => P)
        (map (fun '(P, n) => P n) (combine (map (everywhere P) cs) (map_task_counts (List.length cs) m)))
  | Net _ _ _ _ tasks i => everywhere P i tasks
  end.

(** A join that cannot be spread over tasks is executed by one task. *)
Definition joins_alone (n : nat) (t : tree) : Prop :=
  match t with
  | Node (KJoin j _ _ _ _) (_ :: _) => one_task_join (broadcast_joins cfg) j = true -> n = 1
  | _ => True
  end.
(** A coalescing node is executed by one task, unless it reads a shuffle or a broadcast. *)
Definition folds_alone (n : nat) (t : tree) : Prop :=
  match t with
  | Node (KCoalesce _ _) [Net BShuffle _ _ _ _ _] => True
  | Node (KCoalesce _ _) [Net BBroadcast _ _ _ _ _] => True
  | Node (KCoalesce _ _) [_] => n = 1
  | _ => True
  end.

(** Every boundary of [t] satisfies [B consumers boundary], [count] being the number of tasks of the
    stage of [t]. *)
Fixpoint all_boundaries (B : nat -> tree -> Prop) (t : tree) (count : nat) : Prop :=
  match t with
  | Node _ cs => Forall (fun P => P) (map (fun c => all_boundaries B c count) cs)
  | Ciu _ m cs =>
      Forall (fun P => P)
        (map (fun '(P, n) => P n) (combine (map (all_boundaries B) cs) (map_task_counts (List.length cs) m)))
  | Net _ _ _ _ tasks i => B count t /\ all_boundaries B i tasks
  end.

(** Preparation of a boundary: it does not join a single task to a single task, and the top of its input
    produces the partitions of all [count] consumers. *)
Definition prepared (count : nat) (t : tree) : Prop :=
  match t with
  | Net b part q _ tasks plan =>
      ~ (count = 1 /\ tasks = 1) /\
      exists h i, producer_head_of b part count = Ok h /\ insert_head_node h i = Ok plan
  | _ => False
  end.

(** A plan without its boundaries, the contents of its leaves and the weights of its unions. *)
Inductive skeleton :=
| SkLeaf
| SkNode (k : kind row) (cs : list skeleton)
| SkUnion (cs : list skeleton).
Fixpoint outline (t : tree) : skeleton :=
  match t with
  | Node _ [] | Ciu _ _ [] => SkLeaf
  | Node k cs => SkNode k (map outline cs)
  | Ciu _ _ cs => SkUnion (map outline cs)
  | Net _ _ _ _ _ i => outline i
  end.

(** An operator that needs its whole input in one partition. *)
Definition needs_whole_input (k : kind row) : bool :=
  match k with
  | KOp (OLocal SinglePartition _) | KOp (OAgg _ SinglePartition _) | KOp (OGlobalLimit _ _) => true
  | _ => false
  end.
(** DataFusion gives such an operator an input with one partition. *)
Fixpoint requirements_met (t : tree) : Prop :=
  match t with
  | Node k cs =>
      (needs_whole_input k = true -> map tparts cs = [1]) /\ Forall (fun P => P) (map requirements_met cs)
  | Ciu _ _ cs => Forall (fun P => P) (map requirements_met cs)
  | Net _ _ _ _ _ i => requirements_met i
  end.
(** ... and that input is whole if one task executes the operator. *)
Definition whole_alone (n : nat) (t : tree) : Prop :=
  match t with
  | Node k (_ :: _) => needs_whole_input k = true -> n = 1
  | _ => True
  end.

End Spec.
Arguments skeleton : clear implicits.
