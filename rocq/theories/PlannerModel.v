(** Model of the distributed planner: join normalisation, broadcasts, isolated unions, injection of
    network boundaries with the choice of task counts, preparation of the boundaries, and the driver.
    Source: src/distributed_planner/{distributed_query_planner, normalize_collect_joins,
    insert_broadcast, insert_children_isolator_union, inject_network_boundaries,
    prepare_network_boundaries, partial_reduce_below_network_shuffles,
    push_fetch_into_network_coalesce}.rs. *)
From Verif Require Import Base NetModel CiuModel EventsModel JoinModel JoinSpec.
From Coq Require Import ZArith NArith SpecFloat.

(** [collect::<Result<Vec<_>>>] over already evaluated results. *)
Definition seqM {A} (l : list (Res A)) : Res (list A) := mapM (fun x => x) l.

(** A [for] loop threading a counter. *)
Fixpoint seqS {A S} (l : list (S -> Res (A * S))) (s : S) : Res (list A * S) :=
  match l with
  | [] => Ok ([], s)
  | f :: rest =>
      let* r := f s in
      let '(x, s) := r in
      let* r := seqS rest s in
      let '(xs, s) := r in Ok (x :: xs, s)
  end.

Section Planner.
Context {row : Type}.

(** ** Plans *)

(** DataFusion [Distribution], the requirement of an operator on the partitioning of its input. The
    planner of this crate never looks at it; it is used to state which plans are meaningful. *)
Inductive requirement := AnyDistribution | SinglePartition | HashPartitioned (key_hash : row -> nat).

(** DataFusion [AggregateMode] (the two final and the two single modes are not told apart). *)
Inductive agg_mode := APartial | APartialReduce | AFinal | ASingle.

(** What an AggregateExec computes on the rows of one partition, by mode. *)
Record agg := mkAgg {
  agg_partial : list row -> list row; agg_reduce : list row -> list row;
  agg_final : list row -> list row; agg_single : list row -> list row
}.
Definition agg_fun (a : agg) (m : agg_mode) : list row -> list row :=
  match m with
  | APartial => agg_partial a | APartialReduce => agg_reduce a
  | AFinal => agg_final a | ASingle => agg_single a
  end.

(** Operators with one input that work on each partition on its own. *)
Inductive op :=
| OLocal (req : requirement) (F : list row -> list row)  (* filter, window, sort, ... *)
| OProj (f : row -> row)                                 (* ProjectionExec *)
| OAgg (m : agg_mode) (req : requirement) (a : agg)      (* AggregateExec *)
| OSort (sort : list row -> list row) (fetch : option nat) (* SortExec preserving partitions *)
| OGlobalLimit (skip : nat) (fetch : option nat)         (* GlobalLimitExec *)
| OLocalLimit (fetch : nat).                             (* LocalLimitExec *)

(** A leaf: a scan, or the per-task variants made by the scale-up handlers. *)
Inductive leaf_node := LScan (l : leaf row) | LTasks (d : dle row).

(** Nodes. [KCoalesce None fetch] is CoalescePartitionsExec and [KCoalesce (Some le) fetch] SortPreservingMergeExec by [le]. A join carries
    its condition, the hashes of its key columns and, for null-aware joins, its result as a function of
    the complete inputs. *)
Inductive kind :=
| KLeaf (l : leaf_node)
| KRepart (p : partitioning row)
| KBcast (consumer_task_count : nat)
| KCoalesce (spm : option (row -> row -> Prop)) (fetch : option nat)
| KUnion
| KJoin (j : join_op) (c : condition row) (lhash rhash : row -> nat)
        (null_aware_result : list row -> list row -> list row)
| KOp (o : op).

Inductive bkind := BShuffle | BBroadcast | BCoalesce.

(** Plan trees: ordinary nodes, ChildrenIsolatorUnionExec (children_isolator_union.rs:87-102), and the
    network boundaries with their input stage in Local state (network_shuffle.rs:103-108,
    network_broadcast.rs:121-125, network_coalesce.rs:79-83, stage.rs:76-92). *)
Inductive tree :=
| Node (k : kind) (cs : list tree)
| Ciu (weights : list ChildWeight) (m : list slot) (cs : list tree)
| Net (b : bkind) (part : partitioning row) (query_id num tasks : nat) (input : tree).

Definition children (t : tree) : list tree :=
  match t with Node _ cs | Ciu _ _ cs => cs | Net _ _ _ _ _ i => [i] end.

Definition leaf_parts (l : leaf_node) : nat :=
  match l with LScan l => lf_parts l | LTasks d => dle_parts d end.

(** Partitions read by one slot of an isolated union (children_isolator_union.rs:169-173); a child index
    out of bounds does not occur (C07). *)
Definition slot_parts (child_parts : list nat) (s : slot) : nat :=
  list_sum (map (fun '(i, _) => nth i child_parts 0) s).

(** [output_partitioning().partition_count()]. *)
Fixpoint tparts (t : tree) : nat :=
  match t with
  | Node k cs =>
      let ps := map tparts cs in
      match k with
      | KLeaf l => leaf_parts l
      | KRepart p => partition_count p
      | KBcast n => nth 0 ps 0 * n
      | KCoalesce _ _ => 1
      | KUnion => list_sum ps
      | KJoin (HashJoin false _ _) _ _ _ _ => nth 0 ps 0
      | KJoin _ _ _ _ _ => nth 1 ps 0
      | KOp _ => nth 0 ps 0
      end
  | Ciu _ m cs => list_max (map (slot_parts (map tparts cs)) m)
  | Net _ part _ _ _ _ => partition_count part
  end.

(** [output_partitioning]; simplified to Unknown for operators other than RepartitionExec, as in
    NetModel. *)
Definition tpartitioning (t : tree) : partitioning row :=
  match t with Node (KRepart p) _ => p | _ => UnknownP (tparts t) end.

Definition is_net (t : tree) : bool := match t with Net _ _ _ _ _ _ => true | _ => false end.
(** CoalescePartitionsExec or SortPreservingMergeExec. *)
Definition is_coalesce (t : tree) : bool :=
  match t with Node (KCoalesce _ _) _ => true | _ => false end.
Definition is_hash_repart (t : tree) : bool :=
  match t with Node (KRepart (HashP _ _)) _ => true | _ => false end.
Definition is_bcast (t : tree) : bool := match t with Node (KBcast _) _ => true | _ => false end.

(** [plan.exists(is_network_boundary)], distributed_query_planner.rs:112, 160. *)
Fixpoint has_net (t : tree) : bool :=
  match t with
  | Node _ cs | Ciu _ _ cs => existsb has_net cs
  | Net _ _ _ _ _ _ => true
  end.

(** ** Settings *)

(** DataFusion [CardinalityEffect]. *)
Inductive effect := EUnknown | EEqual | ELowerEqual | EGreaterEqual.

(** The session: options (distributed_config.rs:8-119), target partitions, the number of worker URLs,
    and the chains of handlers, which may answer anything. [effect_of] is the cardinality effect of an
    operator, [query] the fresh query id. *)
Record settings := mkSettings {
  broadcast_joins : bool;
  children_isolator_unions : bool;
  partial_reduce : bool;
  dynamic_task_count : bool;
  max_tasks_per_stage : nat;
  cardinality_task_count_factor : f64;
  target_partitions : nat;
  worker_urls : Res nat;
  desired_task_count : tree -> Res (option annotation);
  scale_up_leaf : tree -> nat -> option (Res tree);
  effect_of : kind -> effect;
  query : nat
}.

Variable cfg : settings.

(** ** normalize_collect_joins.rs *)

(** Lines 195-201. *)
Definition both_single (l r : tree) : bool := (tparts l =? 1) && (tparts r =? 1).

(** Lines 105-160 with [collect_left_to_partitioned], 164-213. [transform_down] rewrites the join and
    then visits the children of the new node; conditions look at the children before they are visited.
    A fetch-less CoalescePartitionsExec on the build side is removed in both rewrites. Simplification:
    the projection that [swap_inputs] adds to restore the column order is part of the flipped condition
    ([flip] builds the same output rows). Nodes with the wrong number of children do not exist. *)
Fixpoint normalize (t : tree) : Res tree :=
  match t with
  | Node (KJoin j c hl hr na) [l; r] =>
      let build := match l with
                   | Node (KCoalesce None None) [x] => normalize x
                   | _ => normalize l
                   end in
      if becomes_partitioned j (both_single l r) then
        if negb (1 <? tparts r) then Err "Single-partition joins are safe" else
        let* l' := build in
        let* r' := normalize r in
        let n := target_partitions cfg in
        match j with
        | HashJoin _ a ty =>
            Ok (Node (KJoin (HashJoin false a ty) c hl hr na)
                  [Node (KRepart (HashP hl n)) [l']; Node (KRepart (HashP hr n)) [r']])
        | _ => Err "not a hash join"
        end
      else if gets_swapped (broadcast_joins cfg) j (both_single l r) then
        let* r' := normalize r in
        let* l' := build in
        match j with
        | NestedLoop ty => Ok (Node (KJoin (NestedLoop (swap_type ty)) (flip c) hr hl na) [r'; l'])
        | _ => Err "not a nested loop join"
        end
      else
        let* l' := normalize l in
        let* r' := normalize r in
        Ok (Node (KJoin j c hl hr na) [l'; r'])
  | Node k cs => let* cs' := seqM (map normalize cs) in Ok (Node k cs')
  | Ciu w m cs => let* cs' := seqM (map normalize cs) in Ok (Ciu w m cs')
  | Net b p q n ts i => let* i' := normalize i in Ok (Net b p q n ts i')
  end.

(** ** insert_broadcast.rs:117-158 *)

Fixpoint broadcasts (t : tree) : tree :=
  match t with
  | Node (KJoin j c hl hr na) [l; r] =>
      if can_broadcast_left_input j then
        let l' := match l with
                  | Node (KCoalesce None fetch) [x] =>
                      Node (KCoalesce None fetch) [Node (KBcast 1) [broadcasts x]]
                  | _ => Node (KCoalesce None None) [Node (KBcast 1) [broadcasts l]]
                  end in
        Node (KJoin j c hl hr na) [l'; broadcasts r]
      else Node (KJoin j c hl hr na) [broadcasts l; broadcasts r]
  | Node k cs => Node k (map broadcasts cs)
  | Ciu w m cs => Ciu w m (map broadcasts cs)
  | Net b p q n ts i => Net b p q n ts (broadcasts i)
  end.
(** Lines 121-124. *)
Definition insert_broadcasts (t : tree) : tree := if broadcast_joins cfg then broadcasts t else t.

(** ** insert_children_isolator_union.rs *)

(** children_isolator_union.rs:132-141 [new_single_task]: weight 1 for every child, one task. *)
Definition single_task_weights (n : nat) : list ChildWeight := repeat (CiuModel.desired (f64_of_nat 1)) n.

(** Lines 25-34, [transform_down]. *)
Fixpoint isolate (t : tree) : Res tree :=
  match t with
  | Node KUnion cs =>
      let ws := single_task_weights (List.length cs) in
      let* m := split_children ws 1 in
      let* cs' := seqM (map isolate cs) in
      Ok (Ciu ws m cs')
  | Node k cs => let* cs' := seqM (map isolate cs) in Ok (Node k cs')
  | Ciu w m cs => let* cs' := seqM (map isolate cs) in Ok (Ciu w m cs')
  | Net b p q n ts i => let* i' := isolate i in Ok (Net b p q n ts i')
  end.
(** Lines 21-24. *)
Definition insert_unions (t : tree) : Res tree :=
  if children_isolator_unions cfg then isolate t else Ok t.

(** ** inject_network_boundaries.rs *)

(** Lines 176-181. *)
Definition max_tasks : Res nat :=
  match max_tasks_per_stage cfg with
  | 0 => let* n := worker_urls cfg in Ok (Nat.max n 1)
  | v => Ok v
  end.

(** Lines 483-490. *)
Definition child_weight (a : annotation) : ChildWeight :=
  match a with
  | Desired n => CiuModel.desired (f64_of_nat n)
  | Maximum n => CiuModel.maximum n
  end.

(** Lines 439-524 [propagate_task_count_until_network_boundaries]; only the number of the annotation
    matters. Task counts are looked up by node address in the code; here the annotations of the
    children of a union are put in its weights when the union is processed, so plans in which one node
    object occurs twice are not modelled. *)
Fixpoint propagate (t : tree) (count : nat) : Res tree :=
  match t with
  | Node _ [] | Ciu _ _ [] =>
      match scale_up_leaf cfg t count with
      | None => Ok t
      | Some r => r
      end
  | Net _ _ _ _ _ _ => Ok t
  | Ciu w _ cs =>
      if negb (List.length cs =? List.length w) then Err "children and weights differ" else
      let* m := split_children w count in
      let* cs' := seqM (map (fun '(f, n) => f n)
                     (combine (map propagate cs) (map_task_counts (List.length cs) m))) in
      Ok (Ciu w m cs')
  | Node k cs =>
      let* cs' := seqM (map (fun c => propagate c count) cs) in
      Ok (Node k cs')
  end.

(** [f64::max] (NaN loses). *)
Definition f64_max (x y : f64) : f64 :=
  match x, y with
  | S754_nan, _ => y
  | _, S754_nan => x
  | _, _ => if f64_lt x y then y else x
  end.

(** Lines 627-648 [calculate_scale_factor]. *)
Fixpoint scale_factor (t : tree) : f64 :=
  match t with
  | Net _ _ _ _ _ _ => f64_of_nat 1
  | Node k cs =>
      let sf := match map scale_factor cs with
                | [] => f64_of_nat 1
                | x :: xs => fold_left f64_max xs x
                end in
      match effect_of cfg k with
      | ELowerEqual => f64_div sf (cardinality_task_count_factor cfg)
      | EGreaterEqual => f64_mul sf (cardinality_task_count_factor cfg)
      | _ => sf
      end
  | Ciu _ _ cs =>
      match map scale_factor cs with
      | [] => f64_of_nat 1
      | x :: xs => fold_left f64_max xs x
      end
  end.

(** [x.ceil() as usize]: saturating, NaN gives 0. *)
Definition ceil_as_usize (x : f64) : N :=
  match x with
  | S754_nan => 0%N
  | S754_infinity false => usize_max
  | S754_infinity true => 0%N
  | S754_zero _ => 0%N
  | S754_finite s m e => N.min (Z.to_N (- floor_Z (S754_finite (negb s) m e))) usize_max
  end.

(** Lines 650-655. *)
Definition consumer_task_count (plan : tree) (tasks : nat) : nat :=
  N.to_nat (ceil_as_usize (f64_mul (scale_factor plan) (f64_of_nat tasks))).

(** Lines 609-657, the builder, followed by the constructor of the boundary (lines 336-340, 357-361,
    389-393). The query id and number given to the stage here are overwritten by
    [prepare_network_boundaries]; 0 stands for them. *)
Definition boundary (b : bkind) (t : tree) (count : annotation) : Res (tree * annotation) :=
  let tasks := as_usize count in
  let* plan := propagate t tasks in
  match b with
  | BShuffle =>
      Ok (Net BShuffle (tpartitioning plan) 0 0 tasks plan, Desired (consumer_task_count plan tasks))
  | BBroadcast =>
      Ok (Net BBroadcast (UnknownP (tparts plan)) 0 0 tasks plan,
          Desired (consumer_task_count plan tasks))
  | BCoalesce =>
      let* p := scale_partitioning (tpartitioning plan) (fun p => p * Nat.max (div_ceil tasks 1) 1) in
      Ok (Net BCoalesce p 0 0 tasks plan, Maximum 1)
  end.

(** Lines 258-317: the annotation of a node before it is limited. *)
Definition node_count (t : tree) (des : option annotation) (child_counts : list annotation) : annotation :=
  match child_counts with
  | [] => match des with Some a => a | None => Maximum 1 end
  | _ =>
      match t with
      | Ciu _ _ _ => Desired (list_sum (map as_usize child_counts))
      | Node (KJoin j _ _ _ _) _ =>
          if single_task_join (broadcast_joins cfg) j then Maximum 1
          else fold_left merge child_counts (match des with Some a => a | None => Desired 1 end)
      | _ => fold_left merge child_counts (match des with Some a => a | None => Desired 1 end)
      end
  end.

(** [replace_children] with processed children (and the weights of a union, see [propagate]). *)
Definition rebuild (t : tree) (cs : list (tree * annotation)) : tree :=
  match t with
  | Node k _ => Node k (map fst cs)
  | Ciu w m [] => t
  | Ciu w m _ => Ciu (map (fun c => child_weight (snd c)) cs) m (map fst cs)
  | Net b p q n ts i => match cs with [(i', _)] => Net b p q n ts i' | _ => t end
  end.

(** Lines 248-402, for a node [t] whose processed children are [cs]; [parent] tells whether the parent
    is a CoalescePartitionsExec or SortPreservingMergeExec ([None]: no parent). [build] is the
    NetworkBoundaryBuilder together with the constructor of the boundary, [prop] the propagation of task
    counts. *)
Definition inject_node (prop : tree -> nat -> Res tree)
    (build : bkind -> tree -> annotation -> Res (tree * annotation))
    (parent : option bool) (t : tree) (cs : list (tree * annotation)) : Res (tree * annotation) :=
  let* des := desired_task_count cfg t in
  let count := node_count t des (map snd cs) in
  let t' := rebuild t cs in
  let* most := max_tasks in
  let count := limit count most in
  if is_hash_repart t' then build BShuffle t' count
  else if is_bcast t' then build BBroadcast t' count
  else match parent with
       | Some true => build BCoalesce t' count
       | Some false => Ok (t', count)
       | None => let* t'' := prop t' (as_usize count) in Ok (t'', count)
       end.

(** Lines 230-246. [at_] is the position of [t] in the whole plan: the way to the root, as child numbers.
    A builder that observes the outside world may answer differently at different positions; each
    position is built once. *)
Fixpoint inject_by (prop : tree -> nat -> Res tree)
    (build : list nat -> bkind -> tree -> annotation -> Res (tree * annotation))
    (at_ : list nat) (parent : option bool) (t : tree) : Res (tree * annotation) :=
  let* cs := match t with
             | Node _ cs | Ciu _ _ cs =>
                 seqM (map (fun '(f, i) => f (i :: at_))
                   (combine (map (fun c at_ => inject_by prop build at_ (Some (is_coalesce t)) c) cs)
                            (seq 0 (List.length cs))))
             | Net _ _ _ _ _ i => seqM [inject_by prop build (0 :: at_) (Some false) i]
             end in
  inject_node prop (build at_) parent t cs.

(** The injection when the plan is made (lines 555-657). *)
Definition inject (parent : option bool) (t : tree) : Res (tree * annotation) :=
  inject_by propagate (fun _ => boundary) [] parent t.

(** ** prepare_network_boundaries.rs *)

(** network_shuffle.rs:158-165, network_broadcast.rs:178-183, network_coalesce.rs:209-211. *)
Definition producer_head_of (b : bkind) (part : partitioning row) (consumer_tasks : nat) : Res (head row) :=
  match b with
  | BShuffle =>
      let* p := scale_partitioning part (fun prev => prev * consumer_tasks) in Ok (HRepartition p)
  | BBroadcast => Ok (HBroadcast (partition_count part * consumer_tasks))
  | BCoalesce => Ok HNone
  end.

(** network_boundary.rs:86-106 [ProducerHead::insert]. *)
Definition strip (t : tree) : tree :=
  match t with
  | Node (KRepart _) [c] => c
  | Node (KBcast _) [c] => c
  | _ => t
  end.
Definition insert_head_node (h : head row) (t : tree) : Res tree :=
  let input := strip t in
  match h with
  | HNone => Ok input
  | HBroadcast out =>
      if tparts input =? 0 then Panic "division by zero"
      else Ok (Node (KBcast (out / tparts input)) [input])
  | HRepartition p => Ok (Node (KRepart p) [input])
  end.

(** [with_input_stage] for a stage with [tasks'] tasks: network_shuffle.rs:151-156,
    network_broadcast.rs:167-172, network_coalesce.rs:199-207. *)
Definition restage (b : bkind) (part : partitioning row) (tasks tasks' : nat) : Res (partitioning row) :=
  match b with
  | BCoalesce => scale_partitioning part (fun p => p * tasks' / Nat.max tasks 1)
  | _ => Ok part
  end.

(** Lines 14-55, as the recursion that [transform_up_with_task_count] performs (C14): children first,
    with the task count of the stage they run in; [id] is [stage_id]. *)
Fixpoint prepare (t : tree) (count id : nat) : Res (tree * nat) :=
  match t with
  | Node k cs =>
      let* r := seqS (map (fun c => prepare c count) cs) id in
      let '(cs', id) := r in Ok (Node k cs', id)
  | Ciu w m cs =>
      let* r := seqS (map (fun '(f, n) => f n)
                   (combine (map prepare cs) (map_task_counts (List.length cs) m))) id in
      let '(cs', id) := r in Ok (Ciu w m cs', id)
  | Net b part q num tasks input =>
      let* r := prepare input tasks id in
      let '(input', id) := r in
      if (count =? 1) && (tasks =? 1) then Ok (input', id) else
      let* h := producer_head_of b part count in
      let* plan := insert_head_node h input' in
      let* part' := restage b part tasks tasks in
      Ok (Net b part' (query cfg) id tasks plan, id + 1)
  end.

(** ** partial_reduce_below_network_shuffles.rs:17-101, [transform_up] *)

Fixpoint reduce_shuffles (t : tree) : tree :=
  match t with
  | Node k cs => Node k (map reduce_shuffles cs)
  | Ciu w m cs => Ciu w m (map reduce_shuffles cs)
  | Net b part q n ts input =>
      let input := reduce_shuffles input in
      match input with
      | Node (KRepart (HashP _ _)) [Node (KOp (OAgg APartial _ a)) _] =>
          Net b part q n ts (Node (KOp (OAgg APartialReduce AnyDistribution a)) [input])
      | _ => Net b part q n ts input
      end
  end.

(** ** push_fetch_into_network_coalesce.rs *)

(** [ExecutionPlan::fetch]; scans with a limit, filters and joins with a fetch are not modelled. *)
Definition fetch_of (t : tree) : option nat :=
  match t with
  | Node (KCoalesce _ f) _ => f
  | Node (KOp (OSort _ f)) _ => f
  | Node (KOp (OGlobalLimit _ f)) _ => f
  | Node (KOp (OLocalLimit f)) _ => Some f
  | _ => None
  end.

(** [ExecutionPlan::with_fetch] (DataFusion): [None] when the operator does not support it. *)
Definition with_fetch (t : tree) (fetch : nat) : option tree :=
  match t with
  | Node (KCoalesce spm _) cs => Some (Node (KCoalesce spm (Some fetch)) cs)
  | Node (KOp (OSort s _)) cs => Some (Node (KOp (OSort s (Some fetch))) cs)
  | _ => None
  end.

(** network_coalesce.rs:172-192: the fetch is put on the node itself, or on a limit above it. *)
Definition bounded (t : tree) (fetch : nat) : tree :=
  match fetch_of t with
  | Some f => if f <=? fetch then t
              else match with_fetch t fetch with
                   | Some t' => t'
                   | None => Node (KOp (OLocalLimit fetch)) [t]
                   end
  | None => match with_fetch t fetch with
            | Some t' => t'
            | None => Node (KOp (OLocalLimit fetch)) [t]
            end
  end.
(** network_coalesce.rs:167-192 [apply_fetch_through_projection]. *)
Definition fetch_through_projection (t : tree) (fetch : nat) : tree :=
  match t with
  | Node (KOp (OProj f)) [input] => Node (KOp (OProj f)) [bounded input fetch]
  | _ => bounded t fetch
  end.

(** push_fetch_into_network_coalesce.rs:97-105; [usize::MAX] is the bound of [checked_add]. *)
Definition fetch_required (t : tree) : option nat :=
  match t with
  | Node (KOp (OGlobalLimit skip fetch)) _ =>
      match fetch with
      | Some f => if (N.of_nat f + N.of_nat skip <=? usize_max)%N then Some (f + skip) else None
      | None => None
      end
  | _ => fetch_of t
  end.

(** Lines 78-84 with network_coalesce.rs:144-160. *)
Definition push_child (fetch : nat) (c : tree) : tree :=
  match c with
  | Net BCoalesce p q n ts input => Net BCoalesce p q n ts (fetch_through_projection input fetch)
  | _ => c
  end.

(** Lines 62-95, [transform_down]: the rewritten children are visited next. The rewritten input of a
    boundary is deeper than before, so the recursion is bounded by [fuel] (see [push_fetch]). *)
Fixpoint push_fetch_fuel (fuel : nat) (t : tree) : Res tree :=
  match fuel with
  | 0 => Panic "out of fuel"
  | S fuel =>
      let t' := match fetch_required t with
                | None => t
                | Some fetch =>
                    match t with
                    | Node k cs => Node k (map (push_child fetch) cs)
                    | _ => t
                    end
                end in
      match t' with
      | Node k cs => let* cs' := seqM (map (push_fetch_fuel fuel) cs) in Ok (Node k cs')
      | Ciu w m cs => let* cs' := seqM (map (push_fetch_fuel fuel) cs) in Ok (Ciu w m cs')
      | Net b p q n ts i => let* i' := push_fetch_fuel fuel i in Ok (Net b p q n ts i')
      end
  end.
Fixpoint height (t : tree) : nat :=
  match t with
  | Node _ cs | Ciu _ _ cs => S (list_max (map height cs))
  | Net _ _ _ _ _ i => S (height i)
  end.
Definition push_fetch (t : tree) : Res tree := push_fetch_fuel (2 * height t) t.

(** ** distributed_query_planner.rs *)

(** What the planner is given and returns: a plan without a coordinator node, one below the coordinator
    node DistributedExec, or either below AnalyzeExec / DistributedAnalyzeExec. *)
Inductive top :=
| TPlan (t : tree)
| TDistributed (t : tree)
| TAnalyze (input : top)
| TDistributedAnalyze (input : top).

Definition is_distributed (p : top) : bool := match p with TDistributed _ => true | _ => false end.

(** Lines 113-126: scale the leaves of a plan with boundaries made by the user, with
    [transform_down_with_task_count(1)] (C14). *)
Fixpoint scale_leaves (t : tree) (count : nat) : Res tree :=
  match t with
  | Node _ [] | Ciu _ _ [] =>
      match scale_up_leaf cfg t count with None => Ok t | Some r => r end
  | Node k cs => let* cs' := seqM (map (fun c => scale_leaves c count) cs) in Ok (Node k cs')
  | Ciu w m cs =>
      let* cs' := seqM (map (fun '(f, n) => f n)
                     (combine (map scale_leaves cs) (map_task_counts (List.length cs) m))) in
      Ok (Ciu w m cs')
  | Net b p q n ts i => let* i' := scale_leaves i ts in Ok (Net b p q n ts i')
  end.

(** Lines 131-147: the passes before injection. *)
Definition before_injection (t : tree) : Res tree :=
  let* t := normalize t in
  let t := if 1 <? tparts t then Node (KCoalesce None None) [t] else t in
  insert_unions (insert_broadcasts t).

(** Lines 155-158. *)
Definition inject_and_prepare (t : tree) : Res tree :=
  let* r := inject None t in
  let* r := prepare (fst r) 1 1 in
  Ok (fst r).

(** Lines 163-164. *)
Definition after_prepare (t : tree) : Res tree :=
  push_fetch (if partial_reduce cfg then reduce_shuffles t else t).

(** Lines 109-172. *)
Definition distribute (t : tree) : Res top :=
  if has_net t then
    let* scaled := scale_leaves t 1 in
    let* r := prepare scaled 1 1 in
    let plan := fst r in
    if negb (has_net plan) then Ok (TPlan plan) else
    let* plan := push_fetch plan in Ok (TDistributed plan)
  else
    let* plan := before_injection t in
    if dynamic_task_count cfg then Ok (TDistributed plan) else
    let* plan := inject_and_prepare plan in
    if negb (has_net plan) then Ok (TPlan t) else
    let* plan := after_prepare plan in Ok (TDistributed plan).

(** Lines 84-108. *)
Fixpoint create_distributed_plan (p : top) : Res top :=
  match p with
  | TDistributed t => Ok p
  | TAnalyze input =>
      let* input := create_distributed_plan input in
      if is_distributed input then Ok (TDistributedAnalyze input) else Ok (TAnalyze input)
  | TDistributedAnalyze _ => Err "not an input of the planner"
  | TPlan t => distribute t
  end.

End Planner.
Arguments requirement : clear implicits.
Arguments agg : clear implicits.
Arguments op : clear implicits.
Arguments leaf_node : clear implicits.
Arguments kind : clear implicits.
Arguments tree : clear implicits.
Arguments settings : clear implicits.
Arguments top : clear implicits.
