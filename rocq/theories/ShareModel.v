(** Model of which operator instances a task works on: what is rebuilt when a stage's plan is trimmed for a task,
    and what happens to it on the way to the worker.
    Source: coordinator/query_coordinator.rs:136-223 and 344-391, common/recursion.rs:162-206,
    worker/impl_coordinator_channel.rs:74-75, common/maybe_encoded.rs:24-29 and 61-64. *)
From Verif Require Import Base NetModel CiuModel EventsModel PlanModel.

(** An allocation ([Arc<dyn ExecutionPlan>]). State that an operator keeps between calls of [execute] (the
    connections of a boundary, the queues of a repartition, the build side of a join) belongs to its allocation.
    - [Base at]: the node at position [at] of the stage's plan, as the planner left it;
    - [OfVariant at i sub]: the node at [sub] of variant [i] of the per-task leaf at [at] of that plan;
    - [Made task at]: the node at [at] of the plan of task [task], allocated while its plan was prepared or decoded.
      (Simplified: an allocation counter is replaced by the place the new node ends up at; intermediate
      allocations are not named.) *)
Inductive addr :=
| Base (at_ : pos)
| OfVariant (at_ : pos) (variant : nat) (sub : pos)
| Made (task : nat) (at_ : pos).

(** All nodes of a plan. *)
Fixpoint all_positions (p : plan) : list pos :=
  [] :: match p with
        | POp _ cs | PCiu _ _ cs | PBoundary _ _ _ cs =>
            (fix go (i : nat) (l : list plan) : list pos :=
               match l with
               | [] => []
               | c :: l => map (cons i) (all_positions c) ++ go (Datatypes.S i) l
               end) 0 cs
        | PDle _ _ _ | PEmpty _ => []
        end.

(** query_coordinator.rs:344-391, keeping track of allocations: the nodes of the plan of [task] with the allocation
    each of them is in, and the [transformed] flag of the rewrite. DataFusion's [transform_down] allocates a node
    anew ([with_new_children]) only if the callback or the rewrite of one of its children reported a change
    (library behaviour, datafusion-common tree_node.rs, [DynTreeNode::map_children]).
    [decoded]: the node went through the protobuf round trip of a feed above it (line 374), which decodes the whole
    subtree into new allocations. The walk over the plan is that of [task_specialized_plan]; a panic of that walk
    (no slot or no variant for the task) leaves no plan. Boundaries are remote here
    (prepare_static_plan.rs works bottom up) and have no children. *)
Fixpoint held (task : nat) (p : plan) (at_ : pos) (ctx : TaskCtx) (decoded : bool) {struct p}
  : list (pos * addr) * bool :=
  match p with
  | POp o cs =>
      let own := match op_feed o with Some _ => true | None => false end in
      let rs := (fix go (i : nat) (l : list plan) : list (list (pos * addr) * bool) :=
                   match l with
                   | [] => []
                   | c :: l => held task c (at_ ++ [i]) ctx (decoded || own) :: go (Datatypes.S i) l
                   end) 0 cs in
      let changed := own || existsb snd rs in
      ((at_, if decoded || changed then Made task at_ else Base at_) :: flat_map fst rs, changed)
  | PCiu _ m cs =>
      match nth_error m (task_index ctx) with
      | None => ([], true)
      | Some s =>
          let rs := (fix go (i : nat) (l : list plan) : list (list (pos * addr) * bool) :=
                       match l with
                       | [] => []
                       | c :: l =>
                           match option_map snd (find (fun e => fst e =? i) s) with
                           | Some cctx => held task c (at_ ++ [i]) cctx decoded
                           | None => ([(at_ ++ [i], Made task (at_ ++ [i]))], true)
                           end :: go (Datatypes.S i) l
                       end) 0 cs in
          ((at_, Made task at_) :: flat_map fst rs, true)
      end
  | PDle _ _ vs =>
      match nth_error vs (task_index ctx) with
      | None => ([], true)
      | Some v =>
          (map (fun sub => (at_ ++ sub, if decoded then Made task (at_ ++ sub)
                                        else OfVariant at_ (task_index ctx) sub)) (all_positions v), true)
      end
  | PBoundary _ _ _ _ | PEmpty _ => ([(at_, if decoded then Made task at_ else Base at_)], false)
  end.

(** query_coordinator.rs:193-203 with in_process/worker_client.rs:33-43 and impl_coordinator_channel.rs:75: the plan a
    worker runs. If the task's URL is the coordinator's own ([self_url]), the plan is handed over as it is
    ([MaybeEncoded::Decoded]); otherwise it is encoded and decoded, which allocates every node. Plan rewrite handlers
    of the worker are not modelled here. *)
Definition received (self_url : option nat) (url task : nat) (p : plan) (ctx : TaskCtx) : list (pos * addr) :=
  let sent := fst (held task p [] ctx false) in
  match self_url with
  | Some u => if u =? url then sent else map (fun e => (fst e, Made task (fst e))) sent
  | None => map (fun e => (fst e, Made task (fst e))) sent
  end.
