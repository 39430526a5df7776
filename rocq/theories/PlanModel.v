(** Model of plan trees inside one stage, of the tree walks that carry a task context or a task count,
    of the per-task trimming of plans, and of the collection and attribution of metrics.
    Source: src/common/recursion.rs, coordinator/query_coordinator.rs:344-391,
    execution_plans/children_isolator_union.rs:211-237, metrics/task_metrics_rewriter.rs,
    worker/impl_coordinator_channel.rs:201-218. *)
From Verif Require Import Base NetModel CiuModel EventsModel.

(** An operator without special treatment: an opaque id, its partition count (stored in its
    properties) and the id of its work unit feed, if it has one, with a flag telling whether the feed
    is in remote mode. *)
Record op := mkOp { op_id : nat; op_parts : nat; op_feed : option (nat * bool) }.

(** Plan trees. A boundary has its input plan as child while its stage is local, and no child once it
    is remote; [stage_tasks] is the task count of its input stage. *)
Inductive plan :=
| POp (o : op) (cs : list plan)
| PCiu (parts : nat) (m : list slot) (cs : list plan)
| PBoundary (b parts stage_tasks : nat) (cs : list plan)
| PDle (parts : nat) (original : plan) (variants : list plan)
| PEmpty (parts : nat).

(** [ExecutionPlan::children]; distributed_leaf.rs:164-166 hides original and variants. *)
Definition children (p : plan) : list plan :=
  match p with
  | POp _ cs | PCiu _ _ cs | PBoundary _ _ _ cs => cs
  | PDle _ _ _ | PEmpty _ => []
  end.

(** [with_new_children]. For a union it recomputes the task map from the same weights and task count,
    which yields the same map (theorem [C08_with_new_children]); operators keep their partition count. *)
Definition with_children (p : plan) (cs : list plan) : plan :=
  match p with
  | POp o _ => POp o cs
  | PCiu n m _ => PCiu n m cs
  | PBoundary b n t _ => PBoundary b n t cs
  | PDle _ _ _ | PEmpty _ => p
  end.

(** [output_partitioning().partition_count()]. *)
Definition parts_of (p : plan) : nat :=
  match p with
  | POp o _ => op_parts o
  | PCiu n _ _ => n
  | PBoundary _ n _ _ => n
  | PDle n _ _ => n
  | PEmpty n => n
  end.

Definition is_boundary (p : plan) : bool := match p with PBoundary _ _ _ _ => true | _ => false end.

(** DataFusion's [TreeNodeRecursion]. *)
Inductive tnr := Continue | Jump | Stop.

(** * DataFusion's tree rewrites (library behaviour, datafusion-common tree_node.rs) *)

Section Walks.
Context {S : Type}.

(** A callback threads its captured state; it returns the new node and how to go on. *)
Definition callback := S -> plan -> Res (S * plan * tnr).

(** [map_until_stop_and_collect]. *)
Fixpoint map_until_stop (g : callback) (s : S) (l : list plan) (t : tnr) : Res (S * list plan * tnr) :=
  match l with
  | [] => Ok (s, [], t)
  | p :: rest =>
      match t with
      | Stop => Ok (s, p :: rest, Stop)
      | _ =>
          let* r := g s p in
          let '(s, p', t) := r in
          let* r := map_until_stop g s rest t in
          let '(s, rest', t) := r in
          Ok (s, p' :: rest', t)
      end
  end.

(** [transform_children] of a callback's result with [map_children]. *)
Definition transform_children (g : callback) (r : S * plan * tnr) : Res (S * plan * tnr) :=
  let '(s, p, t) := r in
  match t with
  | Continue =>
      let* r := map_until_stop g s (children p) Continue in
      let '(s, cs, t) := r in Ok (s, with_children p cs, t)
  | Jump => Ok (s, p, Continue)
  | Stop => Ok (s, p, Stop)
  end.

(** [transform_parent]. *)
Definition transform_parent (g : callback) (r : S * plan * tnr) : Res (S * plan * tnr) :=
  let '(s, p, t) := r in match t with Continue => g s p | _ => Ok (s, p, t) end.

(** [transform_down]. A callback may replace a node by a deeper one, so the recursion is not
    structural; [fuel] bounds its depth (running out is a distinct failure). *)
Fixpoint transform_down (fuel : nat) (f : callback) (s : S) (p : plan) : Res (S * plan * tnr) :=
  match fuel with
  | 0 => Panic "out of fuel"
  | Datatypes.S fuel =>
      let* r := f s p in transform_children (transform_down fuel f) r
  end.

(** [transform_down_up]. *)
Fixpoint transform_down_up (fuel : nat) (f_down f_up : callback) (s : S) (p : plan)
  : Res (S * plan * tnr) :=
  match fuel with
  | 0 => Panic "out of fuel"
  | Datatypes.S fuel =>
      let* r := f_down s p in
      let* r := transform_children (transform_down_up fuel f_down f_up) r in
      transform_parent f_up r
  end.
End Walks.

(** * common/recursion.rs *)

(** A vector used as a stack is modelled with its top first; [stack.extend(v.into_iter().rev())]
    puts [v] in order on top. *)

(** Lines 192-199: [child_ctxs], filled from the slot entries in order; both index operations panic
    out of bounds. *)
Definition fill_ctxs (n : nat) (s : slot) : Res (list (option TaskCtx)) :=
  fold_left (fun r '(i, c) =>
      let* v := r in
      if i <? List.length v then Ok (upd v i (Some c)) else Panic "index out of bounds")
    s (Ok (repeat None n)).
Definition child_ctxs (p : plan) (ctx : TaskCtx) : Res (list (option TaskCtx)) :=
  match p with
  | PCiu _ m cs =>
      match nth_error m (task_index ctx) with
      | None => Panic "index out of bounds"
      | Some s => fill_ctxs (List.length cs) s
      end
  | _ => Ok (map (fun _ => Some ctx) (children p))
  end.

(** Lines 162-206. *)
Definition dt_ctx_callback {S} (f : S -> plan -> TaskCtx -> Res (S * plan * tnr))
  : @callback (S * list (option TaskCtx)) :=
  fun '(s, stack) node =>
    match stack with
    | [] => Panic "called `Option::unwrap()` on a `None` value"
    | None :: stack => Ok ((s, stack), node, Jump)
    | Some ctx :: stack =>
        let* r := f s node ctx in
        let '(s, node, t) := r in
        match t with
        | Stop => Ok ((s, stack), node, Stop)
        | Jump => Ok ((s, stack), node, Jump)
        | Continue =>
            if is_boundary node then Ok ((s, stack), node, Jump) else
            let* cc := child_ctxs node ctx in
            Ok ((s, cc ++ stack), node, Continue)
        end
    end.
Definition transform_down_with_dt_ctx {S} (fuel : nat)
    (f : S -> plan -> TaskCtx -> Res (S * plan * tnr)) (s : S) (p : plan) (ctx : TaskCtx)
  : Res (S * plan * tnr) :=
  let* r := transform_down fuel (dt_ctx_callback f) (s, [Some ctx]) p in
  let '((s, _), p, t) := r in Ok (s, p, t).

(** Lines 218-226 and 250-257: the task counts of the children. *)
Definition child_tcs (p : plan) (cur : nat) : list nat :=
  match p with
  | PCiu _ m cs => map_task_counts (List.length cs) m
  | PBoundary _ _ t cs => repeat t (List.length cs)
  | _ => repeat cur (List.length (children p))
  end.

(** Lines 208-233. *)
Definition up_down_callback {S} : @callback (S * list nat) :=
  fun '(s, stack) node =>
    match stack with
    | [] => Panic "called `Option::unwrap()` on a `None` value"
    | cur :: _ => Ok ((s, child_tcs node cur ++ stack), node, Continue)
    end.
Definition up_up_callback {S} (f : S -> plan -> nat -> Res (S * plan * tnr)) : @callback (S * list nat) :=
  fun '(s, stack) node =>
    match stack with
    | [] => Panic "called `Option::unwrap()` on a `None` value"
    | tc :: stack =>
        let* r := f s node tc in
        let '(s, node, t) := r in Ok ((s, stack), node, t)
    end.
Definition transform_up_with_task_count {S} (fuel : nat)
    (f : S -> plan -> nat -> Res (S * plan * tnr)) (s : S) (p : plan) (tc : nat)
  : Res (S * plan * tnr) :=
  let* r := transform_down_up fuel up_down_callback (up_up_callback f) (s, [tc]) p in
  let '((s, _), p, t) := r in Ok (s, p, t).

(** Lines 235-262. *)
Definition down_tc_callback {S} (f : S -> plan -> nat -> Res (S * plan * tnr)) : @callback (S * list nat) :=
  fun '(s, stack) node =>
    match stack with
    | [] => Panic "called `Option::unwrap()` on a `None` value"
    | tc :: stack =>
        let* r := f s node tc in
        let '(s, node, t) := r in
        match t with
        | Continue => Ok ((s, child_tcs node tc ++ stack), node, Continue)
        | _ => Ok ((s, stack), node, t)
        end
    end.
Definition transform_down_with_task_count {S} (fuel : nat)
    (f : S -> plan -> nat -> Res (S * plan * tnr)) (s : S) (p : plan) (tc : nat)
  : Res (S * plan * tnr) :=
  let* r := transform_down_up fuel (down_tc_callback f)
              (fun s node => Ok (s, node, Continue)) (s, [tc]) p in
  let '((s, _), p, t) := r in Ok (s, p, t).

(** Identity of a node of a plan: its position, i.e. the child indexes on the way from the root. Rust
    uses the address of the node's allocation; the two agree as long as no subtree is shared. *)
Notation pos := (list nat).

Section Apply.
Context {S : Type}.

(** [apply_until_stop] over already applied visitors. *)
Fixpoint apply_until_stop (gs : list (S -> Res (S * tnr))) (s : S) (t : tnr) : Res (S * tnr) :=
  match gs with
  | [] => Ok (s, t)
  | g :: rest =>
      let* r := g s in
      let '(s, t) := r in
      match t with Stop => Ok (s, Stop) | _ => apply_until_stop rest s t end
  end.

(** Lines 105-134. The visitor also gets the identity of the node. *)
Fixpoint apply_with_dt_ctx (f : S -> pos -> plan -> TaskCtx -> Res (S * tnr)) (p : plan) (at_ : pos)
    (ctx : TaskCtx) (s : S) {struct p} : Res (S * tnr) :=
  let* r := f s at_ p ctx in
  let '(s, t) := r in
  match t with
  | Jump => Ok (s, Continue)
  | Stop => Ok (s, Stop)
  | Continue =>
      match p with
      | PCiu _ m cs =>
          let visitors := map (fun c => apply_with_dt_ctx f c) cs in
          match nth_error m (task_index ctx) with
          | None => Panic "index out of bounds"
          | Some slot =>
              apply_until_stop
                (map (fun '(i, cctx) s => match nth_error visitors i with
                                          | None => Panic "index out of bounds"
                                          | Some v => v (at_ ++ [i]) cctx s
                                          end) slot) s Continue
          end
      | PBoundary _ _ _ _ => Ok (s, Continue)
      | POp _ cs =>
          let visitors := map (fun c => apply_with_dt_ctx f c) cs in
          apply_until_stop
            (map (fun i s => match nth_error visitors i with
                             | None => Panic "index out of bounds"
                             | Some v => v (at_ ++ [i]) ctx s
                             end) (seq 0 (List.length cs))) s Continue
      | PDle _ _ _ | PEmpty _ => Ok (s, Continue)
      end
  end.
End Apply.

(** * Trimming a plan for one task *)

(** children_isolator_union.rs:211-237. *)
Definition ciu_to_task_specialized (n : nat) (m : list slot) (cs : list plan) (task_i : nat) : Res plan :=
  match nth_error m task_i with
  | None => Panic "index out of bounds"
  | Some s =>
      let keep := map fst s in
      Ok (PCiu n m (map (fun '(i, c) => if existsb (Nat.eqb i) keep then c else PEmpty (parts_of c))
                      (combine (seq 0 (List.length cs)) cs)))
  end.

(** distributed_leaf.rs:138-140. *)
Definition dle_specialized (variants : list plan) (task_i : nat) : Res plan :=
  match nth_error variants task_i with
  | Some v => Ok v
  | None => Panic "index out of bounds"
  end.

(** query_coordinator.rs:360-388: the callback. The state is the list of declarations (feed id,
    partitions). The protobuf round trip switches the feed to remote mode and otherwise preserves the
    node (assumed, property C43). *)
Definition specialize_callback (s : list (nat * nat)) (p : plan) (ctx : TaskCtx)
  : Res (list (nat * nat) * plan * tnr) :=
  match p with
  | POp (mkOp id n (Some (feed, _))) cs =>
      Ok (s ++ [(feed, n)], POp (mkOp id n (Some (feed, true))) cs, Continue)
  | PCiu n m cs => let* p := ciu_to_task_specialized n m cs (task_index ctx) in Ok (s, p, Continue)
  | PDle _ _ vs => let* p := dle_specialized vs (task_index ctx) in Ok (s, p, Continue)
  | _ => Ok (s, p, Continue)
  end.

(** query_coordinator.rs:344-391. *)
Definition task_specialized_plan (fuel : nat) (p : plan) (ctx : TaskCtx)
  : Res (plan * list (nat * nat)) :=
  let* r := transform_down_with_dt_ctx fuel specialize_callback [] p ctx in
  let '(decls, p, _) := r in Ok (p, decls).

(** * Execution *)

Section Exec.
Context {row : Type}.

(** What an operator yields for a partition in a task, given its executable children, and what a
    boundary receives. Both are arbitrary. *)
Variable op_run : op -> TaskCtx -> list (nat -> Res (list row)) -> nat -> Res (list row).
Variable boundary_run : nat -> TaskCtx -> nat -> Res (list row).

(** [execute] of a plan in a task: children_isolator_union.rs:313-351, distributed_leaf.rs:180-199,
    DataFusion's [EmptyExec]. *)
Fixpoint exec_plan (p : plan) (ctx : TaskCtx) (partition : nat) {struct p} : Res (list row) :=
  match p with
  | POp o cs => op_run o ctx (map (fun c => exec_plan c ctx) cs) partition
  | PCiu n m cs =>
      ciu_execute (mkCiu n (map (fun c => mkChild (parts_of c) (exec_plan c)) cs) [] m) ctx partition
  | PBoundary b _ _ _ => boundary_run b ctx partition
  | PDle n o vs =>
      dle_execute (mkDle (mkLeaf (parts_of o) 0 (exec_plan o ctx)) n
                         (map (fun v => mkLeaf (parts_of v) 0 (exec_plan v ctx)) vs)) ctx partition
  | PEmpty n => if partition <? n then Ok [] else Err "EmptyExec invalid partition"
  end.
End Exec.

(** * Metrics *)

Section Metrics.
Context {metric : Type}.

(** impl_coordinator_channel.rs:201-218: [metrics_of] stands for [node.metrics().unwrap_or_default()]
    of the executed worker plan. An error of the walk is ignored there ([let _ =]); the walk has none
    besides index panics. *)
Definition collect_task_metrics (metrics_of : pos -> plan -> list metric) (p : plan) (ctx : TaskCtx)
  : Res (list (list metric)) :=
  let* r := apply_with_dt_ctx
              (fun acc at_ node _ => Ok (acc ++ [metrics_of at_ node], Continue)) p [] ctx [] in
  Ok (fst r).

(** The accumulated metrics per node; [HashMap::entry(..).or_default()] followed by pushes. *)
Fixpoint map_add (id : pos) (ms : list metric) (map : list (pos * list metric)) : list (pos * list metric) :=
  match map with
  | [] => [(id, ms)]
  | (k, v) :: rest => if list_eq_dec Nat.eq_dec k id then (k, v ++ ms) :: rest
                      else (k, v) :: map_add id ms rest
  end.
Fixpoint map_get (id : pos) (map : list (pos * list metric)) : list metric :=
  match map with
  | [] => []
  | (k, v) :: rest => if list_eq_dec Nat.eq_dec k id then v else map_get id rest
  end.

(** task_metrics_rewriter.rs:243-265: one task of phase 1. [annotate] is
    [rewrite_ctx.maybe_rewrite_node_metics]. *)
Definition accumulate (annotate : nat -> metric -> metric) (p : plan) (ctx : TaskCtx)
    (task_metrics : list (list metric)) (map0 : list (pos * list metric))
  : Res (list (pos * list metric)) :=
  let* r := apply_with_dt_ctx
    (fun '(counter, nm) at_ _ _ =>
       match nth_error task_metrics counter with
       | None => Err "not enough metrics provided to rewrite task"
       | Some ms => Ok ((counter + 1, map_add at_ (map (annotate (task_index ctx)) ms) nm), Continue)
       end) p [] ctx (0, map0) in
  Ok (snd (fst r)).

(** task_metrics_rewriter.rs:213-266, [store] being the metrics store for this stage. *)
Fixpoint accumulate_all (annotate : nat -> metric -> metric) (p : plan) (tasks : nat)
    (store : nat -> option (list (list metric))) (task_ids : list nat) (nm : list (pos * list metric))
  : Res (list (pos * list metric)) :=
  match task_ids with
  | [] => Ok nm
  | t :: rest =>
      match store t with
      | None => Err "missing metrics for task"
      | Some tm =>
          let* nm := accumulate annotate p (mkCtx t tasks) tm nm in
          accumulate_all annotate p tasks store rest nm
      end
  end.

(** task_metrics_rewriter.rs:211-284: the metrics each wrapper node shows. Phase 2 wraps the nodes in
    pre-order, not below boundaries; it is represented by the function giving the metrics wrapped
    around the node at a position. *)
Definition stage_metrics_rewriter (annotate : nat -> metric -> metric) (p : plan) (tasks : nat)
    (store : nat -> option (list (list metric))) : Res (pos -> list metric) :=
  let* nm := accumulate_all annotate p tasks store (seq 0 tasks) [] in
  Ok (fun at_ => map_get at_ nm).
End Metrics.
