(** Vocabulary of the plan theorems: which nodes of a plan run in a task, with which context. *)
From Verif Require Import Base NetModel CiuModel EventsModel PlanModel.

(** The node [n] at position [at_] of plan [p] runs, in context [nctx], when [p] runs in [ctx]: below a
    union only the children listed for the task, with their own contexts; nothing below boundaries. *)
Inductive runs_at : plan -> TaskCtx -> pos -> plan -> TaskCtx -> Prop :=
| runs_here p ctx : runs_at p ctx [] p ctx
| runs_op o cs ctx i c at_ n nctx :
    nth_error cs i = Some c -> runs_at c ctx at_ n nctx ->
    runs_at (POp o cs) ctx (i :: at_) n nctx
| runs_union k m cs ctx s i c cctx at_ n nctx :
    nth_error m (task_index ctx) = Some s -> In (i, cctx) s ->
    nth_error cs i = Some c -> runs_at c cctx at_ n nctx ->
    runs_at (PCiu k m cs) ctx (i :: at_) n nctx.

(** The node [n] at position [at_] belongs to a stage or union slot that runs in [ntc] tasks. *)
Inductive counts_at : plan -> nat -> pos -> plan -> nat -> Prop :=
| counts_here p tc : counts_at p tc [] p tc
| counts_op o cs tc i c at_ n ntc :
    nth_error cs i = Some c -> counts_at c tc at_ n ntc ->
    counts_at (POp o cs) tc (i :: at_) n ntc
| counts_union k m cs tc i c ctc at_ n ntc :
    nth_error cs i = Some c -> nth_error (map_task_counts (List.length cs) m) i = Some ctc ->
    counts_at c ctc at_ n ntc ->
    counts_at (PCiu k m cs) tc (i :: at_) n ntc
| counts_boundary b k t cs tc i c at_ n ntc :
    nth_error cs i = Some c -> counts_at c t at_ n ntc ->
    counts_at (PBoundary b k t cs) tc (i :: at_) n ntc.

(** What a plan must satisfy to run in a task: unions know the task and list each of their children at
    most once for it, per-task leaves have a variant for it. *)
Definition node_ok (n : plan) (ctx : TaskCtx) : Prop :=
  match n with
  | PCiu _ m cs =>
      exists s, nth_error m (task_index ctx) = Some s /\ NoDup (map fst s) /\
                Forall (fun e => fst e < List.length cs) s
  | PDle k _ vs => exists v, nth_error vs (task_index ctx) = Some v /\ parts_of v = k
  | _ => True
  end.
Definition runnable (p : plan) (ctx : TaskCtx) : Prop :=
  forall at_ n nctx, runs_at p ctx at_ n nctx -> node_ok n nctx.

(** Plans made of ordinary operators only (what per-task variants are). *)
Inductive plain : plan -> Prop :=
| plain_op id n cs : Forall plain cs -> plain (POp (mkOp id n None) cs)
| plain_empty n : plain (PEmpty n).

(** All per-task leaves that run have plain variants; [leaf_variants]: even single nodes. *)
Definition plain_variants (p : plan) (ctx : TaskCtx) : Prop :=
  forall at_ k o vs nctx, runs_at p ctx at_ (PDle k o vs) nctx -> Forall plain vs.
Definition leaf_variants (p : plan) (ctx : TaskCtx) : Prop :=
  forall at_ k o vs nctx, runs_at p ctx at_ (PDle k o vs) nctx -> Forall (fun v => children v = []) vs.

(** A plan contains no per-task leaf holder (which cannot be serialised). *)
Inductive no_leaf_holder : plan -> Prop :=
| nlh_op o cs : Forall no_leaf_holder cs -> no_leaf_holder (POp o cs)
| nlh_ciu k m cs : Forall no_leaf_holder cs -> no_leaf_holder (PCiu k m cs)
| nlh_boundary b k t cs : Forall no_leaf_holder cs -> no_leaf_holder (PBoundary b k t cs)
| nlh_empty k : no_leaf_holder (PEmpty k).

(** All boundaries that run are remote: they have no local input plan. *)
Definition remote_boundaries (p : plan) (ctx : TaskCtx) : Prop :=
  forall at_ b k t cs nctx, runs_at p ctx at_ (PBoundary b k t cs) nctx -> cs = [].

(** [n'] is the operator [n] as task [ctx] sees it. *)
Definition same_operator (n : plan) (ctx : TaskCtx) (n' : plan) : Prop :=
  match n, n' with
  | POp o _, POp o' _ => op_id o = op_id o' /\ op_parts o = op_parts o'
  | PCiu k m _, PCiu k' m' _ => k = k' /\ m = m'
  | PBoundary _ _ _ _, PBoundary _ _ _ _ => n = n'
  | PDle _ _ vs, _ => nth_error vs (task_index ctx) = Some n'
  | PEmpty k, PEmpty k' => k = k'
  | _, _ => False
  end.

(** * Rewrites with an explicit context: what the stack-based rewrites must compute *)

Section Explicit.
Context {S : Type}.

Section Lists.
Context {C : Type} (g : S -> plan -> C -> Res (S * plan * tnr)).

(** Rewrite the children from left to right, each with its own context; stop after a [Stop]. *)
Fixpoint each_child (s : S) (l : list plan) (cs : list C) (t : tnr) : Res (S * list plan * tnr) :=
  match l, cs with
  | p :: l', c :: cs' =>
      match t with
      | Stop => Ok (s, l, Stop)
      | _ =>
          let* r := g s p c in
          let '(s, p', t) := r in
          let* r := each_child s l' cs' t in
          let '(s, l'', t) := r in
          Ok (s, p' :: l'', t)
      end
  | _, _ => Ok (s, l, t)
  end.
End Lists.

(** Top-down with a task context; subtrees without context are left alone. *)
Fixpoint down_with_ctx (fuel : nat) (f : S -> plan -> TaskCtx -> Res (S * plan * tnr))
    (s : S) (p : plan) (ctx : option TaskCtx) : Res (S * plan * tnr) :=
  match fuel with
  | 0 => Panic "out of fuel"
  | Datatypes.S fuel =>
      match ctx with
      | None => Ok (s, p, Continue)
      | Some ctx =>
          let* r := f s p ctx in
          let '(s, p, t) := r in
          match t with
          | Stop => Ok (s, p, Stop)
          | Jump => Ok (s, p, Continue)
          | Continue =>
              if is_boundary p then Ok (s, p, Continue) else
              let* cc := child_ctxs p ctx in
              let* r := each_child (down_with_ctx fuel f) s (children p) cc Continue in
              let '(s, cs, t) := r in Ok (s, with_children p cs, t)
          end
      end
  end.

(** Bottom-up with a task count. *)
Fixpoint up_with_count (fuel : nat) (f : S -> plan -> nat -> Res (S * plan * tnr))
    (s : S) (p : plan) (tc : nat) : Res (S * plan * tnr) :=
  match fuel with
  | 0 => Panic "out of fuel"
  | Datatypes.S fuel =>
      let* r := each_child (up_with_count fuel f) s (children p) (child_tcs p tc) Continue in
      let '(s, cs, t) := r in
      match t with
      | Continue => f s (with_children p cs) tc
      | _ => Ok (s, with_children p cs, t)
      end
  end.

(** Top-down with a task count. *)
Fixpoint down_with_count (fuel : nat) (f : S -> plan -> nat -> Res (S * plan * tnr))
    (s : S) (p : plan) (tc : nat) : Res (S * plan * tnr) :=
  match fuel with
  | 0 => Panic "out of fuel"
  | Datatypes.S fuel =>
      let* r := f s p tc in
      let '(s, p, t) := r in
      match t with
      | Stop => Ok (s, p, Stop)
      | Jump => Ok (s, p, Continue)
      | Continue =>
          let* r := each_child (down_with_count fuel f) s (children p) (child_tcs p tc) Continue in
          let '(s, cs, t) := r in Ok (s, with_children p cs, t)
      end
  end.
End Explicit.

(** Fold with errors. *)
Fixpoint foldM {S A} (f : S -> A -> Res S) (l : list A) (s : S) : Res S :=
  match l with
  | [] => Ok s
  | x :: rest => let* s := f s x in foldM f rest s
  end.

(** Height of a plan, counting the alternatives of per-task leaves. *)
Fixpoint height (p : plan) : nat :=
  match p with
  | POp _ cs | PCiu _ _ cs | PBoundary _ _ _ cs => 1 + list_max (map height cs)
  | PDle _ _ vs => 1 + list_max (map height vs)
  | PEmpty _ => 1
  end.

(** Orders of visits: every position at most once, and a node before (after) everything below it. *)
Definition above (a b : pos) : Prop := exists r, b = a ++ r.
Definition parents_first {A} (l : list (pos * A)) : Prop :=
  ForallOrdPairs (fun a b => ~ above (fst b) (fst a)) l.
Definition children_first {A} (l : list (pos * A)) : Prop :=
  ForallOrdPairs (fun a b => ~ above (fst a) (fst b)) l.
