(** Vocabulary of the theorems about the order of rows. *)
From Verif Require Import Base NetModel NetSpec CiuModel EventsModel JoinModel JoinSpec PlannerModel PlannerSpec
  ExecModel ExecSpec FetchSpec OrderModel.
From Coq Require Import Sorting.Sorted.

Section Spec.
Context {row : Type}.
Notation tree := (tree row).
Variable acts : op row -> list row -> list row -> Prop.
(** The order in which an operator needs the rows of each input partition
    ([ExecutionPlan::required_input_ordering]). *)
Variable needs : op row -> option (row -> row -> Prop).

(** Given the order it needs, the operator yields the rows that it is meant to yield. *)
Definition well_behaved (o : op row) : Prop :=
  forall l out, acts o l out -> (forall le, needs o = Some le -> StronglySorted le l) ->
    Permutation out (op_fun o l).

(** Whenever the input is in the order [le], the output is in the order [le']. *)
Definition op_keeps (o : op row) (le le' : row -> row -> Prop) : Prop :=
  forall l out, acts o l out -> StronglySorted le l -> StronglySorted le' out.
Definition join_keeps (ty : join_type) (c : condition row) (le le' : row -> row -> Prop) : Prop :=
  (forall L r r' x y, le r r' -> In x (join ty c L [r]) -> In y (join ty c L [r']) -> le' x y) /\
  (forall L r x y, In x (join ty c L [r]) -> In y (join ty c L [r]) -> le' x y).

(** Every partition of the leaf is in the order [le], in whichever task. *)
Definition leaf_sorted (l : leaf_node row) (le : row -> row -> Prop) : Prop :=
  forall remote ctx p rows, leaf_runs remote l ctx p rows -> StronglySorted le rows.

(** The children that a task of an isolated union executes are told task indexes below their task
    counts. *)
Definition own_contexts (m : list (list (nat * TaskCtx))) : Prop :=
  forall s e, In s m -> In e s -> task_index (snd e) < task_count (snd e).

(** [promises single t le]: every partition of [t] is in the order [le] because of the operators in [t]
    ([PlanProperties::output_ordering]). [single] tells whether a repartitioning that reads a single
    partition counts as keeping its order, as it does in DataFusion. *)
Inductive promises (single : bool) : tree -> (row -> row -> Prop) -> Prop :=
| pr_any t : promises single t (fun _ _ => True)
| pr_weaken t (le le' : row -> row -> Prop) : promises single t le -> (forall x y, le x y -> le' x y) ->
    promises single t le'
| pr_leaf l le : leaf_sorted l le -> promises single (Node (KLeaf l) []) le
| pr_op o c le le' : promises single c le -> op_keeps o le le' -> promises single (Node (KOp o) [c]) le'
| pr_merge le fetch c : promises single c le -> promises single (Node (KCoalesce (Some le) fetch) [c]) le
| pr_union cs le : cs <> [] -> (forall c, In c cs -> promises single c le) -> promises single (Node KUnion cs) le
| pr_isolated w m cs le : cs <> [] -> own_contexts m -> (forall c, In c cs -> promises single c le) ->
    promises single (Ciu w m cs) le
| pr_join j c hl hr na l r ty le le' : probe_order j = Some ty -> promises single r le -> join_keeps ty c le le' ->
    promises single (Node (KJoin j c hl hr na) [l; r]) le'
| pr_repart part c le : single = true -> tparts c <= 1 -> promises single c le ->
    promises single (Node (KRepart part) [c]) le
| pr_coalesced part q num tasks plan le : bare plan = true -> promises single plan le ->
    promises single (Net BCoalesce part q num tasks plan) le.

(** Every operator in [t] is well behaved and gets its input in the order it needs. *)
Fixpoint serves (single : bool) (t : tree) : Prop :=
  match t with
  | Node k cs =>
      match k with
      | KOp o =>
          well_behaved o /\ (forall c le, In c cs -> needs o = Some le -> promises single c le) /\
          match o with
          | OAgg APartial _ a =>
              well_behaved (OAgg APartialReduce AnyDistribution a) /\ needs (OAgg APartialReduce AnyDistribution a) = None
          | _ => True
          end
      | _ => True
      end /\ Forall (fun P => P) (map (serves single) cs)
  | Ciu _ _ cs => Forall (fun P => P) (map (serves single) cs)
  | Net _ _ _ _ _ i => serves single i
  end.

(** Scaling a leaf keeps the orders that it is in. *)
Definition order_kept (cfg : settings row) (l : leaf_node row) : Prop :=
  forall s l' le, scaled cfg (Node (KLeaf l) []) s (Node (KLeaf l') []) -> leaf_sorted l le -> leaf_sorted l' le.
End Spec.
