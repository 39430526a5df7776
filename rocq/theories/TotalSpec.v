(** Vocabulary of C79: the plans that the planner accepts. *)
From Verif Require Import Base NetModel CiuModel EventsModel JoinModel JoinSpec PlannerModel PlannerSpec.
From Coq Require Import ZArith.

Section Spec.
Context {row : Type}.
Notation tree := (tree row).

(** A repartition by ranges. *)
Definition by_ranges (t : tree) : bool := match t with Node (KRepart (RangeP _)) _ => true | _ => false end.

(** A node has the children that its operator has, there is always at least one partition, a join that
    collects its left input has one left partition, and the input of a coalescing node is not repartitioned
    by ranges. These are plans as DataFusion makes them, except for the last condition. *)
Definition regular_node (k : kind row) (cs : list tree) : Prop :=
  match k, cs with
  | KLeaf l, [] => 1 <= leaf_parts l
  | KRepart p, [_] => 1 <= partition_count p
  | KCoalesce _ _, [c] => by_ranges c = false
  | KUnion, _ :: _ => True
  | KJoin (HashJoin false _ _) _ _ _ _, [_; _] => True
  | KJoin _ _ _ _ _, [l; _] => tparts l = 1
  | KOp _, [_] => True
  | _, _ => False
  end.
Fixpoint regular (t : tree) : Prop :=
  match t with
  | Node k cs => regular_node k cs /\ Forall (fun P => P) (map regular cs)
  | _ => False
  end.

(** The handlers answer without errors; those that scale a leaf leave it at least one partition. *)
Definition answering_handlers (cfg : settings row) : Prop :=
  (forall t, exists a, desired_task_count cfg t = Ok a) /\
  (forall l n r, 1 <= leaf_parts l -> 1 <= n -> scale_up_leaf cfg (Node (KLeaf l) []) n = Some r ->
    exists q, r = Ok q /\ 1 <= tparts q).

(** A stage reads from at least one task: what the operators between do to the number of rows never
    makes the number of tasks zero. *)
Definition keeps_tasks (cfg : settings row) : Prop :=
  forall plan tasks, 1 <= tasks -> (Z.of_nat tasks < 2 ^ 53)%Z -> 1 <= consumer_task_count cfg plan tasks.
End Spec.
