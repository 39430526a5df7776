(** Vocabulary of the theorem that distributed plans can be executed. *)
From Verif Require Import Base NetModel NetSpec CiuModel EventsModel JoinModel PlannerModel PlannerSpec ExecModel ExecSpec.

Section Spec.
Context {row : Type}.
Variable cfg : settings row.
Variable most : nat.

(** A scan can be read whatever number of tasks the planner may scale it for: all partitions of all its
    tasks yield rows, and so do those of the head stage, and there is at least one. *)
Definition readable_scan (l : leaf_node row) : Prop :=
  forall s q, 1 <= s <= most -> (forall k, In k (announced cfg (Node (KLeaf l) [])) -> s <= k) ->
    scaled cfg (Node (KLeaf l) []) s q ->
    exists l', q = Node (KLeaf l') [] /\ 1 <= leaf_parts l' /\
      forall (remote : bool), let n := if remote then s else 1 in
      forall i p, i < n -> p < leaf_parts l' -> exists rows, leaf_runs remote l' (mkCtx i n) p rows.

(** All partitions of a scan can be read on one node, and there is at least one. *)
Definition readable (l : leaf_node row) : Prop :=
  match l with
  | LScan l => 1 <= lf_parts l /\ forall p, p < lf_parts l -> exists rows, lf_exec l p = Ok rows
  | LTasks _ => False
  end.
End Spec.
