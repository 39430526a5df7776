(** Plans with boundaries placed by the user whose scans can be read. *)
From Verif Require Import Base NetModel NetSpec CiuModel EventsModel JoinModel JoinSpec PlannerModel PlannerSpec
  ExecModel ExecSpec RunSpec SitedModel SitedSpec AnswerSpec.

Section Spec.
Context {row : Type}.
Variable cfg : settings row.

(** A leaf has partitions, and all of them can be read in the [n] tasks of its stage and on one node. *)
Definition site_readable (n : nat) (l : leaf_node row) : Prop :=
  readable (LScan (plain_leaf l)) /\ 1 <= leaf_parts l /\
  forall q, scaled cfg (Node (KLeaf l) []) n q ->
    exists l', q = Node (KLeaf l') [] /\
      forall (remote : bool), (remote = false -> n = 1) ->
      forall i p, i < n -> p < leaf_parts l' -> exists rows, leaf_runs remote l' (mkCtx i n) p rows.

(** All leaves of a plan that is executed by [n] tasks can be read, and sort-preserving merges compare any
    two rows. *)
Fixpoint runnable (n : nat) (t : tree row) : Prop :=
  match t with
  | Node k cs =>
      match k with
      | KLeaf l => site_readable n l
      | KCoalesce (Some le) _ => sorting_order le
      | _ => True
      end /\ Forall (fun P => P) (map (runnable n) cs)
  | Ciu _ _ cs => Forall (fun P => P) (map (runnable n) cs)
  | Net _ _ _ _ tasks i => runnable tasks i
  end.
End Spec.
