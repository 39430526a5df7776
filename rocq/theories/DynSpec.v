(** Vocabulary for task counts chosen while the query runs. *)
From Coq Require Import NArith.
From Verif Require Import Base NetModel CiuModel EventsModel JoinModel PlannerModel PlannerSpec DynModel.

Section Spec.
Context {row : Type}.
Notation tree := (tree row).

(** Scale-up handlers do not answer for network boundaries. *)
Definition ignores_boundaries (cfg : settings row) : Prop :=
  forall b part q num tasks i count, scale_up_leaf cfg (Net b part q num tasks i) count = None.

(** Settings with other scale-up handlers. *)
Definition with_scale_up (cfg : settings row) (g : tree -> nat -> option (Res tree)) : settings row :=
  mkSettings (broadcast_joins cfg) (children_isolator_unions cfg) (partial_reduce cfg) (dynamic_task_count cfg)
    (max_tasks_per_stage cfg) (cardinality_task_count_factor cfg) (target_partitions cfg) (worker_urls cfg)
    (desired_task_count cfg) g (effect_of cfg) (query cfg).

(** The stages of a plan: number and tasks of every boundary. *)
Fixpoint stages (t : tree) : list (nat * nat) :=
  match t with
  | Node _ cs | Ciu _ _ cs => flat_map stages cs
  | Net _ _ _ num tasks i => stages i ++ [(num, tasks)]
  end.

End Spec.
