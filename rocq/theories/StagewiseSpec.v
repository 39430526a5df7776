(** What the order of sending is about: the stages of a plan, given by the plan alone, and when a stage
    is done with. *)
From Verif Require Import Base NetModel CiuModel EventsModel JoinModel PlannerModel DynModel StagewiseModel.
Open Scope nat_scope.

Section Spec.
Context {row : Type}.
Notation tree := (tree row).

(** A stage ends at each hash repartition, at each broadcast, and at each other node read by a node that
    coalesces partitions. *)
Inductive ends_stage : option bool -> tree -> bkind -> Prop :=
| at_repartition parent t : is_hash_repart t = true -> ends_stage parent t BShuffle
| at_broadcast parent t : is_bcast t = true -> ends_stage parent t BBroadcast
| at_coalesce t : is_hash_repart t = false -> is_bcast t = false -> ends_stage (Some true) t BCoalesce.

(** [stage_at at_ parent t q b]: in the plan [t], which stands at the position [at_], a stage read through
    a boundary [b] ends at the position [q]. *)
Inductive stage_at : list nat -> option bool -> tree -> list nat -> bkind -> Prop :=
| stage_here at_ parent t b : ends_stage parent t b -> stage_at at_ parent t at_ b
| stage_below at_ parent t i c q b :
    nth_error (children t) i = Some c ->
    stage_at (i :: at_) (Some (is_coalesce t)) c q b ->
    stage_at at_ parent t q b.

(** The stages of the plan. *)
Definition stage_of (p : tree) (q : list nat) (b : bkind) : Prop := stage_at [] None p q b.

(** [q] is somewhere below [p]. *)
Definition under (q p : list nat) : Prop := exists x, x <> [] /\ q = x ++ p.
End Spec.

Definition place (e : event) : list nat :=
  match e with Routed a _ _ _ | Sent a _ _ | Sampled a _ => a end.

(** Each task was sent, and the sampling, if there is one, is over. *)
Definition all_sent (log : list event) (q : list nat) (b : bkind) : Prop :=
  exists num tasks, In (Routed q num b tasks) log /\ forall i, i < tasks -> In (Sent q num i) log.
Definition settled (log : list event) (q : list nat) (b : bkind) : Prop :=
  all_sent log q b /\ (b <> BCoalesce -> exists num, In (Sampled q num) log).

(** The numbers given to stages, in the order of the log. *)
Definition numbers (log : list event) : list nat :=
  flat_map (fun e => match e with Routed _ num _ _ => [num] | _ => [] end) log.

(** The stages that were routed, in the order of the log. *)
Definition places (log : list event) : list (list nat) :=
  flat_map (fun e => match e with Routed q _ _ _ => [q] | _ => [] end) log.

Fixpoint increasing (l : list nat) : Prop :=
  match l with
  | [] => True
  | x :: l => (forall y, In y l -> x < y) /\ increasing l
  end.
