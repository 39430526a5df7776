(** The stages of a planned query, and what it means that one was sent. *)
From Verif Require Import Base NetModel CiuModel EventsModel JoinModel PlannerModel StagewiseModel StagewiseSpec.
Open Scope nat_scope.

Section Spec.
Context {row : Type}.
Notation tree := (tree row).

(** [net_at at_ t q num b tasks]: in the plan [t], which stands at [at_], there is a boundary [b] at [q]
    that reads stage [num], which has [tasks] tasks. *)
Inductive net_at : list nat -> tree -> list nat -> nat -> bkind -> nat -> Prop :=
| net_here at_ b part query num tasks i : net_at at_ (Net b part query num tasks i) at_ num b tasks
| net_below at_ t i c q num b tasks :
    nth_error (children t) i = Some c -> net_at (i :: at_) c q num b tasks -> net_at at_ t q num b tasks.
End Spec.

(** Workers were chosen for the stage, and all its tasks were sent. *)
Definition sent_whole (log : list event) (q : list nat) (num : nat) (b : bkind) (tasks : nat) : Prop :=
  In (Routed q num b tasks) log /\ forall i, i < tasks -> In (Sent q num i) log.

(** Why the sending ended with [r], and what had happened by then: routing or the sending of a task
    failed for a stage, and that was the last thing done. *)
Definition stopped_by (routed : list nat -> Res unit) (sent : list nat -> nat -> Res unit)
    (stage : list nat -> nat -> bkind -> nat -> Prop) (log : list event) (r : Res unit) : Prop :=
  exists q num b tasks before, stage q num b tasks /\
    ((routed q = r /\ log = before) \/
     (exists i, i < tasks /\ sent q i = r /\ log = before ++ Routed q num b tasks :: map (Sent q num) (seq 0 i))) /\
    forall e, In e before -> place e <> q.
