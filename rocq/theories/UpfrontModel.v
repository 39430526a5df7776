(** Model of how a query whose task counts were chosen when the plan was made is sent out:
    src/coordinator/prepare_static_plan.rs lines 21-64. What a worker is sent, and what the tasks of the
    stages do then, is in WSessionModel and NetModel; here is what is sent in which order, and what has
    been sent when something fails.

    Simplification: all stages are local (a plan that was not executed yet, line 30; C97 is about
    executing a plan again), and [with_input_stage] of a remote stage does not fail (lines 50-57). A task
    counts as sent when all of lines 43-45 succeeded; of a task for which line 45 fails the plan may be on
    its way. *)
From Verif Require Import Base NetModel CiuModel EventsModel JoinModel PlannerModel StagewiseModel.
Open Scope nat_scope.

Section Upfront.
Context {row : Type}.
Notation tree := (tree row).

(** The outcomes of routing (line 36) and of the sending of task [i] (lines 39-46), for the stage of the
    boundary at a position (the way to the root, as child numbers). *)
Variable routed : list nat -> Res unit.
Variable sent : list nat -> nat -> Res unit.

(** One after the other, up to the first error: [?] and [transform_up] (DataFusion), which visits children
    from left to right, then the node. *)
Fixpoint in_turn (l : list (list event * Res unit)) : list event * Res unit :=
  match l with
  | [] => ([], Ok tt)
  | (evs, r) :: l =>
      match r with
      | Ok _ => let '(evs', r') := in_turn l in (evs ++ evs', r')
      | _ => (evs, r)
      end
  end.

(** Lines 34-47. *)
Definition send_stage (at_ : list nat) (num : nat) (b : bkind) (tasks : nat) : list event * Res unit :=
  match routed at_ with
  | Ok _ => let '(evs, r) := send_tasks sent at_ num 0 tasks in (Routed at_ num b tasks :: evs, r)
  | r => ([], r)
  end.

(** Lines 24-57. *)
Fixpoint send_static (at_ : list nat) (t : tree) : list event * Res unit :=
  match t with
  | Node _ cs | Ciu _ _ cs =>
      in_turn (map (fun '(f, i) => f (i :: at_))
        (combine (map (fun c a => send_static a c) cs) (seq 0 (List.length cs))))
  | Net b _ _ num tasks i => in_turn [send_static (0 :: at_) i; send_stage at_ num b tasks]
  end.

(** Line 24, from the root. *)
Definition prepare_static (p : tree) : list event * Res unit := send_static [] p.
End Upfront.
