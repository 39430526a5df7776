(** Model of how a query whose task counts are chosen while it runs is sent out piece by piece:
    src/distributed_planner/inject_network_boundaries.rs lines 229-402 as a tree of futures, with the
    builder of src/coordinator/prepare_dynamic_plan.rs lines 36-131. DynModel gives the plan that comes
    out; here is what happens on the way, in which order, for every timing.

    Each node of the plan has a future. It waits for the futures of its children
    (inject_network_boundaries.rs:236-246, [try_join_all]); between that and its own end it only waits for
    the sampling of the stage it closes, if it closes one. (The answer of the handlers, line 252, may take
    time too; nothing happens at that node meanwhile, so their answer is part of the step.) *)
From Coq Require Import NArith.
From Verif Require Import Base NetModel CiuModel EventsModel JoinModel PlannerModel DynModel.
Open Scope nat_scope.

Section Stagewise.
Context {row : Type}.
Notation tree := (tree row).
Variable cfg : settings row.
Variable bytes_per_partition : N.

(** What the outside world contributes, at the position of the node that closes the stage (a position is
    the way to the root, as child numbers): the outcome of [calculate_cost] (prepare_dynamic_plan.rs:49),
    of routing (line 88), of the sending of task [i] (lines 94-100), and of the sampling (lines 108-109). *)
Variable cost : list nat -> Res (option N).
Variable routed : list nat -> Res unit.
Variable sent : list nat -> nat -> Res unit.
Variable sampled : list nat -> Res unit.

(** What is seen from outside: the router chose the workers for the [tasks] tasks of the stage closed at a
    position, which has number [num] and is read through a boundary [b]; its task [task] was handed over
    for sending; its sampling came to an end. *)
Inductive event :=
| Routed (at_ : list nat) (num : nat) (b : bkind) (tasks : nat)
| Sent (at_ : list nat) (num task : nat)
| Sampled (at_ : list nat) (num : nat).

(** A future of [_inject_network_boundaries]: waiting for its children; waiting for the sampling of the
    stage it has sent; ended with a plan or with an error. *)
Inductive walk :=
| Join (parent : option bool) (t : tree) (cs : list walk)
| Waiting (num tasks : nat) (b : bkind) (plan : tree)
| Ready (r : tree * annotation)
| Broken (why : Res unit).

(** Lines 229-246: the futures are made for the whole plan; none has done anything yet. *)
Fixpoint start (parent : option bool) (t : tree) : walk :=
  Join parent t
    (match t with
     | Node _ cs | Ciu _ _ cs => map (start (Some (is_coalesce t))) cs
     | Net _ _ _ _ _ i => [start (Some (is_coalesce t)) i]
     end).

(** The end of a future whose outcome is known. *)
Definition ended_with {A} (f : A -> walk) (r : Res A) : walk :=
  match r with
  | Ok a => f a
  | Err e => Broken (Err e)
  | Panic e => Broken (Panic e)
  end.

(** Lines 323-378: which boundary is put above the node. *)
Definition stage_kind (parent : option bool) (t : tree) : option bkind :=
  if is_hash_repart t then Some BShuffle
  else if is_bcast t then Some BBroadcast
  else match parent with Some true => Some BCoalesce | _ => None end.

(** prepare_dynamic_plan.rs:49-81, from the cost to the plan that will be sent. *)
Definition sized (at_ : list nat) (t : tree) (count : annotation) : Res (nat * tree) :=
  let* c := cost at_ in
  let* most := max_tasks cfg in
  let* n := compute_based_task_count bytes_per_partition (match c with Some c => c | None => 0%N end)
              (tparts t) most in
  let count := merge count (Desired n) in
  let* plan := propagate_remote cfg t (as_usize count) in
  Ok (as_usize count, plan).

(** Lines 90-101: the tasks [i], [i + 1], ... are handed over for sending one after the other; the first
    error ends the loop. *)
Fixpoint send_tasks (at_ : list nat) (num i : nat) (n : nat) : list event * Res unit :=
  match n with
  | 0 => ([], Ok tt)
  | S n =>
      match sent at_ i with
      | Ok _ => let '(evs, r) := send_tasks at_ num (S i) n in (Sent at_ num i :: evs, r)
      | r => ([], r)
      end
  end.

(** Lines 117-131 and the constructor of the boundary (inject_network_boundaries.rs:338-341, 357-360,
    379-391). *)
Definition put_boundary (b : bkind) (tasks : nat) (plan : tree) : Res (tree * annotation) :=
  match b with
  | BShuffle => Ok (Net BShuffle (tpartitioning plan) 0 0 tasks plan, Desired 1)
  | BBroadcast => Ok (Net BBroadcast (UnknownP (tparts plan)) 0 0 tasks plan, Desired 1)
  | BCoalesce =>
      let* p := scale_partitioning (tpartitioning plan) (fun p => p * Nat.max (div_ceil tasks 1) 1) in
      Ok (Net BCoalesce p 0 0 tasks plan, Maximum 1)
  end.

(** Lines 36-107: the stage is given the next number (inject_network_boundaries.rs:329, 347, 370), sized,
    routed and sent without any wait in between. A stage read by a coalescing boundary is not sampled
    (line 105). *)
Definition open_stage (at_ : list nat) (num : nat) (b : bkind) (t : tree) (count : annotation)
  : list event * walk :=
  match sized at_ t count with
  | Ok (tasks, plan) =>
      match routed at_ with
      | Ok _ =>
          let '(evs, r) := send_tasks at_ num 0 tasks in
          (Routed at_ num b tasks :: evs,
           ended_with (fun _ => match b with
                                | BCoalesce => ended_with Ready (put_boundary b tasks plan)
                                | _ => Waiting num tasks b plan
                                end) r)
      | Err e => ([], Broken (Err e))
      | Panic e => ([], Broken (Panic e))
      end
  | Err e => ([], Broken (Err e))
  | Panic e => ([], Broken (Panic e))
  end.

(** inject_network_boundaries.rs:248-402 up to the next wait, for a node whose children have all ended
    with the plans [cs]; [next] is the number of the next stage. *)
Definition resume (at_ : list nat) (next : nat) (parent : option bool) (t : tree)
    (cs : list (tree * annotation)) : list event * nat * walk :=
  match (let* des := desired_task_count cfg t in
         let* most := max_tasks cfg in
         Ok (limit (node_count cfg t des (map snd cs)) most)) with
  | Ok count =>
      let t' := rebuild t cs in
      match stage_kind parent t' with
      | Some b => let '(evs, w) := open_stage at_ next b t' count in (evs, S next, w)
      | None =>
          ([], next,
           match parent with
           | Some _ => Ready (t', count)
           | None => ended_with (fun t'' => Ready (t'', count)) (propagate_remote cfg t' (as_usize count))
           end)
      end
  | Err e => ([], next, Broken (Err e))
  | Panic e => ([], next, Broken (Panic e))
  end.

(** One step of the future at [at_], or of one below it. Whichever may go on may go on next: timing is
    left open. When a child has ended with an error the node ends with it, now or later ([try_join_all]
    looks at once with up to 30 children, and in the order of the children with more). *)
Inductive wstep : list nat -> nat -> walk -> list event -> nat -> walk -> Prop :=
| step_child at_ next parent t l w r evs next' w' :
    wstep (List.length l :: at_) next w evs next' w' ->
    wstep at_ next (Join parent t (l ++ w :: r)) evs next' (Join parent t (l ++ w' :: r))
| step_broken at_ next parent t l why r :
    wstep at_ next (Join parent t (l ++ Broken why :: r)) [] next (Broken why)
| step_node at_ next parent t rs evs next' w :
    resume at_ next parent t rs = (evs, next', w) ->
    wstep at_ next (Join parent t (map Ready rs)) evs next' w
| step_sampled at_ next num tasks b plan :
    sampled at_ = Ok tt ->
    wstep at_ next (Waiting num tasks b plan) [Sampled at_ num] next
      (ended_with Ready (put_boundary b tasks plan))
| step_not_sampled at_ next num tasks b plan why :
    sampled at_ = why -> why <> Ok tt ->
    wstep at_ next (Waiting num tasks b plan) [] next (Broken why).

(** prepare_dynamic_plan.rs:34: [prepares p k log next w]: after [k] steps of the preparation of [p] the
    events [log] were seen and the future of the root is [w]. *)
Inductive prepares (p : tree) : nat -> list event -> nat -> walk -> Prop :=
| prepares_start : prepares p 0 [] 1 (start None p)
| prepares_step k log next w evs next' w' :
    prepares p k log next w -> wstep [] next w evs next' w' ->
    prepares p (S k) (log ++ evs) next' w'.
End Stagewise.
