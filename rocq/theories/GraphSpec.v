(** Vocabulary of the theorems about pictures of plans. *)
From Verif Require Import Base NetModel GraphModel.

(** The operators of a stage: everything down to, and including, its boundaries. *)
Fixpoint operators (p : vplan) : list vplan :=
  match p with VOp _ _ cs => p :: flat_map operators cs | VBoundary _ _ _ _ _ => [p] end.

(** The stages of a plan are numbered without repetitions. *)
Definition numbered (p : vplan) : Prop := NoDup (map vs_num (find_all_stages p)).

(** When it is executed, task [i] of the [n] tasks of the consumer stage asks, for partition [p] of a boundary with
    [parts] partitions, task [k] of the [m] tasks of the input stage for its partition [q] (the calls of NetModel.v). *)
Definition asks (b : bkind) (parts m i n p k q : nat) : Prop :=
  let ctx := mkCtx i n in
  let named (r : request nat) := rq_task r = k /\ rq_target r = q in
  match b with
  | BShuffle => exists reqs r, shuffle_requests (mkShuffle (HashP (fun _ : nat => 0) parts) (Remote m) m) m ctx p = Ok reqs /\ In r reqs /\ named r
  | BBroadcast => exists r, In r (broadcast_requests (mkBroadcast parts (Remote m) m) m ctx p) /\ named r
  | BCoalesce => exists r, coalesce_request (mkCoalesce (UnknownP parts) (Remote m) m) ctx p = Ok (Some r) /\ named r
  end.

(** The [i]-th box that is drawn for each task of the stage stands for this operator. *)
Definition drawn_as (s : vstage) (index : nat) (q : vplan) : Prop :=
  exists parent, In (index, q, parent) (visit next_drawn (vs_plan s)).

(** An arrow that joins two ports that are drawn. *)
Definition joins_ports (nodes : list vnode) (e : vedge) : Prop :=
  (exists n, In n nodes /\ vn_id n = ve_from e /\ ve_top e < vn_top n) /\
  (exists n, In n nodes /\ vn_id n = ve_to e /\ ve_bottom e < vn_bottom n).

(** What the pictures can show: stages without broadcasts whose head is not a boundary, and coalesces into a single task. *)
Definition simple_stage (s : vstage) : Prop :=
  (exists n parts cs, vs_plan s = VOp n parts cs) /\
  forall k parts num tasks input, In (VBoundary k parts num tasks input) (operators (vs_plan s)) ->
    k = BShuffle \/ (k = BCoalesce /\ vs_tasks s = 1).
(** No operator reads a child with more partitions than its first child; the head of an input stage has the partitions
    that are asked for (ProducerHead::insert, network_boundary.rs:84-108, and network_coalesce.rs:86-102). *)
Definition fitting_stage (s : vstage) : Prop :=
  (forall n parts c cs d, In (VOp n parts (c :: cs)) (operators (vs_plan s)) -> In d (c :: cs) -> vparts d <= vparts c) /\
  (forall parts num tasks input, In (VBoundary BShuffle parts num tasks input) (operators (vs_plan s)) -> parts * vs_tasks s <= vparts input) /\
  (forall parts num tasks input, In (VBoundary BCoalesce parts num tasks input) (operators (vs_plan s)) -> parts <= vparts input * tasks).
