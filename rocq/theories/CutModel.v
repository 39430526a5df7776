(** Executions cut short: what has been read of every partition so far, whether or not it will ever end.

    FaultModel.v says nothing of the rows of a partition that did not end normally, and takes it that operators
    read their inputs to the end. Here partitions are read as far as someone wants to: an operator may have
    what it needs (LIMIT), the client may stop reading, and what is left unread may fail or be abandoned. *)
From Verif Require Import Base NetModel CiuModel EventsModel PlannerModel ExecModel OrderModel PoolModel PoolSpec DemuxModel DemuxSpec
  NetRunModel FaultModel.

Section Cut.
Context {row err : Type}.
Notation tree := (tree row).
Notation table := (nat -> nat -> list row).
Notation message := (@item (list row) + err)%type.

(** What has been read of a partition: its rows so far and whether its normal end was seen. After an error
    it stays as it is. *)
Record reading := mkReading { seen : list row; closed : bool }.
Notation readings := (nat -> nat -> reading).

(** The partition may turn out to have the rows [l]. *)
Definition completes (r : reading) (l : list row) : Prop :=
  exists rest, l = seen r ++ rest /\ (closed r = true -> rest = []).
(** All partitions of a node in all tasks (entries of the tables beyond them mean nothing: whatever else is said
    of the tables does not depend on them). *)
Definition all_complete (o : readings) (f : table) : Prop := forall i p, completes (o i p) (f i p).

(** An operator executed by [n] tasks that has read [os] of its inputs, which have [ps] partitions, and
    yielded [o]. Assumed of DataFusion's operators: whatever the inputs would have gone on to yield, the
    operator could have gone on from what it has yielded to one of the results that OrderModel.v gives it for
    these inputs, without adding to the partitions it ended. For a leaf: what it has yielded is the beginning
    of a result. *)
Definition node_reads (acts : op row -> list row -> list row -> Prop) (remote : bool) (k : kind row) (ps : list nat)
    (n : nat) (os : list readings) (o : readings) : Prop :=
  forall gs, Forall2 all_complete os gs ->
    exists f, all_complete o f /\ node_delivers acts remote k ps n gs f.

(** The partitions that ended normally, as in FaultModel.v. *)
Definition ends (o : readings) (i p : nat) : outcome row :=
  if closed (o i p) then Some (seen (o i p)) else None.
Definition rows_seen (o : readings) (i p : nat) : list row := seen (o i p).

(** The streams of the workers yield nothing but rows of their partitions, as far as these were read:
    impl_execute_task.rs:37-58, for requests that are not refused. *)
Definition streams_so_far (b : bkind) (P : nat) (producers : nat -> splan row) (h : node_net row err) : Prop :=
  forall r, In r (pl_issued (nn_pool h)) -> (forall e reads, nn_link h (rq_task r) <> Refused e reads) ->
  forall canon j c s, worker_execute_task (producers (rq_task r)) (rq_head r) (rq_start r) (rq_end r) = Ok canon ->
    nth_error canon j = Some c -> nth_error (nn_sources h (rq_task r)) j = Some s ->
    exists rest, sent b P c (rows_of s ++ rest).

(** The call [r] was not given a stream, or was given one of which [got] was taken. *)
Definition call_so_far (h : node_net row err) (r : request row) (got : list message) : Prop :=
  got = [] \/
  exists c t i s read e, outcome_of (nn_pool h) c r (Got t i s) /\
    link_read (nn_link h (fst s)) (snd s) = Some (read, e) /\ conn_prefix got read.

(** Partition [p] has yielded [rows] so far, and no error among them. *)
Definition partition_so_far (b : bkind) (part : partitioning row) (tasks : nat) (ctx : TaskCtx) (h : node_net row err)
    (p : nat) (rows : list row) : Prop :=
  exists reqs gots out, boundary_requests b part tasks ctx p = Ok reqs /\
    Forall2 (call_so_far h) reqs gots /\ merge_of gots out /\ error_free out /\ rows = rows_of out.

Variables (budget capacity : nat) (bad : nat -> err).

(** A boundary executed by [n] consumer tasks, each with a history of its own (see [net_delivers]), over
    tasks holding [producers] and of whose partitions [below] was read. *)
Definition boundary_reads (b : bkind) (part : partitioning row) (tasks P : nat) (producers : nat -> splan row)
    (below : readings) (n : nat) (o : readings) : Prop :=
  forall i, i < n -> exists h,
    node_history budget capacity bad b part tasks P producers (mkCtx i n) (seq 0 (partition_count part)) h /\
    backed producers (ends below) h /\ streams_so_far b P producers h /\
    forall p, p < partition_count part ->
      if closed (o i p) then partition_read b part tasks (mkCtx i n) h p (seen (o i p))
      else partition_so_far b part tasks (mkCtx i n) h p (seen (o i p)).

(** The children of an isolated union: children_isolator_union.rs:313-351 returns the child's stream itself or
    an empty one. *)
Definition isolated_readings (cs : list tree) (os : list readings) : list (child reading) :=
  map (fun '(c, g) => mkChild (tparts c) (fun ctx p => Ok [g (task_index ctx) p])) (combine cs os).
Definition only (l : list reading) : reading := hd (mkReading [] true) l.

(** [runs_so_far acts remote t n o]: [o] is what may have been read of the partitions of [t] at some point of an
    execution by [n] tasks. *)
Fixpoint runs_so_far (acts : op row -> list row -> list row -> Prop) (remote : bool) (t : tree) (n : nat)
    (o : readings) {struct t} : Prop :=
  match t with
  | Node k cs => exists os,
      Forall2 (fun R g => R g) (map (fun c => runs_so_far acts remote c n) cs) os /\
      node_reads acts remote k (map tparts cs) n os o
  | Ciu w m cs => exists os,
      Forall2 (fun R g => R g)
        (map (fun '(R, k) => R k)
           (combine (map (runs_so_far acts remote) cs) (map_task_counts (List.length cs) m))) os /\
      forall i p, i < n -> p < tparts t -> exists l,
        ciu_execute (mkCiu (tparts t) (isolated_readings cs os) w m) (mkCtx i n) p = Ok l /\ o i p = only l
  | Net b part _ _ tasks plan =>
      match plan with
      | Node (KRepart p) [c] => exists g, runs_so_far acts true c tasks g /\
          boundary_reads b part tasks (tparts c) (fun t => SRepart p (SOther (tparts c) (rows_seen g t))) g n o
      | Node (KBcast m) [c] => exists g, runs_so_far acts true c tasks g /\
          boundary_reads b part tasks (tparts c) (fun t => SBcast m (SOther (tparts c) (rows_seen g t))) g n o
      | _ => exists g, runs_so_far acts true plan tasks g /\
          boundary_reads b part tasks (tparts plan) (fun t => SOther (tparts plan) (rows_seen g t)) g n o
      end
  end.
End Cut.
Arguments reading : clear implicits.
