(** Executions in which partitions of the plan may fail: what becomes of a failure on its way through the
    operators, the isolated unions and the network boundaries.

    NetRunModel.v speaks of executions all of whose partitions are read to their ends without an error. Here
    every partition of every node in every task has an outcome of its own. *)
From Verif Require Import Base NetModel CiuModel EventsModel PlannerModel ExecModel OrderModel PoolModel PoolSpec DemuxModel DemuxSpec
  NetRunModel.

Section Fault.
Context {row err : Type}.
Notation tree := (tree row).
Notation message := (@item (list row) + err)%type.

(** A stream that ended normally with these rows, or one that did not: it yielded an error or never ended. *)
Definition outcome := option (list row).
Notation outcomes := (nat -> nat -> outcome).

(** All partitions of a node in one task, and in [n] tasks, ended normally. *)
Definition ended (P : nat) (o : nat -> outcome) : Prop := forall p, p < P -> o p <> None.
Definition all_ended (n P : nat) (o : outcomes) : Prop := forall i, i < n -> ended P (o i).

Definition rows (o : outcomes) (i p : nat) : list row := match o i p with Some l => l | None => [] end.

(** Which partitions of the input of a stage's head its partition [q] reads, as in [exec] of NetModel.v:
    a RepartitionExec pulls all of them and passes an error on to all its outputs (DataFusion,
    repartition/mod.rs); execution_plans/broadcast.rs:158-210; without a head it is the partition itself. *)
Definition head_reads (plan : splan row) (q p : nat) : Prop :=
  match plan with
  | SRepart _ input => p < parts input
  | SBcast _ input => p = q mod parts input
  | SOther _ _ => p = q
  end.

(** The streams of the workers are backed by their plans: a stream that has no error reads partitions that
    ended normally only. *)
Definition backed (producers : nat -> splan row) (below : outcomes) (h : node_net row err) : Prop :=
  forall r, In r (pl_issued (nn_pool h)) -> (forall e reads, nn_link h (rq_task r) <> Refused e reads) ->
  forall j s plan p, nth_error (nn_sources h (rq_task r)) j = Some s -> error_free s ->
    insert_head (rq_head r) (producers (rq_task r)) = Ok plan -> head_reads plan (rq_start r + j) p ->
    below (rq_task r) p <> None.

Variables (budget capacity : nat) (bad : nat -> err).

(** A boundary executed by [n] consumer tasks, each with a history of its own (see [net_delivers]). A
    partition ends normally only if its streams did: network_shuffle.rs:247-251 and
    network_broadcast.rs:271-275 hand on the errors of the streams they select from. *)
Definition boundary_outcomes (b : bkind) (part : partitioning row) (tasks P : nat) (producers : nat -> splan row)
    (below : outcomes) (n : nat) (o : outcomes) : Prop :=
  forall i, i < n -> exists h,
    node_history budget capacity bad b part tasks P producers (mkCtx i n) (seq 0 (partition_count part)) h /\
    backed producers below h /\
    forall p l, p < partition_count part -> o i p = Some l -> partition_read b part tasks (mkCtx i n) h p l.

(** The children of an isolated union, and its outcome: children_isolator_union.rs:313-351 returns the
    child's stream itself or an empty one. *)
Definition isolated_outcomes (cs : list tree) (os : list outcomes) : list (child outcome) :=
  map (fun '(c, g) => mkChild (tparts c) (fun ctx p => Ok [g (task_index ctx) p])) (combine cs os).
Fixpoint joined (l : list outcome) : outcome :=
  match l with
  | [] => Some []
  | None :: _ => None
  | Some x :: l => option_map (app x) (joined l)
  end.

(** [runs_with_failures acts remote t n o]: [o] is what may become of the partitions of [t] when it is executed
    by [n] tasks. Assumed of DataFusion's operators: if all partitions of an operator end normally in a task,
    it has read all its inputs in that task to their normal ends (operators with a limit and joins that stop
    early are not modelled here), and if it does so in all tasks, its rows are as in OrderModel.v. Nothing is
    assumed of what a node yields that did not end normally. *)
Fixpoint runs_with_failures (acts : op row -> list row -> list row -> Prop) (remote : bool) (t : tree) (n : nat)
    (o : outcomes) {struct t} : Prop :=
  match t with
  | Node k cs => exists os,
      Forall2 (fun R g => R g) (map (fun c => runs_with_failures acts remote c n) cs) os /\
      (forall i, i < n -> ended (tparts t) (o i) -> Forall2 (fun P g => ended P (g i)) (map tparts cs) os) /\
      (all_ended n (tparts t) o -> node_delivers acts remote k (map tparts cs) n (map rows os) (rows o))
  | Ciu w m cs => exists os,
      Forall2 (fun R g => R g)
        (map (fun '(R, k) => R k)
           (combine (map (runs_with_failures acts remote) cs) (map_task_counts (List.length cs) m))) os /\
      forall i p, i < n -> p < tparts t -> exists l,
        ciu_execute (mkCiu (tparts t) (isolated_outcomes cs os) w m) (mkCtx i n) p = Ok l /\ o i p = joined l
  | Net b part _ _ tasks plan =>
      match plan with
      | Node (KRepart p) [c] => exists g, runs_with_failures acts true c tasks g /\
          boundary_outcomes b part tasks (tparts c) (fun t => SRepart p (SOther (tparts c) (rows g t))) g n o
      | Node (KBcast m) [c] => exists g, runs_with_failures acts true c tasks g /\
          boundary_outcomes b part tasks (tparts c) (fun t => SBcast m (SOther (tparts c) (rows g t))) g n o
      | _ => exists g, runs_with_failures acts true plan tasks g /\
          boundary_outcomes b part tasks (tparts plan) (fun t => SOther (tparts plan) (rows g t)) g n o
      end
  end.
End Fault.
Arguments outcome : clear implicits.
