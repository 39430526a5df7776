(** Reading network boundaries over the network: the connection pool of a boundary (PoolModel.v), the
    connections behind it (DemuxModel.v) or the streams of a worker in the same process, and the merge of
    the streams that a boundary returns. ExecModel.v and OrderModel.v take boundaries as functions of the
    plans that the producer tasks hold; here they are histories.

    Simplified: a message of a connection carries the rows of one batch. That the producer task asked is
    the one that holds the plan (by its key) is the subject of TaskModel.v. *)
From Verif Require Import Base NetModel CiuModel PlannerModel ExecModel OrderModel PoolModel PoolSpec DemuxModel DemuxSpec.

Section NetRun.
Context {row err : Type}.
Notation message := (@item (list row) + err)%type.
Notation table := (nat -> nat -> list row).

Definition rows_of (l : list message) : list row :=
  flat_map (fun m => match m with inl it => it_data it | inr _ => [] end) l.

(** The calls that executing one partition of a boundary makes: network_shuffle.rs:231-245,
    network_broadcast.rs:255-269, network_coalesce.rs:275-342. *)
Definition boundary_requests (b : bkind) (part : partitioning row) (tasks : nat) (ctx : TaskCtx) (p : nat)
  : Res (list (request row)) :=
  match b with
  | BShuffle => shuffle_requests (mkShuffle part (Remote tasks) tasks) tasks ctx p
  | BBroadcast => Ok (broadcast_requests (mkBroadcast (partition_count part) (Remote tasks) tasks) tasks ctx p)
  | BCoalesce =>
      let* r := coalesce_request (mkCoalesce part (Remote tasks) tasks) ctx p in
      Ok (match r with Some r => [r] | None => [] end)
  end.

(** The streams that a worker holding [plan] builds for a request (impl_execute_task.rs:37-58): it accepts
    the request, and every stream that does not fail yields the rows of its partition. [P] is the number
    of partitions below the head of the plan. *)
Definition worker_streams (b : bkind) (P : nat) (plan : splan row) (r : request row) (sources : list (list message))
  : Prop :=
  exists canon, worker_execute_task plan (rq_head r) (rq_start r) (rq_end r) = Ok canon /\
    Forall2 (fun c s => error_free s -> sent b P c (rows_of s)) canon sources.

(** How the streams of a producer task are read (worker_connection_pool.rs:97-109). [InProcess]: the
    worker is in this process and its streams are handed over as they are
    (protocol/in_process/worker_client.rs:43-52); what was read of each, and whether its end was seen.
    [OverGrpc]: over a connection. [Refused]: over a connection whose request failed, so that every stream
    gets its error (protocol/grpc/worker_client.rs:174-185). *)
Inductive link :=
| InProcess (reads : list (list message * bool))
| OverGrpc (k : @conn (list row) err)
| Refused (e : err) (reads : list (list message * bool)).

Variables (budget capacity : nat) (bad : nat -> err).

Definition link_reachable (b : bkind) (P : nat) (plan : splan row) (r : request row)
    (sources : list (list message)) (l : link) : Prop :=
  match l with
  | InProcess reads => worker_streams b P plan r sources /\
      Forall2 (fun s read => exists rest, s = fst read ++ rest /\ (snd read = true -> rest = [])) sources reads
  | OverGrpc k => worker_streams b P plan r sources /\ conn_reachable (rq_start r) budget capacity bad sources k
  | Refused e reads => List.length reads = List.length sources /\
      Forall (fun read => read = ([], false) \/ fst read = [inr e]) reads
  end.

(** What the [i]-th stream of a link yielded so far, and whether its end was seen. *)
Definition link_read (l : link) (i : nat) : option (list message * bool) :=
  match l with
  | InProcess reads | Refused _ reads => nth_error reads i
  | OverGrpc k => option_map (fun p => (p_got p, p_ended p)) (nth_error (k_parts k) i)
  end.

(** Neither the tasks that pull the partitions on the worker nor the demultiplexing task crashed; a crash
    ends a stream as if it were complete (see C28). *)
Definition uncrashed (l : link) : Prop :=
  match l with
  | OverGrpc k => k_crashed k = false /\ forall q, In q (k_parts k) -> p_lost q = []
  | _ => True
  end.

(** A boundary in one consumer task: its pool, whose streams are numbered by producer task and position,
    and for every producer task the streams of the worker and the link to it. *)
Record node_net := mkNodeNet {
  nn_pool : pool row (nat * nat) err;
  nn_sources : nat -> list (list message);
  nn_link : nat -> link
}.

(** All histories of a boundary whose partitions [ps] were executed, in any order and concurrently; the
    input stage runs in [tasks] tasks holding [producers]. *)
Record node_history (b : bkind) (part : partitioning row) (tasks P : nat) (producers : nat -> splan row)
    (ctx : TaskCtx) (ps : list nat) (h : node_net) : Prop := {
  hist_pool : pool_reachable tasks tasks (nn_pool h);
  hist_calls : exists calls, mapM (boundary_requests b part tasks ctx) ps = Ok calls /\
    Permutation (map fst (pl_calls (nn_pool h))) (List.concat calls);
  hist_answers : forall t l, In (t, inl l) (pl_answers (nn_pool h)) -> exists r,
    In r (pl_issued (nn_pool h)) /\ rq_task r = t /\
    List.length (nn_sources h t) = rq_end r - rq_start r /\
    l = map (pair t) (seq 0 (List.length (nn_sources h t))) /\
    link_reachable b P (producers t) r (nn_sources h t) (nn_link h t) /\ uncrashed (nn_link h t)
}.

(** The call [r] was given a stream and the stream was read to its end, yielding [got]. *)
Definition call_read (h : node_net) (r : request row) (got : list message) : Prop :=
  exists c t i s, outcome_of (nn_pool h) c r (Got t i s) /\ link_read (nn_link h (fst s)) (snd s) = Some (got, true).

(** Partition [p] was read to its end without an error; its stream merges those of its calls
    (network_shuffle.rs:247-251, network_broadcast.rs:271-275; a coalesce has one stream or none) and
    yields [rows]. *)
Definition partition_read (b : bkind) (part : partitioning row) (tasks : nat) (ctx : TaskCtx) (h : node_net)
    (p : nat) (rows : list row) : Prop :=
  exists reqs gots out, boundary_requests b part tasks ctx p = Ok reqs /\
    Forall2 (call_read h) reqs gots /\ merge_of gots out /\ error_free out /\ rows = rows_of out.

(** A boundary executed by [n] consumer tasks, each with a history of its own, all of whose partitions
    were read to their ends without an error. *)
Definition net_delivers (b : bkind) (part : partitioning row) (tasks P : nat) (producers : nat -> splan row)
    (n : nat) (f : table) : Prop :=
  forall i, i < n -> exists h,
    node_history b part tasks P producers (mkCtx i n) (seq 0 (partition_count part)) h /\
    forall p, p < partition_count part -> partition_read b part tasks (mkCtx i n) h p (f i p).

(** [delivers_networked acts remote t n f]: as [delivers] (OrderModel.v), with every boundary read over the
    network. *)
Fixpoint delivers_networked (acts : op row -> list row -> list row -> Prop) (remote : bool) (t : tree row) (n : nat)
    (f : table) {struct t} : Prop :=
  match t with
  | Node k cs => exists fs,
      Forall2 (fun R g => R g) (map (fun c => delivers_networked acts remote c n) cs) fs /\
      node_delivers acts remote k (map tparts cs) n fs f
  | Ciu w m cs => exists fs,
      Forall2 (fun R g => R g)
        (map (fun '(R, k) => R k)
           (combine (map (delivers_networked acts remote) cs) (map_task_counts (List.length cs) m))) fs /\
      forall i p, i < n -> p < tparts t ->
        ciu_execute (mkCiu (tparts t) (isolated_children cs fs) w m) (mkCtx i n) p = Ok (f i p)
  | Net b part _ _ tasks plan =>
      match plan with
      | Node (KRepart p) [c] => exists g, delivers_networked acts true c tasks g /\
          net_delivers b part tasks (tparts c) (fun t => SRepart p (SOther (tparts c) (g t))) n f
      | Node (KBcast m) [c] => exists g, delivers_networked acts true c tasks g /\
          net_delivers b part tasks (tparts c) (fun t => SBcast m (SOther (tparts c) (g t))) n f
      | _ => exists g, delivers_networked acts true plan tasks g /\
          net_delivers b part tasks (tparts plan) (fun t => SOther (tparts plan) (g t)) n f
      end
  end.
End NetRun.
Arguments node_net : clear implicits.
Arguments link : clear implicits.
