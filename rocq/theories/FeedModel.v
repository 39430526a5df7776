(** Work unit feeds: from the providers on the coordinator to the leaves on the workers.
    Model of /repo/src/coordinator/query_coordinator.rs:225-338, coordinator/distributed.rs:204-246,
    work_unit_feed/remote_work_unit_feed.rs, worker/impl_coordinator_channel.rs:37-40,108-157. *)
From Verif Require Import Base NetModel.
From Coq Require Import NArith.

Section Feed.
(** The payload of a work unit. Encoding it for the wire is C43; a payload of the wrong type is not modelled. *)
Context {unit_ : Type}.

(** An item of a provider's stream: [Result<Box<dyn WorkUnit>>]. *)
Inductive item := Unit_ (u : unit_) | Bad (e : string).

(** ** The coordinator *)

(** A node of a stage that has a feed (query_coordinator.rs:285-296): its feed id, its partition count and
    the context with which the walk [apply_with_dt_ctx] (C14) visits it in this task. *)
Record node := mkNode { nid : nat; nparts : nat; nctx : TaskCtx }.

(** query_coordinator.rs:290-305: the feeds asked from the provider, each with the local partition that
    labels its items. *)
Definition feed_calls (n : node) : list (nat * nat) :=
  let start_partition := nparts n * task_index (nctx n) in
  combine (seq 0 (nparts n)) (seq start_partition (nparts n)).

(** What a provider's stream did so far: items it made, how many were taken, and whether it ended. *)
Record source := mkSource { made : list item; taken : nat; ended : bool }.

(** A message of the coordinator channel: a batch of (feed id, partition, unit), or the end of all feeds. *)
Notation key := (nat * nat)%type.
Inductive msg := Batch (l : list (key * unit_)) | WorkUnitEos.

(** remote_work_unit_feed.rs:62-82 [build_work_unit_batch_msg]; timestamps are in [latencies] below. *)
Definition build_work_unit_batch_msg (id : nat) (chunk : list (nat * item)) : Res msg :=
  let* batch := mapM (fun '(partition, x) => match x with
                        | Unit_ u => Ok ((id, partition), u)
                        | Bad e => Err e
                        end) chunk in
  Ok (Batch batch).

(** The background task of query_coordinator.rs:332-336. *)
Inductive status := Running | Finished | Failed (e : string) | Aborted.

(** The receiver of a feed on the worker: not asked for yet, owned by a leaf, or dropped. *)
Inductive rx_state := Waiting | Reading | Released.

(** The worker's answers (query_coordinator.rs:214-219): open, ended without error, or ended by an error. *)
Inductive answers_state := Open_ | Ended_ | Lost.

(** One task: the coordinator's side, the channel and the worker's side. [sent] and [got] are history. *)
Record task := mkTask {
  nodes : list node;
  sources : nat -> nat -> source;       (* node position, feed index *)
  future_done : nat -> bool;            (* node position *)
  result : status;
  chan : list msg;                      (* sent and not yet read by the worker *)
  broken : bool;                        (* the connection failed *)
  senders : option (list key);          (* live senders of the worker's loop *)
  queue : key -> list unit_;
  rx : key -> rx_state;
  got : key -> list unit_;              (* what the leaf read *)
  saw_end : key -> bool;                (* the leaf's stream ended *)
  sent : nat -> nat -> list unit_;      (* what the coordinator put into the channel *)
  collect : bool;                       (* the setting [collect_metrics] *)
  answers : answers_state               (* the worker's answers, as the coordinator sees them *)
}.

Definition WORK_UNIT_FEED_CHUNK_SIZE := 256. (* query_coordinator.rs:39 *)

Definition key_eqb (a b : key) : bool := (fst a =? fst b) && (snd a =? snd b).
Definition set {B} (f : key -> B) (k : key) (v : B) : key -> B := fun k' => if key_eqb k k' then v else f k'.
Definition set2 {B} (f : nat -> nat -> B) (n j : nat) (v : B) : nat -> nat -> B :=
  fun n' j' => if (n =? n') && (j =? j') then v else f n' j'.

(** remote_work_unit_feed.rs:48-59 [add], impl_coordinator_channel.rs:37-40: one queue per declared
    (id, partition); a repeated key is skipped. The declarations are those of the visited nodes (C09). *)
Definition add (l : list key) (n : node) : list key :=
  fold_left (fun l p => if existsb (key_eqb (nid n, p)) l then l else l ++ [(nid n, p)]) (seq 0 (nparts n)) l.
Definition declared (ns : list node) : list key := fold_left add ns [].

Definition start (metrics : bool) (ns : list node) : task :=
  mkTask ns (fun _ _ => mkSource [] 0 false) (fun _ => false) Running [] false (Some (declared ns))
    (fun _ => []) (fun _ => Waiting) (fun _ => []) (fun _ => false) (fun _ _ => []) metrics Open_.

(** [select_all] over the feeds of node [n] with [ready_chunks]: a chunk of items, each the next one of
    some feed, labelled with the local partition. *)
Inductive takes (n : nat) (calls : list (nat * nat)) : (nat -> nat -> source) -> list (nat * item) -> (nat -> nat -> source) -> Prop :=
| takes_nil s : takes n calls s [] s
| takes_cons s p j x l s' : In (p, j) calls -> nth_error (made (s n j)) (taken (s n j)) = Some x ->
    takes n calls (set2 s n j (mkSource (made (s n j)) (S (taken (s n j))) (ended (s n j)))) l s' ->
    takes n calls s ((p, x) :: l) s'.

(** Dropping the guard of lines 325-330 sends the end marker, if anyone is listening. *)
Definition with_eos (t : task) : list msg := if broken t then chan t else chan t ++ [WorkUnitEos].

Definition feed_of_partition (n : node) (p : nat) : nat := nparts n * task_index (nctx n) + p.
Definition record_sent (pos : nat) (n : node) (s : nat -> nat -> list unit_) (l : list (key * unit_)) : nat -> nat -> list unit_ :=
  fold_left (fun s '(k, u) => set2 s pos (feed_of_partition n (snd k)) (s pos (feed_of_partition n (snd k)) ++ [u])) l s.

(** ** The worker *)

(** impl_coordinator_channel.rs:132-144: one unit of a batch. *)
Definition deliver_unit (rxs : key -> rx_state) (s : list key * (key -> list unit_)) (m : key * unit_)
  : list key * (key -> list unit_) :=
  let '(live, q) := s in
  let '(k, u) := m in
  if existsb (key_eqb k) live
  then match rxs k with
       | Released => (filter (fun k' => negb (key_eqb k k')) live, q)
       | _ => (live, set q k (q k ++ [u]))
       end
  else s.

(** Lines 127-156. *)
Definition handle (m : msg) (t : task) : option (list key) * (key -> list unit_) :=
  match m with
  | Batch l =>
      match senders t with
      | None => (None, queue t)
      | Some live => let '(live, q) := fold_left (deliver_unit (rx t)) l (live, queue t) in (Some live, q)
      end
  | WorkUnitEos => (None, queue t)
  end.

(** remote_work_unit_feed.rs:141-159: a leaf asks for the feed of a partition. *)
Definition open_feed (t : task) (k : key) : Res task :=
  if existsb (key_eqb k) (declared (nodes t)) then
    match rx t k with
    | Waiting => Ok (mkTask (nodes t) (sources t) (future_done t) (result t) (chan t) (broken t) (senders t) (queue t)
                       (set (rx t) k Reading) (got t) (saw_end t) (sent t) (collect t) (answers t))
    | _ => Err "WorkUnit feed was already consumed"
    end
  else Err "Missing WorkUnit feed".

Definition sender_gone (t : task) (k : key) : bool :=
  match senders t with None => true | Some live => negb (existsb (key_eqb k) live) end.

(** ** Steps of a task *)
Inductive tstep : task -> task -> Prop :=
(** A provider's stream makes an item, or ends. *)
| t_make t n j x : ended (sources t n j) = false ->
    tstep t (mkTask (nodes t) (set2 (sources t) n j (mkSource (made (sources t n j) ++ [x]) (taken (sources t n j)) false))
               (future_done t) (result t) (chan t) (broken t) (senders t) (queue t) (rx t) (got t) (saw_end t) (sent t) (collect t) (answers t))
| t_end t n j :
    tstep t (mkTask (nodes t) (set2 (sources t) n j (mkSource (made (sources t n j)) (taken (sources t n j)) true))
               (future_done t) (result t) (chan t) (broken t) (senders t) (queue t) (rx t) (got t) (saw_end t) (sent t) (collect t) (answers t))
(** Lines 315-319: the future of node [pos] forwards a chunk; [tx.send] fails when the connection is gone.
    An error ends the whole task (line 334, [try_join_all]). *)
| t_chunk t pos n chunk s' l : result t = Running -> future_done t pos = false -> nth_error (nodes t) pos = Some n ->
    takes pos (feed_calls n) (sources t) chunk s' -> chunk <> [] -> List.length chunk <= WORK_UNIT_FEED_CHUNK_SIZE ->
    build_work_unit_batch_msg (nid n) chunk = Ok (Batch l) ->
    tstep t (if broken t
             then mkTask (nodes t) s' (fun m => if m =? pos then true else future_done t m) (result t) (chan t) (broken t)
                    (senders t) (queue t) (rx t) (got t) (saw_end t) (sent t) (collect t) (answers t)
             else mkTask (nodes t) s' (future_done t) (result t) (chan t ++ [Batch l]) (broken t)
                    (senders t) (queue t) (rx t) (got t) (saw_end t) (record_sent pos n (sent t) l) (collect t) (answers t))
| t_error t pos n chunk s' e : result t = Running -> future_done t pos = false -> nth_error (nodes t) pos = Some n ->
    takes pos (feed_calls n) (sources t) chunk s' -> List.length chunk <= WORK_UNIT_FEED_CHUNK_SIZE ->
    build_work_unit_batch_msg (nid n) chunk = Err e ->
    tstep t (mkTask (nodes t) s' (future_done t) (Failed e) (with_eos t) (broken t)
               (senders t) (queue t) (rx t) (got t) (saw_end t) (sent t) (collect t) (answers t))
(** The interleaved stream of a node is exhausted. *)
| t_future t pos n : result t = Running -> nth_error (nodes t) pos = Some n ->
    (forall p j, In (p, j) (feed_calls n) -> ended (sources t pos j) = true /\ taken (sources t pos j) = List.length (made (sources t pos j))) ->
    tstep t (mkTask (nodes t) (sources t) (fun m => if m =? pos then true else future_done t m) (result t) (chan t) (broken t)
               (senders t) (queue t) (rx t) (got t) (saw_end t) (sent t) (collect t) (answers t))
| t_joined t : result t = Running -> (forall pos, pos < List.length (nodes t) -> future_done t pos = true) ->
    tstep t (mkTask (nodes t) (sources t) (future_done t) Finished (with_eos t) (broken t)
               (senders t) (queue t) (rx t) (got t) (saw_end t) (sent t) (collect t) (answers t))
(** The connection fails: what was in flight is lost, the channel's receiver is dropped, and the worker's
    loop ends and drops its senders (impl_coordinator_channel.rs:126). *)
| t_break t : broken t = false ->
    tstep t (mkTask (nodes t) (sources t) (future_done t) (result t) [] true None (queue t) (rx t) (got t) (saw_end t) (sent t)
               (collect t) (match answers t with Open_ => Lost | a => a end))
(** The stream of answers ends (impl_coordinator_channel.rs:90-95,174-194). Without metrics collection nobody
    holds the sender of the metrics, so that it ends once the load reports are sent, at any time. With metrics
    collection it ends after the worker read everything the coordinator sent (and after the head stage ended,
    which the model does not require here). That the other direction stays open is HTTP/2's behaviour. *)
| t_answers t : answers t = Open_ -> collect t = false \/ (result t <> Running /\ chan t = [] /\ broken t = false) ->
    tstep t (mkTask (nodes t) (sources t) (future_done t) (result t) (chan t) (broken t) (senders t) (queue t)
               (rx t) (got t) (saw_end t) (sent t) (collect t) Ended_)
(** The worker reads a message. *)
| t_deliver t m rest : chan t = m :: rest ->
    tstep t (mkTask (nodes t) (sources t) (future_done t) (result t) rest (broken t)
               (fst (handle m t)) (snd (handle m t)) (rx t) (got t) (saw_end t) (sent t) (collect t) (answers t))
(** A leaf asks for a feed, reads from it, sees its end, or drops it. *)
| t_open t k t' : open_feed t k = Ok t' -> tstep t t'
| t_read t k u q : rx t k = Reading -> queue t k = u :: q ->
    tstep t (mkTask (nodes t) (sources t) (future_done t) (result t) (chan t) (broken t) (senders t) (set (queue t) k q)
               (rx t) (set (got t) k (got t k ++ [u])) (saw_end t) (sent t) (collect t) (answers t))
| t_saw_end t k : rx t k = Reading -> queue t k = [] -> sender_gone t k = true ->
    tstep t (mkTask (nodes t) (sources t) (future_done t) (result t) (chan t) (broken t) (senders t) (queue t)
               (rx t) (got t) (set (saw_end t) k true) (sent t) (collect t) (answers t))
| t_release t k : rx t k = Reading ->
    tstep t (mkTask (nodes t) (sources t) (future_done t) (result t) (chan t) (broken t) (senders t) (queue t)
               (set (rx t) k Released) (got t) (saw_end t) (sent t) (collect t) (answers t)).

(** Dropping the query aborts the background task; its guard still sends the end marker. *)
Definition abort (t : task) : task :=
  match result t with
  | Running => mkTask (nodes t) (sources t) (future_done t) Aborted (with_eos t) (broken t)
                 (senders t) (queue t) (rx t) (got t) (saw_end t) (sent t) (collect t) (answers t)
  | _ => t
  end.

(** ** The query (distributed.rs:204-246) *)

Record query := mkQuery {
  tasks : list task;
  rows_done : bool;                       (* the head stage's stream ended, line 235 *)
  outcome : option (Res unit);            (* how the result stream ended *)
  dropped : bool                          (* the caller dropped the result stream *)
}.

(** query_coordinator.rs:102-108 [drain_pending_tasks] waits for all background tasks: those that feed and
    those that read the worker's answers, which fail when the connection does (line 214). The order of the
    results is that of completion; the model takes some failing task. *)
Definition task_error (t : task) : option string :=
  match result t, answers t with
  | Failed e, _ => Some e
  | _, Lost => Some "connection failed"%string
  | _, _ => None
  end.
Definition task_ended (t : task) : bool :=
  match result t, answers t with Running, _ | _, Open_ => false | _, _ => true end.

Inductive qstep : query -> query -> Prop :=
| q_task q l t t' r : tasks q = l ++ t :: r -> tstep t t' -> qstep q (mkQuery (l ++ t' :: r) (rows_done q) (outcome q) (dropped q))
| q_rows q : qstep q (mkQuery (tasks q) true (outcome q) (dropped q))
| q_drain_ok q : rows_done q = true -> outcome q = None -> dropped q = false ->
    (forall t, In t (tasks q) -> task_ended t = true /\ task_error t = None) ->
    qstep q (mkQuery (tasks q) true (Some (Ok tt)) false)
| q_drain_error q t e : rows_done q = true -> outcome q = None -> dropped q = false ->
    (forall t, In t (tasks q) -> task_ended t = true) -> In t (tasks q) -> task_error t = Some e ->
    qstep q (mkQuery (tasks q) true (Some (Err e)) false)
| q_drop q : outcome q = None -> qstep q (mkQuery (map abort (tasks q)) (rows_done q) None true).

Definition start_query (metrics : bool) (l : list (list node)) : query := mkQuery (map (start metrics) l) false None false.

(** ** Clocks (remote_work_unit_feed.rs:183-205) *)

(** [usize] subtraction: a panic where overflow checks are on, else modulo 2^64. *)
Definition usize_sub (checks : bool) (a b : N) : Res N :=
  if (b <=? a)%N then Ok (a - b)%N
  else if checks then Panic "attempt to subtract with overflow" else Ok (a + 2 ^ 64 - b)%N.

(** The three latencies recorded for a unit; [created], [sent] are read from the coordinator's clock,
    [received], [processed] from the worker's. *)
Definition latencies (checks : bool) (created sent_at received processed : N) : Res (N * N * N) :=
  let* send := usize_sub checks sent_at created in
  let* recv := usize_sub checks received created in
  let* proc := usize_sub checks processed created in
  Ok (send, recv, proc).

(** Mapping a message to the unit handed to the leaf. *)
Definition receive_unit (checks : bool) (created sent_at received processed : N) (u : unit_) : Res unit_ :=
  let* _ := latencies checks created sent_at received processed in Ok u.

End Feed.
Arguments item : clear implicits.
Arguments task : clear implicits.
Arguments query : clear implicits.
Arguments source : clear implicits.
