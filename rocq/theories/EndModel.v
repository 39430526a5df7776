(** How a query ends: the coordinator, the channels on which plans were sent and the workers' loops that read them.
    Source: coordinator/distributed.rs:178-251 [execute], coordinator/query_coordinator.rs:84-108, 136-223, 268-338, 419-437,
    worker/impl_coordinator_channel.rs:24-197, coordinator/prepare_static_plan.rs:20-63. *)
From Verif Require Import Base CiuModel.

(** The task that sends the work units of a channel (query_coordinator.rs:325-336). While it runs it holds the sending half of
    the channel, which it drops when it ends, fails or is aborted. *)
Inductive feed_state := FRunning | FEnded | FFailed | FAborted.

(** The task that sends a plan and reads the worker's answers (query_coordinator.rs:189-220): looking for a connection (lines
    192-202), waiting for [coordinator_channel] (lines 203-211), reading answers (lines 213-217), ended. *)
Inductive call_state := CStarting | CCalling | CReceiving | CEnded | CFailed | CAborted.

(** The worker's side of a channel (impl_coordinator_channel.rs): not reached; building the plan (lines 30-100); building was
    cancelled; the plan could not be built or was rejected (lines 102-106); reading messages (lines 126-157); the metrics
    are sent or their sender dropped (lines 159-169); the task is removed from the registry (line 170). *)
Inductive worker_state := WIdle | WBuilding | WCancelled | WFailed | WListening | WFinished | WClosed.

Record chan := mkChan {
  local : bool;          (* query_coordinator.rs:192-196: the worker lives in the coordinator's process *)
  collect : bool;        (* the setting [collect_metrics], impl_coordinator_channel.rs:92-95 *)
  created : nat;         (* calls of [notify_waiters] so far when [notified_owned] was called (line 420) *)
  pending : nat;         (* messages sent and not yet read *)
  feed : feed_state;
  call : call_state;
  at_worker : worker_state;
  loads : bool;          (* the load reports are sent, impl_coordinator_channel.rs:174-182 *)
  reset : bool           (* the connection of this call is gone *)
}.

(** [DistributedExec::execute]'s task (distributed.rs:204-246): sending plans (lines 220-224), streaming (lines 234-239),
    [drain_pending_tasks] (line 242), returned, or dropped with the result stream. *)
Inductive phase := Preparing | Streaming | Draining | Returned (ok : bool) | Dropped.

Record query := mkQuery { stage : phase; notified : nat; chans : list chan }.
Definition start : query := mkQuery Preparing 0 [].

(** query_coordinator.rs:136-187: the stream of a new channel with a [Notified] made at once (line 187 with 419-421). *)
Definition new_chan (s : query) (here metrics : bool) : chan :=
  mkChan here metrics (notified s) 0 FRunning CStarting WIdle false false.

Definition set_feed (c : chan) f n := mkChan (local c) (collect c) (created c) n f (call c) (at_worker c) (loads c) (reset c).
Definition set_call (c : chan) k := mkChan (local c) (collect c) (created c) (pending c) (feed c) k (at_worker c) (loads c) (reset c).
Definition set_worker (c : chan) w := mkChan (local c) (collect c) (created c) (pending c) (feed c) (call c) w (loads c) (reset c).
Definition set_reset (c : chan) := mkChan (local c) (collect c) (created c) (pending c) (feed c) (call c) (at_worker c) (loads c) true.
Definition set_loads (c : chan) := mkChan (local c) (collect c) (created c) (pending c) (feed c) (call c) (at_worker c) true (reset c).

(** The stream that the worker reads is at its end: the messages are read, their sender is dropped, and the tail of
    [keep_stream_alive] is over. A [Notified] is woken by every [notify_waiters] after its creation (tokio's contract). *)
Definition stream_ended (calls : nat) (c : chan) : bool :=
  (pending c =? 0) && match feed c with FRunning => false | _ => true end && (created c <? calls).

(** Dropping the [JoinSet] aborts its tasks. A call to another process is reset; the request stream of a call inside the
    process belongs to the worker once the worker has it; building a plan in the process stops with its caller. *)
Definition abort (c : chan) : chan :=
  let c := match feed c with FRunning => set_feed c FAborted (S (pending c)) | _ => c end in
  match call c with
  | CStarting => set_call c CAborted
  | CCalling | CReceiving =>
      let c := set_call c CAborted in
      if local c then match at_worker c with WBuilding => set_worker c WCancelled | _ => c end else set_reset c
  | _ => c
  end.

(** [NotifyGuard::drop] (query_coordinator.rs:425-429). *)
Definition notify_waiters (calls : nat) : nat := S calls.

Definition feed_over (c : chan) : bool := match feed c with FRunning => false | _ => true end.
Definition call_over (c : chan) : bool := match call c with CStarting | CCalling | CReceiving => false | _ => true end.
Definition failed (c : chan) : bool :=
  match feed c, call c with FFailed, _ | _, CFailed => true | _, _ => false end.

(** Steps of one channel while [notify_waiters] has been called [calls] times. *)
Inductive cstep (calls : nat) : chan -> chan -> Prop :=
(** query_coordinator.rs:315-336: work units are sent; the task ends (its guard sends WorkUnitEos) or fails. *)
| f_send c : feed c = FRunning -> cstep calls c (set_feed c FRunning (S (pending c)))
| f_end c : feed c = FRunning -> cstep calls c (set_feed c FEnded (S (pending c)))
| f_fail c : feed c = FRunning -> cstep calls c (set_feed c FFailed (S (pending c)))
(** Lines 192-202. *)
| c_connect c : call c = CStarting -> cstep calls c (set_call c CCalling)
| c_unreachable c : call c = CStarting -> cstep calls c (set_call c CFailed)
(** The request reaches the worker; building the plan succeeds or not, or is cancelled with the connection. *)
| w_arrive c : call c = CCalling -> at_worker c = WIdle -> reset c = false -> cstep calls c (set_worker c WBuilding)
| w_fail c : at_worker c = WBuilding -> cstep calls c (set_worker c WFailed)
| w_register c : at_worker c = WBuilding -> cstep calls c (set_worker c WListening)
| w_cancel c : at_worker c = WBuilding -> reset c = true -> cstep calls c (set_worker c WCancelled)
(** Lines 203-211: the worker's answer, or its error. *)
| c_answer c : call c = CCalling -> reset c = false ->
    match at_worker c with WListening | WFinished | WClosed => True | _ => False end -> cstep calls c (set_call c CReceiving)
| c_refused c : call c = CCalling -> reset c = false -> at_worker c = WFailed -> cstep calls c (set_call c CFailed)
(** impl_coordinator_channel.rs:126-157: messages, then the end of the stream, which is also the end if the connection
    is lost. *)
| w_read c n : at_worker c = WListening -> pending c = S n -> cstep calls c (set_feed c (feed c) n)
| w_end c : at_worker c = WListening -> stream_ended calls c = true \/ reset c = true -> cstep calls c (set_worker c WFinished)
| w_close c : at_worker c = WFinished -> cstep calls c (set_worker c WClosed)
(** The sampled partitions were reported or their samplers dropped (C65); a step that is not required to happen. *)
| w_loads c : loads c = false -> match at_worker c with WListening | WFinished | WClosed => True | _ => False end ->
    cstep calls c (set_loads c)
(** Lines 174-197: the answers end when the load reports and the metrics do. Without [collect_metrics] the sender of the
    metrics is dropped at once. *)
| c_end c : call c = CReceiving -> reset c = false -> loads c = true ->
    collect c = false \/ at_worker c = WFinished \/ at_worker c = WClosed -> cstep calls c (set_call c CEnded)
(** The network fails; the caller notices. *)
| x_reset c : local c = false -> reset c = false -> cstep calls c (set_reset c)
| c_lost c : call c = CCalling \/ call c = CReceiving -> reset c = true -> cstep calls c (set_call c CFailed).

Inductive qstep : query -> query -> Prop :=
(** One of the channels, or the worker it leads to. *)
| q_chan s i c c' : nth_error (chans s) i = Some c -> cstep (notified s) c c' ->
    qstep s (mkQuery (stage s) (notified s) (upd (chans s) i c'))
(** prepare_static_plan.rs:40-47: a plan is sent. *)
| q_send s here metrics : stage s = Preparing -> qstep s (mkQuery Preparing (notified s) (chans s ++ [new_chan s here metrics]))
(** Preparing fails, or executing the head stage does ([?] in lines 219-234): the guard and the [JoinSet] are dropped. *)
| q_fails s : stage s = Preparing -> qstep s (mkQuery (Returned false) (notify_waiters (notified s)) (map abort (chans s)))
| q_prepared s : stage s = Preparing -> qstep s (mkQuery Streaming (notified s) (chans s))
(** Lines 235-241: the head stage is read to its end, or nobody wants its rows; the guard is dropped. *)
| q_rows_end s : stage s = Streaming -> qstep s (mkQuery Draining (notify_waiters (notified s)) (chans s))
(** Line 242 with query_coordinator.rs:102-108. *)
| q_drained s : stage s = Draining -> (forall c, In c (chans s) -> feed_over c = true /\ call_over c = true) ->
    qstep s (mkQuery (Returned (negb (existsb failed (chans s)))) (notified s) (chans s))
(** The result stream is dropped: locals first, among them the guard if there still is one, then the [JoinSet]. *)
| q_drop s : stage s = Preparing \/ stage s = Streaming \/ stage s = Draining ->
    qstep s (mkQuery Dropped
      (match stage s with Draining => notified s | _ => notify_waiters (notified s) end) (map abort (chans s))).
