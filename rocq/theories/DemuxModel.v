(** Model of one connection between a consumer task and a producer task: the worker merges its partition
    streams into one (protocol/grpc/worker_service.rs, spawn_select_all.rs) and the client takes them apart
    again (protocol/grpc/worker_client.rs:89-320).

    Simplified: message contents are opaque (flight encoding and decoding are the library's); the transport
    delivers messages in order and may fail at any time; metrics are left out; reading the clock is left
    out. A poll that finds nothing changes nothing and is not a step. Every [Notify] is a stored permit
    (there is one waiter). *)
From Verif Require Import Base CiuModel.

Section Demux.
Context {data err : Type}.

(** A message with its encoded size. *)
Record item := mkItem { it_data : data; it_size : nat }.

(** What a partition's stream yields on the worker: messages or an error. *)
Notation source_item := (item + err)%type.

(** One partition. [p_src]: what the worker's stream still has to yield; [p_buf]: the bounded channel of
    spawn_select_all.rs:31; [p_lost]: what was never yielded because the worker side task crashed.
    [p_queue]: the client's channel of the partition (worker_client.rs:133-139); [p_live]: whether the
    partition's stream still exists; [p_polled], [p_got], [p_ended]: what its consumer did and saw. *)
Record part := mkPart {
  p_src : list source_item; p_buf : list source_item; p_lost : list source_item;
  p_queue : list source_item; p_live : bool; p_polled : bool;
  p_got : list source_item; p_ended : bool
}.

(** Where the demultiplexing task stands: before the first poll (lines 160-175); at line 194; waiting inside
    the loop of lines 194-200; at line 203; between [grow] (line 255) and [send] (line 266) with the index of
    the sender; finished (its senders are dropped). *)
Inductive phase :=
| WaitPoll
| Gate
| Blocked
| Recv
| Sending (i : nat) (it : item)
| Done.

Record conn := mkConn {
  k_parts : list part; k_phase : phase;
  k_reserved : nat;        (* memory_reservation.size() *)
  k_permit : bool;         (* mem_available_notify *)
  k_first : bool;          (* first_poll_notify *)
  k_cancelled : bool;
  (* history: bytes buffered for streams when they were dropped; the error that was fanned out; whether
     the demultiplexing task crashed; the sizes of all messages received *)
  k_leaked : nat; k_failed : option err; k_crashed : bool; k_sizes : list nat
}.

(** A connection for the partitions [start ..]: the sources of the requested partitions. *)
Definition conn_init (sources : list (list source_item)) : conn :=
  mkConn (map (fun s => mkPart s [] [] [] true false [] false) sources) WaitPoll 0 false false false 0 None false [].

Definition set_parts (k : conn) (ps : list part) : conn :=
  mkConn ps (k_phase k) (k_reserved k) (k_permit k) (k_first k) (k_cancelled k) (k_leaked k) (k_failed k) (k_crashed k) (k_sizes k).
Definition set_phase (k : conn) (ph : phase) : conn :=
  mkConn (k_parts k) ph (k_reserved k) (k_permit k) (k_first k) (k_cancelled k) (k_leaked k) (k_failed k) (k_crashed k) (k_sizes k).

(** [send] on a partition's channel: fails (and does nothing) if the receiver was dropped. *)
Definition send_part (p : part) (m : source_item) : part :=
  if p_live p
  then mkPart (p_src p) (p_buf p) (p_lost p) (p_queue p ++ [m]) (p_live p) (p_polled p) (p_got p) (p_ended p)
  else p.

(** Lines 550-554, followed by the end of the task. *)
Definition fanout (k : conn) (e : err) : conn :=
  mkConn (map (fun p => send_part p (inr e)) (k_parts k)) Done (k_reserved k) (k_permit k) (k_first k)
         (k_cancelled k) (k_leaked k) (Some e) (k_crashed k) (k_sizes k).

(** worker_service.rs:154-172: the messages of the [i]-th requested partition are marked with its number. *)
Definition wire_tag (start i : nat) : nat := start + i.
(** worker_client.rs:231-248: [checked_sub] and [get]. *)
Definition sender_of (start n tag : nat) : option nat :=
  if tag <? start then None else if tag - start <? n then Some (tag - start) else None.

Definition bytes (l : list source_item) : nat :=
  list_sum (map (fun m => match m with inl it => it_size it | inr _ => 0 end) l).

Section Steps.
Variables (start budget capacity : nat) (bad_partition : nat -> err).

Inductive conn_step : conn -> conn -> Prop :=
(** Worker: a partition's task pulls a message and puts it in its bounded channel
    (spawn_select_all.rs:34-54). *)
| worker_pull k i p m rest :
    nth_error (k_parts k) i = Some p -> p_src p = m :: rest -> List.length (p_buf p) < capacity ->
    conn_step k (set_parts k (upd (k_parts k) i
      (mkPart rest (p_buf p ++ [m]) (p_lost p) (p_queue p) (p_live p) (p_polled p) (p_got p) (p_ended p))))
(** Worker: the task of a partition panics; its channel ends after what it already contains. *)
| worker_crash k i p :
    nth_error (k_parts k) i = Some p -> p_src p <> [] ->
    conn_step k (set_parts k (upd (k_parts k) i
      (mkPart [] (p_buf p) (p_src p ++ p_lost p) (p_queue p) (p_live p) (p_polled p) (p_got p) (p_ended p))))
(** Consumer: the first poll of a stream (lines 287-291). *)
| first_poll k i p :
    nth_error (k_parts k) i = Some p -> p_live p = true -> p_polled p = false ->
    conn_step k
      (mkConn (upd (k_parts k) i
         (mkPart (p_src p) (p_buf p) (p_lost p) (p_queue p) (p_live p) true (p_got p) (p_ended p)))
         (k_phase k) (k_reserved k) (k_permit k) true (k_cancelled k) (k_leaked k) (k_failed k) (k_crashed k) (k_sizes k))
(** Consumer: a poll takes a message (lines 295-301). *)
| poll_item k i p it rest :
    nth_error (k_parts k) i = Some p -> p_live p = true -> p_polled p = true -> p_queue p = inl it :: rest ->
    conn_step k
      (mkConn (upd (k_parts k) i
         (mkPart (p_src p) (p_buf p) (p_lost p) rest (p_live p) true (p_got p ++ [inl it]) (p_ended p)))
         (k_phase k) (k_reserved k - it_size it) true (k_first k) (k_cancelled k) (k_leaked k) (k_failed k) (k_crashed k) (k_sizes k))
(** Consumer: a poll takes an error (line 293). *)
| poll_error k i p e rest :
    nth_error (k_parts k) i = Some p -> p_live p = true -> p_polled p = true -> p_queue p = inr e :: rest ->
    conn_step k (set_parts k (upd (k_parts k) i
      (mkPart (p_src p) (p_buf p) (p_lost p) rest (p_live p) true (p_got p ++ [inr e]) (p_ended p))))
(** Consumer: a poll finds the channel empty and its sender dropped. *)
| poll_end k i p :
    nth_error (k_parts k) i = Some p -> p_live p = true -> p_polled p = true -> p_queue p = [] -> k_phase k = Done ->
    p_ended p = false ->
    conn_step k (set_parts k (upd (k_parts k) i
      (mkPart (p_src p) (p_buf p) (p_lost p) [] (p_live p) true (p_got p) true)))
(** Consumer: the stream is dropped with what its channel contains (lines 305-316). *)
| drop_stream k i p :
    nth_error (k_parts k) i = Some p -> p_live p = true ->
    conn_step k
      (let ps := upd (k_parts k) i
         (mkPart (p_src p) (p_buf p) (p_lost p) [] false (p_polled p) (p_got p) (p_ended p)) in
       mkConn ps (k_phase k) (k_reserved k) (k_permit k) (k_first k)
         (k_cancelled k || forallb (fun p => negb (p_live p)) ps)
         (k_leaked k + bytes (p_queue p)) (k_failed k) (k_crashed k) (k_sizes k))
(** Demultiplexer: cancelled (lines 162-173, 197, 204). *)
| demux_cancelled k :
    k_cancelled k = true -> k_phase k = WaitPoll \/ k_phase k = Blocked \/ k_phase k = Recv ->
    conn_step k (set_phase k Done)
(** Demultiplexer: first poll seen, the request succeeds or fails (lines 174-185). *)
| demux_connect k :
    k_phase k = WaitPoll -> k_first k = true -> conn_step k (set_phase k Gate)
| demux_connect_fails k e :
    k_phase k = WaitPoll -> k_first k = true -> conn_step k (fanout k e)
(** Demultiplexer: the byte budget (lines 194-200). *)
| demux_gate_open k :
    k_phase k = Gate -> k_reserved k < budget -> conn_step k (set_phase k Recv)
| demux_gate_closed k :
    k_phase k = Gate -> budget <= k_reserved k -> conn_step k (set_phase k Blocked)
| demux_notified k :
    k_phase k = Blocked -> k_permit k = true ->
    conn_step k (mkConn (k_parts k) Gate (k_reserved k) false (k_first k) (k_cancelled k) (k_leaked k)
                        (k_failed k) (k_crashed k) (k_sizes k))
(** Demultiplexer: the next message of the merged stream is one of partition [i]'s (lines 203-255). *)
| demux_recv k i p it rest :
    k_phase k = Recv -> nth_error (k_parts k) i = Some p -> p_buf p = inl it :: rest ->
    conn_step k
      (let k' := set_parts k (upd (k_parts k) i
         (mkPart (p_src p) rest (p_lost p) (p_queue p) (p_live p) (p_polled p) (p_got p) (p_ended p))) in
       match sender_of start (List.length (k_parts k)) (wire_tag start i) with
       | None => fanout k' (bad_partition (wire_tag start i))
       | Some j =>
           mkConn (k_parts k') (Sending j it) (k_reserved k' + it_size it) (k_permit k') (k_first k')
                  (k_cancelled k') (k_leaked k') (k_failed k') (k_crashed k') (k_sizes k' ++ [it_size it])
       end)
(** Demultiplexer: the next message is a partition's error; the transport fails (lines 207-209, 216-220). *)
| demux_recv_error k i p e rest :
    k_phase k = Recv -> nth_error (k_parts k) i = Some p -> p_buf p = inr e :: rest ->
    conn_step k (fanout (set_parts k (upd (k_parts k) i
         (mkPart (p_src p) rest (p_lost p) (p_queue p) (p_live p) (p_polled p) (p_got p) (p_ended p)))) e)
| demux_transport_error k e :
    k_phase k = Recv -> conn_step k (fanout k e)
(** Demultiplexer: all partitions of the worker ended (line 210). *)
| demux_exhausted k :
    k_phase k = Recv -> Forall (fun p => p_src p = [] /\ p_buf p = []) (k_parts k) ->
    conn_step k (set_phase k Done)
(** Demultiplexer: [send], or undoing the reservation when the receiver is gone (lines 266-273). *)
| demux_send k i it p :
    k_phase k = Sending i it -> nth_error (k_parts k) i = Some p ->
    conn_step k
      (mkConn (upd (k_parts k) i (send_part p (inl it))) Gate
         (if p_live p then k_reserved k else k_reserved k - it_size it)
         (k_permit k) (k_first k) (k_cancelled k) (k_leaked k) (k_failed k) (k_crashed k) (k_sizes k))
(** Demultiplexer: the task panics; its senders are dropped. *)
| demux_crash k :
    k_phase k <> Done ->
    conn_step k (mkConn (k_parts k) Done (k_reserved k) (k_permit k) (k_first k) (k_cancelled k) (k_leaked k)
                        (k_failed k) true (k_sizes k)).
End Steps.
End Demux.
