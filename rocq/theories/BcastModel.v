(** Model of execution_plans/broadcast.rs: the shared queue, its consumers and the node's [execute].

    Every access to shared memory is one step: pushing an entry (under the mutex), sending on the watch
    channel, dropping the sender, reading an entry (under the mutex), polling the watch channel. Steps of
    the producer and of the consumers interleave arbitrarily.

    Not modelled here: memory reservations and drops (BcastLifeModel), schemas, and the fact that [send]
    does nothing once no receiver exists (nobody can observe the channel then). *)
From Verif Require Import Base CiuModel.

Section Bcast.
Context {batch err : Type}.

(** What the input stream yields: batches or an error. *)
Definition msg : Type := batch + err.

(** Lines 217-221 and 229-233: the queue; [q_version] and [q_alive] are the watch channel's version and
    whether its sender exists. *)
Record queue := mkQueue {
  q_entries : list msg; q_len : nat; q_closed : bool; q_version : nat; q_alive : bool
}.

(** Lines 180-198: the spawned task. [Running todo]: about to await the next message of the input
    stream, which will yield [todo]. [Pushed n todo]: between lines 258-262 and 263-265 of [push].
    [Closing]: the queue is about to be dropped; [SenderDrop]: between the [send] of line 273 and the drop
    of the field [notify]. *)
Inductive producer :=
| Running (todo : list msg)
| Pushed (n : nat) (todo : list msg)
| Closing
| SenderDrop
| Finished.

(** Lines 277-283. [c_seen]: the version last seen, [None] before the first poll of the [WatchStream],
    which yields the current value immediately. [c_pc] is where [poll_next] stands. *)
Inductive consumer_pc := Outside | AtLoop | AtWatch.
Record consumer := mkConsumer {
  c_index : nat; c_len : nat; c_closed : bool; c_seen : option nat; c_pc : consumer_pc;
  c_got : list msg;   (* what the stream yielded so far *)
  c_ended : bool      (* whether it yielded its end *)
}.

(** Lines 235-255. *)
Definition queue_new : queue := mkQueue [] 0 false 0 true.
Definition new_consumer (q : queue) : consumer := mkConsumer 0 (q_len q) (q_closed q) None Outside [] false.

(** A slot of [queues] once initialised (lines 162-201): the input's error, or the queue, its producer,
    the consumers created up front, how many of them were popped, and whether the producer crashed. *)
Record running := mkRunning {
  r_queue : queue; r_producer : producer; r_consumers : list consumer; r_popped : nat; r_crashed : bool
}.
Inductive slot_state :=
| Unused
| Failed (e : err)
| Live (r : running).

(** ** The producer *)

(** Lines 180-198, 257-275. *)
Inductive producer_step : queue * producer * bool -> queue * producer * bool -> Prop :=
| push_batch q b todo c :  (* lines 186-189, 258-262 *)
    producer_step (q, Running (inl b :: todo), c)
      (mkQueue (q_entries q ++ [inl b]) (q_len q) (q_closed q) (q_version q) (q_alive q),
       Pushed (List.length (q_entries q) + 1) todo, c)
| push_error q e todo c :  (* lines 191-194: the loop is left *)
    producer_step (q, Running (inr e :: todo), c)
      (mkQueue (q_entries q ++ [inr e]) (q_len q) (q_closed q) (q_version q) (q_alive q),
       Pushed (List.length (q_entries q) + 1) [], c)
| publish q n todo c :     (* lines 263-265 *)
    producer_step (q, Pushed n todo, c)
      (mkQueue (q_entries q) n (q_closed q) (q_version q + 1) (q_alive q), Running todo, c)
| input_end q c :
    producer_step (q, Running [], c) (q, Closing, c)
| crash q todo c :         (* the input panics while producing its next message *)
    producer_step (q, Running todo, c) (q, Closing, true)
| close q c :              (* lines 270-274 *)
    producer_step (q, Closing, c)
      (mkQueue (q_entries q) (q_len q) true (q_version q + 1) (q_alive q), SenderDrop, c)
| drop_sender q c :
    producer_step (q, SenderDrop, c)
      (mkQueue (q_entries q) (q_len q) (q_closed q) (q_version q) false, Finished, c).

(** ** A consumer *)

(** One step of [poll_next] (lines 288-312). [None] at the end of a poll that found nothing. *)
Definition at_loop (q : queue) (c : consumer) : consumer :=
  match (if c_index c <? c_len c then nth_error (q_entries q) (c_index c) else None) with
  | Some v => mkConsumer (c_index c + 1) (c_len c) (c_closed c) (c_seen c) Outside (c_got c ++ [v]) (c_ended c)
  | None =>
      if c_closed c
      then mkConsumer (c_index c) (c_len c) (c_closed c) (c_seen c) Outside (c_got c) true
      else mkConsumer (c_index c) (c_len c) (c_closed c) (c_seen c) AtWatch (c_got c) (c_ended c)
  end.
(** tokio's [WatchStream]: the current value at the first poll, then the current value whenever its
    version changed, the end once the sender is gone. *)
Definition watch_ready (q : queue) (c : consumer) : bool :=
  match c_seen c with None => true | Some v => negb (v =? q_version q) end.
Definition at_watch (q : queue) (c : consumer) : consumer :=
  if watch_ready q c
  then mkConsumer (c_index c) (q_len q) (q_closed q) (Some (q_version q)) AtLoop (c_got c) (c_ended c)
  else if q_alive q
  then mkConsumer (c_index c) (c_len c) (c_closed c) (c_seen c) Outside (c_got c) (c_ended c)   (* Pending *)
  else mkConsumer (c_index c) (c_len c) true (c_seen c) AtLoop (c_got c) (c_ended c).
Definition start_poll (c : consumer) : consumer :=
  mkConsumer (c_index c) (c_len c) (c_closed c) (c_seen c) AtLoop (c_got c) (c_ended c).
Definition consumer_next (q : queue) (c : consumer) : consumer :=
  match c_pc c with
  | Outside => start_poll c
  | AtLoop => at_loop q c
  | AtWatch => at_watch q c
  end.

(** ** The node *)

(** The node: its number of consumer tasks, and for every input partition what executing it gives. *)
Record node := mkNode {
  n_consumers : nat;
  n_input : list (list msg + err)   (* [inr e]: [input.execute] fails *)
}.

(** State: the slots, how often each input partition was executed, and the answers given to the callers of
    [execute]: the requested partition and either the stream (slot, number of the consumer) or an error. *)
Inductive exec_error := InputError (e : err) | TooManyConsumers (real : nat).
Record state := mkState {
  st_slots : list slot_state;
  st_executed : list nat;
  st_answers : list (nat * ((nat * nat) + exec_error))
}.
Definition init_state (nd : node) : state :=
  mkState (map (fun _ => Unused) (n_input nd)) (map (fun _ => 0) (n_input nd)) [].

(** Lines 166-201: the closure given to [get_or_init]. *)
Definition init_slot (nd : node) (inp : list msg + err) : slot_state :=
  match inp with
  | inr e => Failed e
  | inl todo => Live (mkRunning queue_new (Running todo) (repeat (new_consumer queue_new) (n_consumers nd)) 0 false)
  end.
(** Lines 202-208. *)
Definition pop_consumer (real : nat) (s : slot_state) : slot_state * ((nat * nat) + exec_error) :=
  match s with
  | Live r =>
      if r_popped r <? List.length (r_consumers r)
      then (Live (mkRunning (r_queue r) (r_producer r) (r_consumers r) (r_popped r + 1) (r_crashed r)),
            inl (real, r_popped r))
      else (s, inr (TooManyConsumers real))
  | Failed e => (s, inr (InputError e))
  | Unused => (s, inr (TooManyConsumers real))   (* not reached: the slot was just initialised *)
  end.

Inductive node_step (nd : node) : state -> state -> Prop :=
(** [execute(partition)], lines 153-215. [partition % 0] panics: without input partitions there is no
    call. *)
| call_execute st partition real s inp s' ans :
    n_input nd <> [] ->
    real = partition mod List.length (n_input nd) ->
    nth_error (st_slots st) real = Some s -> nth_error (n_input nd) real = Some inp ->
    pop_consumer real (match s with Unused => init_slot nd inp | _ => s end) = (s', ans) ->
    node_step nd st
      (mkState (upd (st_slots st) real s')
               (match s, nth_error (st_executed st) real with
                | Unused, Some k => upd (st_executed st) real (k + 1)
                | _, _ => st_executed st end)
               (st_answers st ++ [(partition, ans)]))
| producer_moves st real r q' p' c' :
    nth_error (st_slots st) real = Some (Live r) ->
    producer_step (r_queue r, r_producer r, r_crashed r) (q', p', c') ->
    node_step nd st
      (mkState (upd (st_slots st) real (Live (mkRunning q' p' (r_consumers r) (r_popped r) c')))
               (st_executed st) (st_answers st))
| consumer_moves st real r k c :
    nth_error (st_slots st) real = Some (Live r) ->
    k < r_popped r ->  (* only handed out streams are polled *)
    nth_error (r_consumers r) k = Some c ->
    node_step nd st
      (mkState (upd (st_slots st) real
                  (Live (mkRunning (r_queue r) (r_producer r) (upd (r_consumers r) k (consumer_next (r_queue r) c))
                           (r_popped r) (r_crashed r))))
               (st_executed st) (st_answers st)).
End Bcast.
