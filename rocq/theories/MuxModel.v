(** Model of protocol/grpc/spawn_select_all.rs:14-61: the worker merges the encoded streams of the requested partitions
    into one, with a bounded queue for each of them, and accounts for what waits in the queues.

    Each source is polled by a task of its own; the tasks and the reader interleave in any way. A message is opaque but
    for its size ([get_memory_size], which does not change between the two calls). A reservation that shrinks by more
    than it holds panics (DataFusion's [MemoryReservation::shrink]); relaxed atomics, so [grow] and [shrink] are atomic
    steps. The tasks are aborted when the merged stream, which owns them, is dropped; the reservation is freed when the
    last of its owners is gone. *)
From Verif Require Import Base CiuModel.

Section Mux.
Context {data err : Type}.

Record msg := mkMsg { m_data : data; m_size : nat }.
Notation item := (msg + err)%type.
Definition size_of (i : item) : nat := match i with inl m => m_size m | inr _ => 0 end.

(** One source: what it still yields; the message its task has accounted for and waits to send (lines 44-48); the
    queue; whether the task ended, and whether by a panic of the source; history: what the reader got from it. *)
Record source := mkSource {
  s_src : list item; s_held : option item; s_queue : list item; s_ended : bool; s_crashed : bool; s_out : list item
}.
Record mux := mkMux { x_sources : list source; x_reserved : nat; x_dropped : bool; x_panicked : bool; x_freed : bool; x_read : list item }.

(** Lines 24-31. *)
Definition mux_new (inputs : list (list item)) : mux :=
  mkMux (map (fun l => mkSource l None [] false false []) inputs) 0 false false false [].

Definition with_source (x : mux) (i : nat) (s : source) : mux :=
  mkMux (upd (x_sources x) i s) (x_reserved x) (x_dropped x) (x_panicked x) (x_freed x) (x_read x).

(** The merged stream ends when all queues are closed and empty (line 53, [select_all]). *)
Definition mux_ended (x : mux) : bool := forallb (fun s => s_ended s && match s_queue s with [] => true | _ => false end) (x_sources x).

Inductive mux_step (queue_size : nat) : mux -> mux -> Prop :=
(** Lines 36-46: a task takes the next message and accounts for it. *)
| take_step x i s m rest :
    nth_error (x_sources x) i = Some s -> s_ended s = false -> s_held s = None -> s_src s = m :: rest -> x_dropped x = false ->
    mux_step queue_size x
      (mkMux (upd (x_sources x) i (mkSource rest (Some m) (s_queue s) false false (s_out s))) (x_reserved x + size_of m)
             (x_dropped x) (x_panicked x) (x_freed x) (x_read x))
(** Line 48: [send] waits for room. *)
| send_step x i s m :
    nth_error (x_sources x) i = Some s -> s_ended s = false -> s_held s = Some m -> List.length (s_queue s) < queue_size ->
    x_dropped x = false ->
    mux_step queue_size x (with_source x i (mkSource (s_src s) None (s_queue s ++ [m]) false false (s_out s)))
(** Line 42: the source is at its end. *)
| end_step x i s :
    nth_error (x_sources x) i = Some s -> s_ended s = false -> s_held s = None -> s_src s = [] -> x_dropped x = false ->
    mux_step queue_size x (with_source x i (mkSource [] None (s_queue s) true false (s_out s)))
(** The source panics while it is polled: the task ends, its sender is dropped and nobody looks at its result. *)
| crash_step x i s :
    nth_error (x_sources x) i = Some s -> s_ended s = false -> s_held s = None -> x_dropped x = false ->
    mux_step queue_size x (with_source x i (mkSource (s_src s) None (s_queue s) true true (s_out s)))
(** Lines 53-60: the reader gets a message, in the order of its queue, from any of the queues. *)
| read_step x i s m rest :
    nth_error (x_sources x) i = Some s -> s_queue s = m :: rest -> x_dropped x = false -> x_panicked x = false ->
    mux_step queue_size x
      (mkMux (upd (x_sources x) i (mkSource (s_src s) (s_held s) rest (s_ended s) (s_crashed s) (s_out s ++ [m])))
             (x_reserved x - size_of m) (x_dropped x) (x_reserved x <? size_of m) (x_freed x) (x_read x ++ [m]))
(** The reader goes away: queues and task handles are dropped, the tasks are aborted. *)
| drop_step x :
    x_dropped x = false ->
    mux_step queue_size x (mkMux (x_sources x) (x_reserved x) true (x_panicked x) (x_freed x) (x_read x))
| abort_step x i s :
    nth_error (x_sources x) i = Some s -> s_ended s = false -> x_dropped x = true ->
    mux_step queue_size x (with_source x i (mkSource (s_src s) (s_held s) (s_queue s) true (s_crashed s) (s_out s)))
(** The last owner of the reservation is gone. *)
| free_step x :
    x_dropped x = true -> forallb s_ended (x_sources x) = true -> x_freed x = false ->
    mux_step queue_size x (mkMux (x_sources x) 0 true (x_panicked x) true (x_read x)).
End Mux.
Arguments msg : clear implicits.
Arguments source : clear implicits.
Arguments mux : clear implicits.
