(** Model of a worker answering one request for data: src/worker/impl_execute_task.rs lines 37-60 and
    src/protocol/grpc/worker_service.rs lines 132-186. Finding the plan of the task (lines 23-37) is TaskModel, merging the
    streams of the answer (worker_service.rs:174-177) is ChanModel. *)
From Coq Require Import NArith.
From Verif Require Import Base.
Open Scope N_scope.

(** What becomes of a request: the streams of partitions, each with the number it is marked with, an error for the client,
    a panic of the call, or the end of the worker's process. *)
Inductive answer (stream : Type) :=
| Streams (l : list (N * stream))
| Refused (msg : string)
| Panicked (msg : string)
| Killed.
Arguments Streams {stream} l.
Arguments Refused {stream} msg.
Arguments Panicked {stream} msg.
Arguments Killed {stream}.

(** [isize::MAX], and the size of a [SendableRecordBatchStream]: a pointer and a vtable. *)
Definition isize_max : N := 2 ^ 63 - 1.
Definition stream_bytes : N := 16.

Section Serve.
Context {St stream : Type}.
(** Whether overflows of integers are checked (the [dev] profile) or wrap (the [release] profile). *)
Variable checks : bool.
(** Whether the allocator can give so many bytes. *)
Variable can_allocate : N -> bool.
(** The plan, with its head: its number of partitions, and what executing one of them gives. Executing changes the plan:
    SamplerExec (sampler.rs:554-567) and BroadcastExec (broadcast.rs:157-211) hand out every stream once. *)
Variable partition_count : N.
Variable execute : St -> N -> St * Res stream.

(** [end - start] on [usize], impl_execute_task.rs:44. *)
Definition usize_sub (a b : N) : Res N :=
  if b <=? a then Ok (a - b)
  else if checks then Panic "attempt to subtract with overflow"
  else Ok (a + 2 ^ 64 - b).

(** [Vec::with_capacity], line 45: panics if the bytes are more than [isize::MAX]; if the allocator has not so many,
    [handle_alloc_error] aborts the process. Nothing is allocated for no elements. *)
Inductive capacity := Reserved | CapacityOverflow | OutOfMemory.
Definition with_capacity (n : N) : capacity :=
  if isize_max <? n * stream_bytes then CapacityOverflow
  else if (n =? 0) || can_allocate (n * stream_bytes) then Reserved
  else OutOfMemory.

(** Lines 46-58, from [partition] on. *)
Fixpoint execute_from (fuel : nat) (st : St) (partition end_ : N) : St * Res (list stream) :=
  match fuel with
  | O => (st, Panic "out of fuel")
  | S fuel =>
      if end_ <=? partition then (st, Ok [])
      else if partition_count <=? partition then (st, Err "partition not available")
      else match execute st partition with
           | (st, Ok s) =>
               let (st, r) := execute_from fuel st (partition + 1) end_ in
               (st, let* l := r in Ok (s :: l))
           | (st, Err e) => (st, Err e)
           | (st, Panic e) => (st, Panic e)
           end
  end.

(** impl_execute_task.rs:40-60. No more than [partition_count] partitions are executed. *)
Definition execute_task (st : St) (start end_ : N) : St * answer stream :=
  match usize_sub end_ start with
  | Err e => (st, Refused e)
  | Panic e => (st, Panicked e)
  | Ok n =>
      match with_capacity n with
      | CapacityOverflow => (st, Panicked "capacity overflow")
      | OutOfMemory => (st, Killed)
      | Reserved =>
          match execute_from (S (N.to_nat partition_count)) st start end_ with
          | (st, Ok l) => (st, Streams (combine (map N.of_nat (seq (N.to_nat start) (List.length l))) l))
          | (st, Err e) => (st, Refused e)
          | (st, Panic e) => (st, Panicked e)
          end
      end
  end.

(** worker_service.rs:149-157. The setting comes with the headers of the plan (C41). *)
Definition known_compression (c : string) : bool :=
  (String.eqb c "lz4" || String.eqb c "zstd" || String.eqb c "none")%bool.

(** worker_service.rs:134-186: the partitions are executed first. arrow-ipc is assumed to be built with both codecs (line
    370). Each stream is marked with its number in [partition_range.zip(…)], line 159: the numbers in [execute_task]. *)
Definition serve (compression : string) (st : St) (start end_ : N) : St * answer stream :=
  match execute_task st start end_ with
  | (st, Streams l) =>
      if known_compression compression then (st, Streams l) else (st, Refused "Unknown compression type")
  | (st, other) => (st, other)
  end.

End Serve.

(** A plan under a SamplerExec (sampler.rs:554-567 with line 209): a stream is taken by the first execution of its
    partition. [st]: the partitions whose streams are still there. *)
Definition sampler_execute {stream} (streams : N -> stream) (st : list N) (partition : N) : list N * Res stream :=
  if existsb (N.eqb partition) st then (filter (fun p => negb (p =? partition)) st, Ok (streams partition))
  else (st, Err "SamplerExec was not kicked off").
