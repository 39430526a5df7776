(** Model of the sampling node of dynamically planned stages (execution_plans/sampler.rs): partitions that start
    reading their input before they are executed, report what they found, and hand the rows on later.

    Simplified: rows and columns are lists, the sizes of columns are given; latency metrics, [max_mem_used] and
    [max_batches_peeked] are left out; tasks do not panic. [f32] is SpecFloat's binary32. *)
From Verif Require Import Base CiuModel.
From Coq Require Import NArith ZArith SpecFloat.

(** ** f32 *)
Definition f32 := spec_float.
Definition f32_div : f32 -> f32 -> f32 := SFdiv 24 128.
Definition f32_mul : f32 -> f32 -> f32 := SFmul 24 128.
Definition f32_add : f32 -> f32 -> f32 := SFadd 24 128.
(** [n as f32]. *)
Definition f32_of_N (n : N) : f32 := binary_normalize 24 128 (Z.of_N n) 0 false.
Definition f32_of_nat (n : nat) : f32 := f32_of_N (N.of_nat n).

Section Sampler.
(** Scalar values with the equality of [ScalarValue]. *)
Context {val : Type} (val_dec : forall x y : val, {x = y} + {x <> y}) {err : Type}.

(** ** Batches *)

(** A column of a batch: its values ([None]: null) and [get_slice_memory_size] (lines 509-511). *)
Record column := mkColumn { c_vals : list (option val); c_size : nat }.
Record batch := mkBatch { b_rows : nat; b_cols : list column }.

(** Lines 513-515. *)
Definition record_batch_size (b : batch) : nat := list_sum (map c_size (b_cols b)).

(** ** Load reports: protocol/worker_channel.rs:141-162 *)
Record load_info := mkLoadInfo {
  li_partition : nat; li_rows_ready : nat; li_bytes_ready : list nat;
  li_ndv : list f32; li_nulls : list f32; li_pulled : nat; li_eos : bool
}.

(** Lines 375-385, with the rows pulled from the leaves (which [drop] fills in, lines 362-373). *)
Definition zero_load_info (partition n_cols pulled : nat) : load_info :=
  mkLoadInfo partition 0 (repeat 0 n_cols) (repeat (S754_zero false) n_cols) (repeat (S754_zero false) n_cols) pulled false.

(** Element-wise [result[i] += x_i] (lines 417-420, 481-483); a column too many is an index out of bounds. *)
Fixpoint add_to (result xs : list nat) : Res (list nat) :=
  match xs, result with
  | [], _ => Ok result
  | x :: xs, r :: result => let* l := add_to result xs in Ok (r + x :: l)
  | _ :: _, [] => Panic "index out of bounds"
  end.
Fixpoint add_all (result : list nat) (l : list (list nat)) : Res (list nat) :=
  match l with [] => Ok result | x :: l => let* r := add_to result x in add_all r l end.

(** Lines 414-422. *)
Definition per_col_bytes_ready (n_cols : nat) (peek : list batch) : Res (list nat) :=
  add_all (repeat 0 n_cols) (map (fun b => map c_size (b_cols b)) peek).

(** Lines 424-426. *)
Definition rows_ready (peek : list batch) : nat := list_sum (map b_rows peek).

(** Lines 446-453, the inner loop for one row: [set.insert] for every column with a value in that row.
    [batch.column(col_idx)] and the row lookup are index panics. *)
Fixpoint insert_row (sets : list (list val)) (cols : list column) (row : nat) : Res (list (list val)) :=
  match sets, cols with
  | [], _ => Ok []
  | _ :: _, [] => Panic "index out of bounds"
  | s :: sets, c :: cols =>
      match nth_error (c_vals c) row with
      | None => Panic "index out of bounds"
      | Some None => let* r := insert_row sets cols row in Ok (s :: r)
      | Some (Some v) => let* r := insert_row sets cols row in Ok ((if in_dec val_dec v s then s else v :: s) :: r)
      end
  end.

(** Lines 444-456: the [while] loop of one batch, which takes the sampled rows below the batch's end. *)
Fixpoint sample_batch (sets : list (list val)) (cols : list column) (flat_base batch_end : nat) (indices : list nat)
  : Res (list (list val) * list nat) :=
  match indices with
  | [] => Ok (sets, [])
  | i :: rest =>
      if i <? batch_end
      then let* sets := insert_row sets cols (i - flat_base) in sample_batch sets cols flat_base batch_end rest
      else Ok (sets, indices)
  end.

(** Lines 442-461. The early exit (457-459) changes nothing since nothing is left to take. *)
Fixpoint sample_batches (sets : list (list val)) (peek : list batch) (flat_base : nat) (indices : list nat) : Res (list (list val)) :=
  match peek with
  | [] => Ok sets
  | b :: peek =>
      let batch_end := flat_base + b_rows b in
      let* (sets, indices) := sample_batch sets (b_cols b) flat_base batch_end indices in
      sample_batches sets peek batch_end indices
  end.

(** Lines 428-466; [indices] are the rows to look at (lines 434-442). *)
Definition per_col_ndv (n_cols : nat) (peek : list batch) (indices : list nat) : Res (list f32) :=
  if rows_ready peek =? 0 then Ok (repeat (S754_zero false) n_cols)
  else
    let* sets := sample_batches (repeat [] n_cols) peek 0 indices in
    Ok (map (fun s => f32_div (f32_of_nat (List.length s)) (f32_of_nat (List.length indices))) sets).

Definition null_count (c : column) : nat := List.length (filter (fun v => match v with None => true | _ => false end) (c_vals c)).

(** Lines 468-484. Here a missing column is the panic, and further columns are ignored. *)
Fixpoint add_nulls (counts : list nat) (cols : list column) : Res (list nat) :=
  match counts, cols with
  | [], _ => Ok []
  | _ :: _, [] => Panic "index out of bounds"
  | k :: counts, c :: cols => let* r := add_nulls counts cols in Ok (k + null_count c :: r)
  end.
Fixpoint count_nulls (counts : list nat) (peek : list batch) : Res (list nat) :=
  match peek with [] => Ok counts | b :: peek => let* counts := add_nulls counts (b_cols b) in count_nulls counts peek end.
Definition per_col_null_pct (n_cols : nat) (peek : list batch) : Res (list f32) :=
  if rows_ready peek =? 0 then Ok (repeat (S754_zero false) n_cols)
  else let* counts := count_nulls (repeat 0 n_cols) peek in
       Ok (map (fun c => f32_div (f32_of_nat c) (f32_of_nat (rows_ready peek))) counts).

(** Lines 307-316. *)
Definition filled_load_info (partition n_cols : nat) (peek : list batch) (indices : list nat) (pulled : nat) (eos : bool) : Res load_info :=
  let* bytes := per_col_bytes_ready n_cols peek in
  let* ndv := per_col_ndv n_cols peek indices in
  let* nulls := per_col_null_pct n_cols peek in
  Ok (mkLoadInfo partition (rows_ready peek) bytes ndv nulls pulled eos).

(** ** Streams *)

(** What the [n]-th poll of a stream gives. *)
Inductive poll := Pending | Ready (r : batch + err) | End.
Definition source := nat -> poll.

(** [ready_chunks(cap)] on a fused stream at its [pos]-th poll: what it collected, the position, and whether the
    stream ended (and was dropped by [fuse]). *)
Fixpoint ready_chunk (src : source) (cap pos : nat) : list (batch + err) * nat * bool :=
  match cap with
  | 0 => ([], pos, false)
  | S cap =>
      match src pos with
      | Pending => ([], S pos, false)
      | End => ([], S pos, true)
      | Ready r => let '(l, pos', eos) := ready_chunk src cap (S pos) in (r :: l, pos', eos)
      end
  end.

(** Lines 263-265: the batches of a chunk, or its first error. *)
Fixpoint push_all (l : list (batch + err)) : list batch + err :=
  match l with
  | [] => inl []
  | inr e :: _ => inr e
  | inl b :: l => match push_all l with inl bs => inl (b :: bs) | inr e => inr e end
  end.

(** The spawned task of a partition (lines 243-274): reading; at the end of its chunk with the batches in [peek]
    and the state of the input stream (reporting is still to be done); finished with what it returned. *)
Inductive task :=
| Reading (pos : nat)
| Chunk (r : list batch + err) (pos : nat) (eos : bool)
| Finished (r : list batch + err) (pos : nat) (eos : bool).

(** A partition's sampler (lines 153-171) after [kick_off]. [p_slot]: the stream is still in its slot; [p_taken]:
    a consumer has it; [p_out], [p_ended]: what that consumer was given; [p_reserved]: the memory reservation;
    [p_report]: what was sent; [p_gone]: the stream was dropped. *)
Record part := mkPart {
  p_src : source; p_task : task; p_slot : bool; p_taken : bool; p_out : list (batch + err); p_ended : bool;
  p_reserved : nat; p_report : option load_info; p_gone : bool
}.

(** A [SamplerExec] (lines 39-45). *)
Record sampler := mkSampler { s_parts : list part; s_started : bool }.

(** Lines 133-150, 211-290: all partitions are kicked off. *)
Definition kicked_off (sources : list source) : sampler :=
  mkSampler (map (fun src => mkPart src (Reading 0) true false [] false 0 None false) sources) false.

(** Line 266 onwards and lines 395-404: memory is reserved for the batches put in [peek]; when [peek] is dropped
    by an error it is given back. *)
Definition held (r : list batch + err) : nat := match r with inl bs => list_sum (map record_batch_size bs) | inr _ => 0 end.

(** One poll of the task (lines 247-273). *)
Definition poll_task (limit : nat) (p : part) : part :=
  match p_task p with
  | Reading pos =>
      match ready_chunk (p_src p) limit pos with
      | ([], pos', false) => mkPart (p_src p) (Reading pos') (p_slot p) (p_taken p) (p_out p) (p_ended p) (p_reserved p) (p_report p) (p_gone p)
      | (l, pos', eos) =>
          mkPart (p_src p) (Chunk (push_all l) pos' eos) (p_slot p) (p_taken p) (p_out p) (p_ended p) (held (push_all l)) (p_report p) (p_gone p)
      end
  | _ => p
  end.

(** The rows of [l] that may be looked at for distinct values (lines 434-442): all of them, or a random choice of
    [max_sample], in ascending order. *)
Definition sample_of (max_sample total : nat) (indices : list nat) : Prop :=
  if total <=? max_sample then indices = seq 0 total
  else List.length indices = max_sample /\ (forall i j, i < j < List.length indices -> nth i indices 0 < nth j indices 0) /\ Forall (fun i => i < total) indices.

(** ... and reporting (lines 253, 254, 270; 307-310, 362-373). Whether the flag is seen as set is up to the memory
    model once it is set. Without [report] being called the information sent is the initial one. *)
Definition report (i n_cols : nat) (p : part) (indices : list nat) (pulled : nat) : Res load_info :=
  match p_task p with
  | Chunk (inl peek) _ eos => filled_load_info i n_cols peek indices pulled eos
  | _ => Ok (zero_load_info i n_cols pulled)
  end.

Definition finish (p : part) (sent : option load_info) : part :=
  match p_task p with
  | Chunk r pos eos => mkPart (p_src p) (Finished r pos eos) (p_slot p) (p_taken p) (p_out p) (p_ended p) (p_reserved p) sent (p_gone p)
  | _ => p
  end.

(** One poll of the stream that [execute] handed out (lines 276-280, 486-500): nothing until the task finished;
    its error; the batches of [peek]; what is left of the input. *)
Definition poll_stream (p : part) : part :=
  let give r task reserved := mkPart (p_src p) task (p_slot p) (p_taken p) (p_out p ++ [r]) (p_ended p) reserved (p_report p) (p_gone p) in
  let ended := mkPart (p_src p) (p_task p) (p_slot p) (p_taken p) (p_out p) true (p_reserved p) (p_report p) (p_gone p) in
  if p_ended p then p else
  match p_task p with
  | Reading _ | Chunk _ _ _ => p
  | Finished (inr e) pos eos => give (inr e) (Finished (inl []) pos true) (p_reserved p)
  | Finished (inl (b :: bs)) pos eos => give (inl b) (Finished (inl bs) pos eos) (p_reserved p - record_batch_size b)
  | Finished (inl []) pos true => ended
  | Finished (inl []) pos false =>
      match p_src p pos with
      | Pending => mkPart (p_src p) (Finished (inl []) (S pos) false) (p_slot p) (p_taken p) (p_out p) (p_ended p) (p_reserved p) (p_report p) (p_gone p)
      | Ready r => give r (Finished (inl []) (S pos) false) (p_reserved p)
      | End => mkPart (p_src p) (Finished (inl []) (S pos) true) (p_slot p) (p_taken p) (p_out p) true (p_reserved p) (p_report p) (p_gone p)
      end
  end.

(** Lines 554-567 and 180-183, 208: [execute] for a partition. *)
Definition execute (s : sampler) (i : nat) : sampler * Res unit :=
  match nth_error (s_parts s) i with
  | None => (mkSampler (s_parts s) true, Err "Partition not available in SamplerExec")
  | Some p =>
      if p_slot p
      then (mkSampler (upd (s_parts s) i (mkPart (p_src p) (p_task p) false true (p_out p) (p_ended p) (p_reserved p) (p_report p) (p_gone p))) true, Ok tt)
      else (mkSampler (s_parts s) true, Err "SamplerExec was not kicked off")
  end.

(** READY_CHUNK_LIMIT and NDV_MAX_ROWS_SAMPLE (lines 35, 37). *)
Variables (limit max_sample n_cols : nat).

Inductive step : sampler -> sampler -> Prop :=
| step_task s i p : nth_error (s_parts s) i = Some p -> p_gone p = false ->
    step s (mkSampler (upd (s_parts s) i (poll_task limit p)) (s_started s))
| step_report s i p r pos eos indices pulled li : nth_error (s_parts s) i = Some p -> p_gone p = false ->
    p_task p = Chunk r pos eos ->
    (forall peek, r = inl peek -> sample_of max_sample (rows_ready peek) indices) ->
    report i n_cols p indices pulled = Ok li ->
    step s (mkSampler (upd (s_parts s) i (finish p (Some li))) (s_started s))
| step_omit s i p r pos eos : nth_error (s_parts s) i = Some p -> p_gone p = false ->
    p_task p = Chunk r pos eos -> s_started s = true ->
    step s (mkSampler (upd (s_parts s) i (finish p None)) (s_started s))
| step_execute s i : step s (fst (execute s i))
| step_poll s i p : nth_error (s_parts s) i = Some p -> p_taken p = true -> p_gone p = false ->
    step s (mkSampler (upd (s_parts s) i (poll_stream p)) (s_started s))
(** The consumer drops its stream: the task is aborted if it still runs, what was peeked is dropped and its
    memory given back. *)
| step_drop s i p : nth_error (s_parts s) i = Some p -> p_taken p = true -> p_gone p = false ->
    step s (mkSampler (upd (s_parts s) i (mkPart (p_src p) (p_task p) (p_slot p) (p_taken p) (p_out p) (p_ended p) 0 (p_report p) true)) (s_started s)).
End Sampler.
Arguments batch : clear implicits.
Arguments column : clear implicits.
Arguments source : clear implicits.
Arguments part : clear implicits.
Arguments sampler : clear implicits.
Arguments Pending {val err}.
Arguments End {val err}.
