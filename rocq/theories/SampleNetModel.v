(** Model of sampling a stage whose partitions read from a network boundary: sampled partitions
    (execution_plans/sampler.rs:247-276) as the consumers of a connection (protocol/grpc/worker_client.rs:89-320), with
    the coordinator waiting for their reports (coordinator/prepare_dynamic_plan.rs:233-263).

    Simplified: one task that reads through one connection, and partition [i] of the stage yields what partition [i]
    of the connection yields (as through projections and filters). Only steps in which nothing breaks and nobody drops
    a stream. What a report says is left open; it is made when the chunk is taken. *)
From Verif Require Import Base CiuModel DemuxModel DemuxSpec SamplerModel GatherModel.

Section Sampling.
Context {data err : Type}.
Notation source_item := (@item data + err)%type.
Notation conn := (@conn data err).
Notation part := (@DemuxModel.part data err).

(** [sp_reported]: the partitions that have reported; [sp_arrivals]: their reports, in the same order. *)
Record sampling := mkSampling { sp_conn : conn; sp_reported : list nat; sp_arrivals : list sample }.

Definition sampling_init (sources : list (list source_item)) : sampling := mkSampling (conn_init sources) [] [].

(** Taking [n] messages at once (worker_client.rs:287-303, [n] times). *)
Definition take_chunk (k : conn) (i : nat) (p : part) (n : nat) : conn :=
  mkConn (upd (k_parts k) i
    (DemuxModel.mkPart (DemuxModel.p_src p) (p_buf p) (p_lost p) (skipn n (p_queue p)) (p_live p) true
       (p_got p ++ firstn n (p_queue p)) (DemuxModel.p_ended p)))
    (k_phase k) (k_reserved k - bytes (firstn n (p_queue p)))
    (k_permit k || existsb (fun m => match m with inl _ => true | inr _ => false end) (firstn n (p_queue p)))
    (k_first k) (k_cancelled k) (k_leaked k) (k_failed k) (k_crashed k) (k_sizes k).

(** What the consumers have taken so far. *)
Definition taken (k : conn) : list (list source_item * bool) :=
  map (fun p => (p_got p, DemuxModel.p_ended p)) (k_parts k).

Section Steps.
Variables (start budget capacity limit : nat) (bad : nat -> err) (report : list source_item -> sample).

Inductive sampling_step : sampling -> sampling -> Prop :=
(** The connection works, or a partition polls for the first time. *)
| sampling_conn s k' :
    calm_step start budget capacity bad (sp_conn s) k' -> taken k' = taken (sp_conn s) ->
    sampling_step s (mkSampling k' (sp_reported s) (sp_arrivals s))
(** A partition that has not reported finds messages: it takes those that are there, up to the limit, and reports
    (sampler.rs:247-276, [ready_chunks]). It does not poll again before it is executed, which the coordinator does
    not let happen while it waits for reports. *)
| sampling_chunk s i p :
    nth_error (k_parts (sp_conn s)) i = Some p -> ~ In i (sp_reported s) -> p_polled p = true -> p_live p = true ->
    p_queue p <> [] ->
    sampling_step s (mkSampling (take_chunk (sp_conn s) i p (Nat.min limit (List.length (p_queue p))))
      (sp_reported s ++ [i]) (sp_arrivals s ++ [report (firstn (Nat.min limit (List.length (p_queue p))) (p_queue p))]))
(** A partition that has not reported finds its stream ended (sampler.rs:252-256). *)
| sampling_end s i p k' :
    nth_error (k_parts (sp_conn s)) i = Some p -> ~ In i (sp_reported s) -> p_polled p = true -> p_live p = true ->
    p_queue p = [] -> k_phase (sp_conn s) = Done -> DemuxModel.p_ended p = false ->
    k' = set_parts (sp_conn s) (upd (k_parts (sp_conn s)) i
      (DemuxModel.mkPart (DemuxModel.p_src p) (p_buf p) (p_lost p) [] (p_live p) true (p_got p) true)) ->
    sampling_step s (mkSampling k' (sp_reported s ++ [i]) (sp_arrivals s ++ [report []])).
End Steps.
End Sampling.
