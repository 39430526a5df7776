(** Model of a sort-preserving merge that reads the streams of a network boundary: DataFusion's
    SortPreservingMergeExec above a NetworkCoalesceExec (distributed_planner/inject_network_boundaries.rs puts one there
    for every ORDER BY), whose partitions are the streams of one connection per producer task
    (execution_plans/network_coalesce.rs:267-340, worker/worker_connection_pool.rs, protocol/grpc/worker_client.rs:89-320).

    Simplified: a message is a batch (the schema messages at the beginning of the streams, which carry no rows, are left
    out); the merge uses up a batch at a time, and which stream it takes it from is left open; only steps in which nothing
    breaks and nobody drops a stream. *)
From Verif Require Import Base CiuModel DemuxModel DemuxSpec.

Section Merging.
Context {data err : Type}.
Notation source_item := (@item data + err)%type.
Notation conn := (@conn data err).

(** The connection to a producer task, and for each of its streams the number of batches that the merge has used up. *)
Record link := mkLink { ln_conn : conn; ln_used : list nat }.

(** One connection for each producer task, with what its partitions yield. *)
Definition merge_init (tasks : list (list (list source_item))) : list link :=
  map (fun sources => mkLink (conn_init sources) (map (fun _ => 0) sources)) tasks.

(** DataFusion, sorts/merge.rs (SortPreservingMergeStream): nothing is emitted before every stream has a batch or has
    ended. *)
Definition all_ready (l : link) : Prop :=
  forall i p u, nth_error (k_parts (ln_conn l)) i = Some p -> nth_error (ln_used l) i = Some u ->
    p_ended p = true \/ u < List.length (p_got p).

Section Steps.
(** [prefetch]: how many batches of a stream are held outside of the connection (the merge's own and those of the channel
    that SortPreservingMergeExec puts in front of it, [spawn_buffered]). *)
Variables (start budget capacity prefetch : nat) (bad : nat -> err).

Inductive merge_step : list link -> list link -> Prop :=
(** A connection works, or a stream is polled; it is polled for messages only while there is room for one. *)
| merging_conn ls c l k' :
    nth_error ls c = Some l -> calm_step start budget capacity bad (ln_conn l) k' ->
    (forall i p p' u, nth_error (k_parts (ln_conn l)) i = Some p -> nth_error (k_parts k') i = Some p' ->
       nth_error (ln_used l) i = Some u -> p_got p' = p_got p \/ List.length (p_got p) < u + prefetch) ->
    merge_step ls (upd ls c (mkLink k' (ln_used l)))
(** The merge uses up a batch of a stream. *)
| merging_take ls c l i p u :
    Forall all_ready ls -> nth_error ls c = Some l ->
    nth_error (k_parts (ln_conn l)) i = Some p -> nth_error (ln_used l) i = Some u -> u < List.length (p_got p) ->
    merge_step ls (upd ls c (mkLink (ln_conn l) (upd (ln_used l) i (S u)))).
End Steps.
End Merging.
