(** The feeds of a task's plan, from the coordinator's plan to the reads of the operators that run: which feeds
    the coordinator asks from the providers, which ones it declares to the worker, and what a read finds.
    Source: src/coordinator/query_coordinator.rs:266-391, work_unit_feed/work_unit_feed.rs:123-197,
    work_unit_feed/remote_work_unit_feed.rs:113-150, execution_plans/distributed_leaf.rs. *)
From Verif Require Import Base NetModel CiuModel EventsModel PlanModel.
From Verif Require FeedModel.

(** query_coordinator.rs:280-325: the walk over the stage's plan (before it is trimmed). A node for which the
    registry knows a feed is fed; whether it does is part of the operator ([op_feed]). *)
Definition fed_nodes (p : plan) (ctx : TaskCtx) : Res (list FeedModel.node) :=
  let* r := apply_with_dt_ctx
              (fun acc _ n nctx =>
                 Ok (match n with
                     | POp o _ => match op_feed o with
                                  | Some (feed, _) => acc ++ [FeedModel.mkNode feed (op_parts o) nctx]
                                  | None => acc
                                  end
                     | _ => acc
                     end, Continue)) p [] ctx [] in
  Ok (fst r).

(** work_unit_feed.rs:160-178: a decoded feed is in remote mode, whatever it was. *)
Definition decoded_op (o : op) : op :=
  mkOp (op_id o) (op_parts o) (match op_feed o with Some (feed, _) => Some (feed, true) | None => None end).

(** A plan as a remote worker decodes it (worker/impl_coordinator_channel.rs:66-79 over gRPC). *)
Fixpoint decoded (p : plan) : plan :=
  match p with
  | POp o cs => POp (decoded_op o) (map decoded cs)
  | PCiu k m cs => PCiu k m (map decoded cs)
  | PBoundary b k t cs => PBoundary b k t (map decoded cs)
  | PDle k o vs => PDle k (decoded o) (map decoded vs)
  | PEmpty k => PEmpty k
  end.

(** The plan that the task runs: over gRPC it is decoded from its bytes, in the coordinator's process it is
    the coordinator's own tree (protocol/in_memory/worker_channel.rs, SetPlan with a decoded plan). *)
Definition arrived (in_process : bool) (p : plan) : plan := if in_process then p else decoded p.

Section Reads.
Context {unit_ : Type}.
(** What the provider behind a feed makes for a feed index when it is told to fan out to so many tasks
    (work_unit_feed_provider.rs:71-111); arbitrary. *)
Variable provider : nat -> nat -> nat -> list unit_.

(** The receivers of the worker (impl_coordinator_channel.rs:37-40, remote_work_unit_feed.rs:48-59). *)
Definition has_receiver (decls : list (nat * nat)) (feed partition : nat) : bool :=
  existsb (fun '(f, n) => (f =? feed) && (partition <? n)) decls.

(** What arrives in the queue of a feed's partition: the units of all nodes that are fed under this id. That
    each node's units arrive in order and complete is C38; nodes sharing one id are interleaved (C38). *)
Definition units_sent (fed : list FeedModel.node) (feed partition : nat) : list unit_ :=
  flat_map (fun n =>
    if FeedModel.nid n =? feed
    then flat_map (fun '(p, j) => if p =? partition then provider feed j (task_count (FeedModel.nctx n)) else [])
           (FeedModel.feed_calls n)
    else []) fed.

(** [WorkUnitFeed::feed] called by an operator while it executes (work_unit_feed.rs:131-139): a local feed asks
    its provider, with the default fan-out of one task (work_unit_feed_provider.rs:105-111); a remote one reads
    the worker's receiver (remote_work_unit_feed.rs:134-151). The first read of a receiver is modelled; a second
    one fails (C55). *)
Definition read_feed (decls : list (nat * nat)) (fed : list FeedModel.node) (o : op) (partition : nat)
  : Res (list unit_) :=
  match op_feed o with
  | None => Err "the operator has no feed"
  | Some (feed, false) => Ok (provider feed partition 1)
  | Some (feed, true) =>
      if has_receiver decls feed partition then Ok (units_sent fed feed partition)
      else Err "Missing WorkUnit feed"
  end.
End Reads.
