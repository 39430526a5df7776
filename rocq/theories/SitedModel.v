(** The constructors of network boundaries that the library exports, with which a user places boundaries
    (docs/source/advanced/05-custom-distributed-plans.md). What the planner makes of a plan with boundaries
    is [distribute] in PlannerModel. *)
From Verif Require Import Base NetModel EventsModel PlannerModel.

Section Constructors.
Context {row : Type}.
Notation tree := (tree row).

(** execution_plans/network_shuffle.rs:111-144 [NetworkShuffleExec::try_new] and [from_stage]. The query id
    and stage number are placeholders, here 0. *)
Definition network_shuffle (input : tree) (producer_tasks : nat) : Res tree :=
  match input with
  | Node (KRepart (HashP h n)) _ => Ok (Net BShuffle (HashP h n) 0 0 producer_tasks input)
  | Node (KRepart _) _ => Err "The input of a NetworkShuffleExec must be hash partitioned"
  | _ => Err "The input of a NetworkShuffleExec can only be a RepartitionExec"
  end.

(** execution_plans/network_broadcast.rs:128-165. *)
Definition network_broadcast (input : tree) (producer_tasks : nat) : Res tree :=
  match input with
  | Node (KBcast _) _ => Ok (Net BBroadcast (UnknownP (tparts input)) 0 0 producer_tasks input)
  | _ => Err "The input of a NetworkBroadcastExec can only be a BroadcastExec"
  end.

(** execution_plans/network_coalesce.rs:86-142. *)
Definition network_coalesce (input : tree) (producer_tasks consumer_tasks : nat) : Res tree :=
  if consumer_tasks =? 0 then Err "The `consumer_tasks` input of a NetworkCoalesceExec must not be 0" else
  let* p := scale_partitioning (tpartitioning input)
              (fun p => p * Nat.max (div_ceil producer_tasks consumer_tasks) 1) in
  Ok (Net BCoalesce p 0 0 producer_tasks input).

(** coordinator/distributed.rs:184-200: DistributedExec refuses to execute a partition other than the first;
    it advertises the partitions of the plan below it (lines 150-153). *)
Definition coordinator_execute (partition : nat) (run : nat -> list row) : Res (list row) :=
  if 0 <? partition then Err "DistributedExec must only have 1 partition"
  else Ok (run 0).
End Constructors.
