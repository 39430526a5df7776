(** Vocabulary of C95. *)
From Verif Require Import Base NetModel CiuModel EventsModel PlanModel PlanSpec.

(** Operator [o] runs in the task, with context [nctx], and has the feed [feed]. *)
Definition runs_with_feed (p : plan) (ctx : TaskCtx) (o : op) (nctx : TaskCtx) (feed : nat) : Prop :=
  exists at_ cs r, runs_at p ctx at_ (POp o cs) nctx /\ op_feed o = Some (feed, r).

(** No two operators that run in the task share a feed. *)
Definition own_feeds (p : plan) (ctx : TaskCtx) : Prop :=
  forall at_ at_' o o' cs cs' nctx nctx' feed r r',
    runs_at p ctx at_ (POp o cs) nctx -> runs_at p ctx at_' (POp o' cs') nctx' ->
    op_feed o = Some (feed, r) -> op_feed o' = Some (feed, r') -> at_ = at_'.
