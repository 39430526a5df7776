(** Vocabulary of the connection pool theorems. *)
From Verif Require Import Base CiuModel NetModel PoolModel.

Section Spec.
Context {row stream err : Type}.

(** All histories of a pool with [n] slots. *)
Definition pool_reachable (workers n : nat) (pl : pool row stream err) : Prop :=
  steps (pool_step workers) (pool_new n) pl.

(** The outcome of the [c]-th call. *)
Definition outcome_of (pl : pool row stream err) (c : nat) (r : request row) (o : outcome stream err) : Prop :=
  nth_error (pl_calls pl) c = Some (r, Some o).

(** Calls that fit together: calls for the same producer task ask for the same partition range with the same
    head, each for a partition of the range, and no partition is asked for twice. *)
Definition fitting (calls : list (request row)) : Prop :=
  (forall a b, In a calls -> In b calls -> rq_task a = rq_task b ->
     rq_start a = rq_start b /\ rq_end a = rq_end b /\ rq_head a = rq_head b) /\
  (forall a, In a calls -> rq_start a <= rq_target a < rq_end a) /\
  NoDup (map (fun a => (rq_task a, rq_target a)) calls).
End Spec.
