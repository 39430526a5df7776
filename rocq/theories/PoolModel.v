(** Model of worker/worker_connection_pool.rs: one connection per producer task, created by the first caller,
    whose streams are handed out at most once. *)
From Verif Require Import Base CiuModel NetModel.

Section Pool.
Context {row stream err : Type}.

(** What the stream returned by [execute] turns into at its first poll, or what [execute] returns. *)
Inductive outcome :=
| NoWorker                                    (* worker_connection_pool.rs:55-57 *)
| NoConnection                                (* lines 71-76 *)
| Got (task index : nat) (s : stream)         (* line 133: stream [index] of the connection to [task] *)
| ConnectionFailed (e : err)                  (* line 127 *)
| NoStream                                    (* lines 128-132 *)
| Consumed                                    (* lines 133-137 *)
| Underflow.                                  (* line 128, [target_partition - target_partitions.start] *)

(** A connection: the request of the first caller (lines 78-108) and, once the request finished, its streams
    ([None]: taken) or its error (lines 110-120). *)
Record group := mkGroup { g_request : request row; g_result : option (list (option stream) + err) }.

(** The pool; history: the calls made so far with their outcomes, the requests sent to workers, and what they
    answered. *)
Record pool := mkPool {
  pl_slots : list (option group);
  pl_calls : list (request row * option outcome);
  pl_issued : list (request row);
  pl_answers : list (nat * (list stream + err))
}.

(** Lines 39-44. *)
Definition pool_new (input_tasks : nat) : pool := mkPool (repeat None input_tasks) [] [] [].

(** Lines 46-123, up to the return of the lazily polled stream. [workers] is the number of URLs of the
    stage. *)
Definition pool_call (workers : nat) (pl : pool) (r : request row) : pool :=
  if workers <=? rq_task r then mkPool (pl_slots pl) (pl_calls pl ++ [(r, Some NoWorker)]) (pl_issued pl) (pl_answers pl) else
  match nth_error (pl_slots pl) (rq_task r) with
  | None => mkPool (pl_slots pl) (pl_calls pl ++ [(r, Some NoConnection)]) (pl_issued pl) (pl_answers pl)
  | Some (Some _) => mkPool (pl_slots pl) (pl_calls pl ++ [(r, None)]) (pl_issued pl) (pl_answers pl)
  | Some None =>
      mkPool (upd (pl_slots pl) (rq_task r) (Some (mkGroup r None))) (pl_calls pl ++ [(r, None)]) (pl_issued pl ++ [r])
             (pl_answers pl)
  end.

(** Lines 125-138: the first poll after the connection finished. *)
Definition first_item (r : request row) (result : list (option stream) + err)
  : outcome * (list (option stream) + err) :=
  match result with
  | inr e => (ConnectionFailed e, result)
  | inl streams =>
      if rq_target r <? rq_start r then (Underflow, result) else
      let index := rq_target r - rq_start r in
      match nth_error streams index with
      | None => (NoStream, result)
      | Some None => (Consumed, result)
      | Some (Some s) => (Got (rq_task r) index s, inl (upd streams index None))
      end
  end.

Inductive pool_step (workers : nat) : pool -> pool -> Prop :=
| call_step pl r : pool_step workers pl (pool_call workers pl r)
(** Lines 88-120: the request of a connection finishes. *)
| resolve_step pl t r (result : list stream + err) :
    nth_error (pl_slots pl) t = Some (Some (mkGroup r None)) ->
    pool_step workers pl
      (mkPool (upd (pl_slots pl) t
                 (Some (mkGroup r (Some (match result with inl l => inl (map Some l) | inr e => inr e end)))))
              (pl_calls pl) (pl_issued pl) (pl_answers pl ++ [(t, result)]))
| poll_step pl c r g result :
    nth_error (pl_calls pl) c = Some (r, None) ->
    nth_error (pl_slots pl) (rq_task r) = Some (Some g) -> g_result g = Some result ->
    pool_step workers pl
      (mkPool (upd (pl_slots pl) (rq_task r) (Some (mkGroup (g_request g) (Some (snd (first_item r result))))))
              (upd (pl_calls pl) c (r, Some (fst (first_item r result))))
              (pl_issued pl) (pl_answers pl)).
End Pool.
Arguments outcome : clear implicits.
Arguments group : clear implicits.
Arguments pool : clear implicits.
