(** What a worker answers when it is asked for its tasks. *)
From Verif Require Import Base CiuModel TaskModel.

Section Worker.
Context {plan head err : Type}.
Notation worker := (worker plan head err).

(** protocol/grpc/observability/service.rs:87-115 [get_task_progress]: the entries of the cache whose plan was built
    ([read_now], single_write_multi_read.rs:71-78, is the value that was written, if any), with their keys. Every one of them
    is reported with the status Running (line 102), so the status is left out; the number of rows is read off the plan
    (line 98, [output_rows_from_plan], lines 143-146) and is represented by the plan. Going through the cache is one step
    here; moka's iterator may miss entries that come or go meanwhile. The metrics of the process are left out. *)
Definition progress (w : worker) : list (nat * plan) :=
  flat_map (fun x => match nth_error (wk_entries w) (snd x) with
    | Some (mkEntry (Some (inl p)) _) => [(fst x, p)]
    | _ => []
    end) (wk_cache w).
End Worker.
