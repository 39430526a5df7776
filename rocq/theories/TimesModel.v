(** The times of a task: when its plan was set, first executed and finished.
    Source: worker/task_data.rs:33-95, metrics/latency_metric.rs:181-204, worker/impl_execute_task.rs:28-37,
    worker/impl_coordinator_channel.rs:96, 159-169, 201-217, common/time.rs:5-13. *)
From Verif Require Import Base CiuModel.

(** A data request: about to look at the time of the first one; found none; has read the clock; past
    [mark_execution_started_once]; past [TaskData::plan]. *)
Inductive request := Arrived | Found_none | Has_read (t : nat) | Marked | Planned.

(** The worker's loop after the end of the coordinator's stream (impl_coordinator_channel.rs:159-169): not there yet, a final
    plan is there, has read the clock, has marked, reads the three times one after the other (task_data.rs:72-89), done. *)
Inductive ending := Listening | Has_plan | End_read (t : nat) | End_marked | Loaded1 (a : nat) | Loaded2 (a e : nat)
| Reported (a e f : nat) | Nothing.

(** The clock of the worker; the three metrics; the final plan ([Some true] if it could be built); the requests; the loop. *)
Record task := mkTask {
  clock : nat; added : nat; executed : nat; finished : nat; final : option bool; requests : list request; loop : ending
}.

(** latency_metric.rs:196-203: [fetch_max] with at least one nanosecond. *)
Definition add_nanos (value more : nat) : nat := Nat.max value (Nat.max more 1).

(** task_data.rs:46-55: the plan was set when the clock showed [now]. *)
Definition new_task (query_start now : nat) : task :=
  mkTask now (add_nanos 0 (now - query_start)) 0 0 None [] Listening.

Section Steps.
(** query_coordinator.rs:469 [instantiation_time], by the coordinator's clock. *)
Variable query_start : nat.
(** How the clock moves (SystemTime promises nothing). *)
Variable moves : nat -> nat -> Prop.

Inductive tstep : task -> task -> Prop :=
| t_clock s t : moves (clock s) t ->
    tstep s (mkTask t (added s) (executed s) (finished s) (final s) (requests s) (loop s))
| t_request s :
    tstep s (mkTask (clock s) (added s) (executed s) (finished s) (final s) (requests s ++ [Arrived]) (loop s))
(** task_data.rs:58-64 [mark_execution_started_once]: load, clock, [fetch_max]. *)
| t_check s i : nth_error (requests s) i = Some Arrived ->
    tstep s (mkTask (clock s) (added s) (executed s) (finished s) (final s)
      (upd (requests s) i (if executed s =? 0 then Found_none else Marked)) (loop s))
| t_read s i : nth_error (requests s) i = Some Found_none ->
    tstep s (mkTask (clock s) (added s) (executed s) (finished s) (final s)
      (upd (requests s) i (Has_read (clock s - query_start))) (loop s))
| t_mark s i t : nth_error (requests s) i = Some (Has_read t) ->
    tstep s (mkTask (clock s) (added s) (add_nanos (executed s) t) (finished s) (final s) (upd (requests s) i Marked) (loop s))
(** task_data.rs:103-116: the first request builds the final plan. *)
| t_plan s i ok : nth_error (requests s) i = Some Marked ->
    tstep s (mkTask (clock s) (added s) (executed s) (finished s)
      (match final s with Some r => Some r | None => Some ok end) (upd (requests s) i Planned) (loop s))
(** impl_coordinator_channel.rs:160-169. *)
| t_end s : loop s = Listening ->
    tstep s (mkTask (clock s) (added s) (executed s) (finished s) (final s) (requests s)
      (match final s with Some true => Has_plan | _ => Nothing end))
| t_end_read s : loop s = Has_plan ->
    tstep s (mkTask (clock s) (added s) (executed s) (finished s) (final s) (requests s) (End_read (clock s - query_start)))
| t_end_mark s t : loop s = End_read t ->
    tstep s (mkTask (clock s) (added s) (executed s) (add_nanos (finished s) t) (final s) (requests s) End_marked)
(** task_data.rs:72-89 [to_metrics_set]. *)
| t_load1 s : loop s = End_marked ->
    tstep s (mkTask (clock s) (added s) (executed s) (finished s) (final s) (requests s) (Loaded1 (added s)))
| t_load2 s a : loop s = Loaded1 a ->
    tstep s (mkTask (clock s) (added s) (executed s) (finished s) (final s) (requests s) (Loaded2 a (executed s)))
| t_load3 s a e : loop s = Loaded2 a e ->
    tstep s (mkTask (clock s) (added s) (executed s) (finished s) (final s) (requests s) (Reported a e (finished s))).
End Steps.
