(** What the theorems of C84 say about the end of a query. *)
From Verif Require Import Base EndModel.

(** The query is being planned and sent, or its rows are being read. *)
Definition running (s : query) : Prop := stage s = Preparing \/ stage s = Streaming.
(** The caller has the end of the result stream, or dropped it. *)
Definition answered (s : query) : Prop := (exists ok, stage s = Returned ok) \/ stage s = Dropped.

(** No worker waits for this channel: the plan never arrived, was refused or its building cancelled, or the worker's loop
    ended and the task left the registry. *)
Definition worker_free (c : chan) : Prop :=
  at_worker c = WIdle \/ at_worker c = WCancelled \/ at_worker c = WFailed \/ at_worker c = WClosed.
(** The coordinator's background tasks of this channel are over. *)
Definition tasks_over (c : chan) : Prop := feed_over c = true /\ call_over c = true.

(** A step from outside: the caller drops the result, or a connection fails. *)
Definition outside (s s' : query) : Prop :=
  (stage s' = Dropped /\ stage s <> Dropped) \/ map reset (chans s') <> map reset (chans s).
(** Nothing happens any more, unless from outside. *)
Definition at_rest (s : query) : Prop := forall s', qstep s s' -> outside s s'.

(** Runs of a given length. *)
Inductive run : nat -> query -> query -> Prop :=
| run_nil s : run 0 s s
| run_cons n s s1 s2 : qstep s s1 -> run n s1 s2 -> run (S n) s s2.
