(** Vocabulary of the theorems on connections. *)
From Verif Require Import Base CiuModel ChanModel.

Section Spec.
Context {err : Type}.

(** All histories. *)
Definition chan_reachable (r : resolver err) : Prop := steps chan_step resolver_new r.
Definition later (r r' : resolver err) : Prop := steps chan_step r r'.

(** The [c]-th call is for worker [u] and waits for connection attempt [a] or, if [o] is given, returned it. *)
Definition call_is (r : resolver err) (c u a : nat) (o : option (unit + err)) : Prop :=
  nth_error (r_calls r) c = Some (mkCall u a o).
Definition attempt_is (r : resolver err) (a u : nat) (res : option (unit + err)) : Prop :=
  nth_error (r_attempts r) a = Some (mkAttempt u res).

(** How many connections to [u] were begun; how often the one kept for [u] was removed. *)
Definition begun (r : resolver err) (u : nat) : nat := List.length (filter (fun a => a_url a =? u) (r_attempts r)).
Definition removed (r : resolver err) (u : nat) : nat := List.length (filter (fun e => fst e =? u) (r_removed r)).
End Spec.
