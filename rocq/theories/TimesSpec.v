(** What the theorems of C85 say about the times of a task. *)
From Verif Require Import Base TimesModel.

(** A clock that is never set back. *)
Definition steady : nat -> nat -> Prop := le.

(** The time that a worker writes down at [t]: nanoseconds since the start of the query, at least one. *)
Definition since (query_start t : nat) : nat := Nat.max (t - query_start) 1.

(** No request is between seeing that it is the first and writing its time. *)
Definition no_race (s : task) : Prop :=
  forall r, In r (requests s) -> r <> Found_none /\ forall t, r <> Has_read t.
