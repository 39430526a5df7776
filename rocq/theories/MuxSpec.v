(** Vocabulary of the theorems on the merged stream of a worker. *)
From Verif Require Import Base CiuModel MuxModel.

Section Spec.
Context {data err : Type}.
Notation item := (msg data + err)%type.

Definition mux_reachable (queue_size : nat) (inputs : list (list item)) (x : mux data err) : Prop :=
  steps (mux_step queue_size) (mux_new inputs) x.

(** The messages of a source that the worker has in memory. *)
Definition waiting (s : source data err) : list item :=
  s_queue s ++ match s_held s with Some m => [m] | None => [] end.
Definition bytes_of (l : list item) : nat := list_sum (map size_of l).
Definition bytes_waiting (x : mux data err) : nat := list_sum (map (fun s => bytes_of (waiting s)) (x_sources x)).
End Spec.

(** Merging: the result is made of the elements of the lists, the order of each list being kept. *)
Inductive interleaved {A} : list (list A) -> list A -> Prop :=
| il_nil ls : Forall (fun l => l = []) ls -> interleaved ls []
| il_snoc ls i l x rest : nth_error ls i = Some l -> interleaved ls rest -> interleaved (upd ls i (l ++ [x])) (rest ++ [x]).
