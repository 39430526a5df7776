(** Vocabulary of the network boundary theorems. *)
From Verif Require Import Base NetModel.

Section Spec.
Context {row : Type}.

(** All rows of a stage of [n] tasks in which partition [i] (of [np t]) of task [t] yields [data t i]. *)
Definition stage_rows (n : nat) (np : nat -> nat) (data : nat -> nat -> list row) : list row :=
  flat_map (fun t => flat_map (data t) (seq 0 (np t))) (seq 0 n).

(** Plan [p] runs without failing and partition [i] yields [data i]. *)
Definition yields (p : splan row) (data : nat -> list row) : Prop :=
  forall i, i < parts p -> exec p i = Ok (data i).

(** All rows seen by [m] consumer tasks of [p] partitions, partition [j] of task [c] seeing [out c j]. *)
Definition consumer_rows (m p : nat) (out : nat -> nat -> list row) : list row :=
  flat_map (fun c => flat_map (out c) (seq 0 p)) (seq 0 m).

(** [out] is what the consumers may observe when executing a boundary: for every consumer task [c]
    of [m] and partition [j] below [p] the execution succeeds and [out c j] is one interleaving of
    the streams it returns. *)
Definition observes (run : TaskCtx -> nat -> Res (list (list row))) (m p : nat)
    (out : nat -> nat -> list row) : Prop :=
  forall c j, c < m -> j < p ->
    exists streams, run (mkCtx c m) j = Ok streams /\ merge_of streams (out c j).

(** (producer task, partition) pairs of [n] tasks with [k] partitions. *)
Definition all_pairs (n k : nat) : list (nat * nat) := list_prod (seq 0 n) (seq 0 k).

Definition read_of (r : request row) : nat * nat := (rq_task r, rq_target r).

(** The request asks for a partition that it also lists in its range. *)
Definition in_range (r : request row) : Prop := rq_start r <= rq_target r < rq_end r.

End Spec.
