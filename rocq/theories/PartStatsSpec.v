(** Vocabulary of the theorems on announced statistics. *)
From Verif Require Import Base CiuModel GatherModel.
From Coq Require Import NArith.
Local Open Scope N_scope.

(** [s] is [v / n] but for the fraction and a relative error of 2^-21. *)
Definition equal_share (n v s : N) : Prop :=
  2 ^ 21 * (n * s) <= (2 ^ 21 + 1) * v /\ 2 ^ 21 * v <= (2 ^ 21 + 1) * (n * (s + 1)).

(** The figure announced for each of [n] partitions, for a total [p]. *)
Definition shared (n : N) (p s : precision) : Prop :=
  match p, s with
  | Exact v, Exact w | Inexact v, Inexact w => equal_share n v w
  | Absent, Absent => True
  | _, _ => False
  end.
Definition column_shared (n : N) (c d : column_stats) : Prop :=
  shared n (null_count c) (null_count d) /\ shared n (distinct_count c) (distinct_count d) /\ shared n (byte_size c) (byte_size d).
Definition stats_shared (n : N) (s t : stats) : Prop :=
  shared n (num_rows s) (num_rows t) /\ shared n (total_byte_size s) (total_byte_size t) /\
  Forall2 (column_shared n) (columns s) (columns t).

(** All figures fit in a [usize], as they do in the code. *)
Definition fits (p : precision) : Prop := match p with Exact v | Inexact v => v <= usize_max | Absent => True end.
Definition stats_fit (s : stats) : Prop :=
  fits (num_rows s) /\ fits (total_byte_size s) /\
  Forall (fun c => fits (null_count c) /\ fits (distinct_count c) /\ fits (byte_size c)) (columns s).

(** What is claimed about an actual number. *)
Definition true_of (p : precision) (actual : N) : Prop := match p with Exact v => actual = v | _ => True end.

(** All figures that claim to be exact are zero. *)
Definition exact_is_zero (p : precision) : Prop := match p with Exact v => v = 0 | _ => True end.
Definition only_zero_exact (s : stats) : Prop :=
  exact_is_zero (num_rows s) /\ exact_is_zero (total_byte_size s) /\
  Forall (fun c => exact_is_zero (null_count c) /\ exact_is_zero (distinct_count c) /\ exact_is_zero (byte_size c)) (columns s).
