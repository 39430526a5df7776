(** Vocabulary of the union theorems. *)
From Verif Require Import Base NetModel CiuModel.
From Coq Require Import ZArith.

(** The task contexts under which child [i] appears in an allocation, in slot order. *)
Definition runs_of (i : nat) (result : list slot) : list TaskCtx :=
  map snd (filter (fun e => fst e =? i) (List.concat result)).

(** Task contexts 0..n-1 of n. *)
Definition all_tasks (n : nat) : list TaskCtx := map (fun k => mkCtx k n) (seq 0 n).

(** What a distribution of children over [budget] slots must satisfy. *)
Record good_allocation (children : list ChildWeight) (budget : nat) (result : list slot) : Prop := {
  ga_slots : List.length result = budget;
  ga_no_double : forall s, In s result -> NoDup (map fst s);
  ga_known : forall s e, In s result -> In e s -> fst e < List.length children;
  ga_exact : forall i c, nth_error children i = Some c ->
    exists n, 1 <= n <= budget /\ (forall m, cw_max c = Some m -> n <= m) /\
              runs_of i result = all_tasks n;
  (** an idle slot means that every child is at its cap *)
  ga_idle : In [] result -> forall i c, nth_error children i = Some c ->
    cw_max c = Some (List.length (runs_of i result))
}.

(** The allocation computed in [counts] fits: what the float rounding must not break. *)
Definition floors_fit (children : list ChildWeight) (budget : nat) : Prop :=
  list_sum (init_counts children (shares children budget)) <= budget.

(** The weights the planner produces (inject_network_boundaries.rs:483-490): doubles of machine
    integers. *)
Definition integer_weight (c : ChildWeight) : Prop :=
  exists n : nat, (Z.of_nat n < 2 ^ 64)%Z /\ weight c = f64_of_nat n.

(** How many times child [i] runs in an allocation. *)
Definition run_count (result : list slot) (i : nat) : nat := List.length (runs_of i result).

Section Reads.
Context {row : Type}.

(** Every (child, task context, partition) that a complete execution of the children has: child [i]
    runs in tasks 0..cnt i - 1 of cnt i, all its partitions in each. *)
Definition all_child_reads (children : list (child row)) (cnt : nat -> nat)
  : list (nat * TaskCtx * nat) :=
  flat_map (fun i =>
    match nth_error children i with
    | None => []
    | Some c => flat_map (fun ctx => map (fun p => (i, ctx, p)) (seq 0 (ch_parts c))) (all_tasks (cnt i))
    end) (seq 0 (List.length children)).

(** The rows of such a complete execution. *)
Definition all_child_rows (children : list (child row)) (cnt : nat -> nat)
    (data : nat -> TaskCtx -> nat -> list row) : list row :=
  flat_map (fun '(i, ctx, p) => data i ctx p) (all_child_reads children cnt).

End Reads.
