(** What the theorems of C86 say about the console. *)
From Verif Require Import Base ConsoleModel.

(** The answer lists the task, or lists it as running. *)
Definition lists (k : key) (a : answer) : Prop := exists t, In t (a_tasks a) /\ l_key t = Some k.
Definition lists_running (k : key) (a : answer) : Prop := exists t, In t (a_tasks a) /\ l_key t = Some k /\ l_running t = true.

(** In these events every answer of the worker lists the task, and no poll fails. *)
Definition keeps (k : key) (l : list event) : Prop :=
  forall now r, In (EPoll now r) l -> exists a, r = Some a /\ lists k a.

(** A worker lists a task at most once. *)
Definition proper (l : list event) : Prop :=
  forall now a, In (EPoll now (Some a)) l -> NoDup (flat_map (fun t => match l_key t with Some k => [k] | None => [] end) (a_tasks a)).

(** The task was listed from the poll at [t0] on, at least once as running, and was missing in the answer at [t2]. *)
Definition was_seen (u : nat) (l : list event) (k : key) (t0 t2 : nat) : Prop :=
  exists l0 a0 l1 a2 l2,
    l = l0 ++ EPoll t0 (Some a0) :: l1 ++ EPoll t2 (Some a2) :: l2 /\ client (after u l0) = true /\
    lists k a0 /\ keeps k l1 /\ ~ lists k a2 /\
    exists t1 a1, In (EPoll t1 (Some a1)) (EPoll t0 (Some a0) :: l1) /\ lists_running k a1.

(** The rows that all tasks of an answer have produced so far. *)
Definition rows_of (a : answer) : nat := fold_right (fun t n => l_rows t + n) 0 (a_tasks a).
(** None of these events is an answer of the worker. *)
Definition unanswered (l : list event) : Prop := forall now a, ~ In (EPoll now (Some a)) l.
(** The last value that a chart shows. *)
Definition newest (l : list nat) (v : nat) : Prop := exists l', l = l' ++ [v].
