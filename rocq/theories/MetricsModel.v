(** Metrics of this crate: src/metrics/latency_metric.rs, max_gauge_metric.rs, bytes_metric.rs.

    Each is one or two atomic counters of 64 bits. Every operation on a counter is atomic (load, fetch_min, fetch_max, fetch_add, compare_exchange), so
    operations of several threads happen one after the other, in some order. [aggregate] reads the other metric and then changes its own; the metrics
    of a finished task do not change any more. Metrics of another kind are ignored by [aggregate]; they are not modelled, nor are percentiles, which
    are kept by another crate. *)
From Verif Require Import Base.
From Coq Require Import NArith.
Local Open Scope N_scope.

Definition word : N := 18446744073709551616. (* 2^64 *)
Definition wrap (n : N) : N := n mod word.

(** A kind of metric: its counters, [Default], recording a number, [aggregate], [value]. *)
Record metric := { counters : Type; new : counters; record : N -> counters -> counters; aggregate : counters -> counters -> counters; value : counters -> N }.

(** latency_metric.rs:100-161: [add_nanos], [aggregate] *)
Definition min_latency : metric :=
  {| counters := N; new := word - 1; record n s := N.min s (N.max n 1); aggregate s o := N.min s o; value s := s |}.
(** latency_metric.rs:137-144 *)
Definition shown_min (v : N) : N := if v =? word - 1 then 0 else v.
(** latency_metric.rs:176-228 *)
Definition max_latency : metric :=
  {| counters := N; new := 0; record n s := N.max s (N.max n 1); aggregate s o := N.max s o; value s := s |}.
(** latency_metric.rs:240-303: the sum and the number of values *)
Definition avg_latency : metric :=
  {| counters := N * N; new := (0, 0);
     record n s := (wrap (fst s + N.max n 1), wrap (snd s + 1));
     aggregate s o := (wrap (fst s + fst o), wrap (snd s + snd o));
     value s := fst s / N.max (snd s) 1 |}.
(** latency_metric.rs:317-372 *)
Definition first_latency : metric :=
  {| counters := N; new := 0; record n s := if s =? 0 then N.max n 1 else s; aggregate s o := if s =? 0 then o else s; value s := s |}.
(** max_gauge_metric.rs:31-81 *)
Definition max_gauge : metric :=
  {| counters := N; new := 0; record n s := N.max s n; aggregate s o := N.max s o; value s := s |}.
(** bytes_metric.rs:41-94 *)
Definition bytes_counter : metric :=
  {| counters := N; new := 0; record n s := wrap (s + n); aggregate s o := wrap (s + o); value s := s |}.

(** Metrics of tasks merged in some order: a task's with the numbers recorded, in the order in which its threads' operations happened; an empty one
    ([new_empty]); one into which another was aggregated. *)
Inductive merge := Task (recorded : list N) | Empty | Merge (into other : merge).
Fixpoint merged (k : metric) (m : merge) : counters k :=
  match m with
  | Task l => fold_left (fun s n => record k n s) l (new k)
  | Empty => new k
  | Merge a b => aggregate k (merged k a) (merged k b)
  end.
Definition merged_value (k : metric) (m : merge) : N := value k (merged k m).
