(** What the run-time statistics of a stage should say. *)
From Verif Require Import Base CiuModel SamplerModel GatherModel.
From Coq Require Import NArith ZArith SpecFloat.

Definition Nsum (l : list N) : N := fold_right N.add 0%N l.

(** ** Which reports are used *)

Definition has_bytes (s : sample) : Prop := exists b, In b (s_bytes s) /\ (0 < b)%N.

(** [found l n]: [n] of the reports [l] came with bytes. *)
Inductive found : list sample -> nat -> Prop :=
| found_none : found [] 0
| found_yes s l n : has_bytes s -> found l n -> found (s :: l) (S n)
| found_no s l n : ~ has_bytes s -> found l n -> found (s :: l) n.

(** A fifth of the partitions, rounded to the nearest, and at least one. *)
Definition a_fifth (total : N) : N := N.max ((2 * total + 5) / 10) 1.

(** There are enough reports: a fifth of the partitions came with bytes, or all partitions reported. *)
Definition satisfied (total : N) (l : list sample) : Prop :=
  (exists n, found l n /\ (a_fifth total <= N.of_nat n)%N) \/ N.of_nat (List.length l) = total.

(** [used] are the reports at the front of [arrivals] that are needed: the shortest non-empty beginning that is enough. *)
Definition needed (total : N) (arrivals used : list sample) : Prop :=
  exists later, arrivals = used ++ later /\ (later = [] \/ satisfied total used) /\ (used = [] -> later = []) /\
    forall l x r, used = l ++ x :: r -> l <> [] -> ~ satisfied total l.

(** ** Extrapolation *)

(** What the reports [used] say about all [total] partitions, for any of the added-up amounts. *)
Definition for_all_partitions (total : N) (amount : sample -> N) (used : list sample) : N :=
  (Nsum (map amount used) * total / N.of_nat (List.length used))%N.

Definition all_ended (used : list sample) : Prop := forall s, In s used -> s_eos s = true.

(** The leaves' announced rows: nothing if no leaf announces any. *)
Inductive announced : list (option N) -> option N -> Prop :=
| announced_nothing l : (forall o, In o l -> o = None) -> announced l None
| announced_rows l : (exists n, In (Some n) l) ->
    announced l (Some (Nsum (map (fun o => match o with Some n => n | None => 0%N end) l))).

(** How far the stage is: [num] of [den] parts, when [pulled] rows were read from the leaves. *)
Inductive progress (leaves : list (option N)) (used : list sample) (pulled : N) : N -> N -> Prop :=
| progress_complete : all_ended used -> progress leaves used pulled 1 1
| progress_nothing_expected : ~ all_ended used -> announced leaves (Some 0%N) -> progress leaves used pulled 1 1
| progress_measured l : ~ all_ended used -> announced leaves (Some l) -> (0 < l)%N -> progress leaves used pulled (N.min pulled l) l
| progress_unknown : ~ all_ended used -> announced leaves None -> progress leaves used pulled 1 5.

(** [n] is [x * den / num], up to one part in 2^21 and rounding down, or the largest [usize] if that is less; and not 0
    unless [x] is. *)
Definition extrapolates (x num den n : N) : Prop :=
  (n * num * 2 ^ 21 <= x * den * (2 ^ 21 + 1))%N /\
  (n = usize_max \/ (x * den * (2 ^ 21 - 1) < (n + 1) * num * 2 ^ 21)%N) /\ (0 < x -> 0 < n)%N.

(** ** Ratios *)

(** A float between 0 and 1: its sign is plus and it is 0, 1 or has a negative exponent that makes it less than 1. *)
Definition ratio (x : f32) : Prop :=
  x = S754_zero false \/
  exists m e, x = S754_finite false m e /\ bounded 24 128 m e = true /\ (e < 0)%Z /\ (Z.pos m <= 2 ^ (- e))%Z.

Definition amount (p : precision) : option N := match p with Exact n | Inexact n => Some n | Absent => None end.

(** [p] is an estimate of at most [n]. *)
Definition at_most (p : precision) (n : N) : Prop := exists k, amount p = Some k /\ (k <= n)%N.
