(** What merged metrics must show. *)
From Verif Require Import Base MetricsModel.
From Coq Require Import NArith.
Local Open Scope N_scope.

(** All numbers recorded by the tasks of a merge. *)
Fixpoint recordings (m : merge) : list N := match m with Task l => l | Empty => [] | Merge a b => recordings a ++ recordings b end.
(** All of them fit 64 bits. *)
Notation words m := (Forall (fun n => n < word) (recordings m)).
(** A recorded duration counts as at least 1 ns. *)
Definition duration (n : N) : N := if n =? 0 then 1 else n.
Definition total (l : list N) : N := fold_right N.add 0 l.
Definition smallest (v : N) (l : list N) : Prop := In v l /\ forall x, In x l -> v <= x.
Definition largest (v : N) (l : list N) : Prop := In v l /\ forall x, In x l -> x <= v.
(** The first recording of each task that recorded something, in the order of merging. *)
Fixpoint firsts (m : merge) : list N := match m with Task l => match l with n :: _ => [n] | [] => [] end | Empty => [] | Merge a b => firsts a ++ firsts b end.
