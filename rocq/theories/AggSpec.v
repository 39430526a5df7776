(** Vocabulary of the aggregation theorems. *)
From Verif Require Import Base AggModel.

(** The merge of a partial aggregate may be done in any order and grouping. *)
Definition order_free {value state result} (a : accumulator value state result) : Prop :=
  (forall x y z, merge a x (merge a y z) = merge a (merge a x y) z) /\
  (forall x y, merge a x y = merge a y x).

(** GROUP BY over a list of expressions, without GROUPING SETS / ROLLUP / CUBE. *)
Definition plain_group_by {value} (g : group_by value) : Prop :=
  List.length (null_exprs g) = List.length (exprs g) /\
  groups g = [repeat false (List.length (exprs g))] /\ has_grouping_set g = false.

(** The rows of hash class [c] of [n] among state rows. *)
Definition key_class {K S} (h : K -> nat) (n c : nat) (rows : list (K * S)) : list (K * S) :=
  filter (fun r => h (fst r) mod n =? c) rows.

(** A plan with its partial-reduce aggregates taken out. *)
Fixpoint without_reduces {A} (p : @ptree A) : @ptree A :=
  match p with
  | Net i => Net (without_reduces i)
  | HashRepart i => HashRepart (without_reduces i)
  | Agg m id i => Agg m id (without_reduces i)
  | PartialReduce _ i => without_reduces i
  | Any id cs => Any id (map without_reduces cs)
  end.

(** Every boundary directly above a hash repartition of a partial aggregate has its reduce, and no
    partial reduce sits anywhere else. *)
Fixpoint reduces_in_place {A} (p : @ptree A) : Prop :=
  match p with
  | Net (PartialReduce id (HashRepart (Agg true id' i))) => id = id' /\ reduces_in_place i
  | Net (HashRepart (Agg true _ _)) => False
  | Net i => reduces_in_place i
  | HashRepart i => reduces_in_place i
  | Agg _ _ i => reduces_in_place i
  | PartialReduce _ i => False
  | Any _ cs => fold_right (fun c P => reduces_in_place c /\ P) True cs
  end.

Fixpoint has_reduce {A} (p : @ptree A) : bool :=
  match p with
  | Net i | HashRepart i | Agg _ _ i => has_reduce i
  | PartialReduce _ _ => true
  | Any _ cs => existsb has_reduce cs
  end.
