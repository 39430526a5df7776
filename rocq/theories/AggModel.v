(** Model of the partial-reduce pass and of DataFusion's hash aggregation as far as it depends on how
    rows are grouped.
    Source: src/distributed_planner/partial_reduce_below_network_shuffles.rs. *)
From Verif Require Import Base NetModel.

Section Agg.
(** Column values (with a null), accumulator states. *)
Context {value state : Type}.
Variable value_eq_dec : forall a b : value, {a = b} + {a <> b}.
(** The id DataFusion gives to a grouping set (its [group_id_array]), as a value. *)
Variable grouping_id : list bool -> value.

Notation key := (list value).

(** A physical expression, evaluated on the columns of a row. *)
Notation expr := (list value -> value).

(** DataFusion [PhysicalGroupBy]. Each element of [groups] has one flag per expression; a set flag
    selects the null expression. *)
Record group_by := mkGroupBy {
  exprs : list expr;
  null_exprs : list expr;
  groups : list (list bool);
  has_grouping_set : bool
}.

(** DataFusion [evaluate_group_by] for one row (library behaviour): one key per grouping set. *)
Definition eval_group (g : group_by) (row : list value) (mask : list bool) : key :=
  map (fun '(b, (e, n)) => if b : bool then n row else e row)
      (combine mask (combine (exprs g) (null_exprs g)))
  ++ (if has_grouping_set g then [grouping_id mask] else []).
Definition eval_group_by (g : group_by) (row : list value) : list key :=
  map (eval_group g row) (groups g).

(** A column reference. Columns beyond the row do not occur in valid plans. *)
Definition column (d : value) (i : nat) : expr := fun row => nth i row d.

(** partial_reduce_below_network_shuffles.rs:51-85: the group-by of the inserted aggregate. Both the
    expressions and the null expressions become references to the first columns of the partial output. *)
Definition partial_reduce_group_by (d : value) (orig : group_by) : group_by :=
  mkGroupBy (map (column d) (seq 0 (List.length (exprs orig))))
            (map (column d) (seq 0 (List.length (null_exprs orig))))
            (groups orig) (has_grouping_set orig).

(** DataFusion [PhysicalGroupBy::as_final]: the group columns of the partial output (with the grouping
    id, if there is one), one grouping set. *)
Definition as_final (d : value) (orig : group_by) : group_by :=
  let n := List.length (exprs orig) + if has_grouping_set orig then 1 else 0 in
  mkGroupBy (map (column d) (seq 0 n)) (map (column d) (seq 0 n)) [repeat false n] false.

(** ** Accumulators *)

(** [lift] feeds one input row to a fresh accumulator; [merge] merges two states; [finish] evaluates. *)
Context {result : Type}.
Record accumulator := mkAcc {
  lift : list value -> state;
  merge : state -> state -> state;
  finish : state -> result
}.

Definition key_eqb (a b : key) : bool := if list_eq_dec value_eq_dec a b then true else false.

(** The states of group [k], in arrival order. *)
Definition states_of (k : key) (rows : list (key * state)) : list state :=
  map snd (filter (fun r => key_eqb (fst r) k) rows).

(** The hash table of an aggregation: one entry per group, all its states merged. *)
Definition grouped (a : accumulator) (rows : list (key * state)) : list (key * state) :=
  flat_map (fun k => match states_of k rows with
                     | [] => []
                     | s :: ss => [(k, fold_left (merge a) ss s)]
                     end)
           (nodup (list_eq_dec value_eq_dec) (map fst rows)).

(** [AggregateMode::Partial] on input rows. *)
Definition partial (g : group_by) (a : accumulator) (rows : list (list value)) : list (key * state) :=
  grouped a (flat_map (fun r => map (fun k => (k, lift a r)) (eval_group_by g r)) rows).

(** [AggregateMode::PartialReduce]: groups state rows again; the key columns are the row the group
    expressions see. *)
Definition partial_reduce (g : group_by) (a : accumulator) (rows : list (key * state))
  : list (key * state) :=
  grouped a (flat_map (fun '(k, s) => map (fun k' => (k', s)) (eval_group_by g k)) rows).

(** [AggregateMode::Final] / [FinalPartitioned]. *)
Definition final (g : group_by) (a : accumulator) (rows : list (key * state)) : list (key * result) :=
  map (fun '(k, s) => (k, finish a s)) (partial_reduce g a rows).

(** [AggregateMode::Single] on the whole input: what one node would return. *)
Definition single (g : group_by) (a : accumulator) (rows : list (list value)) : list (key * result) :=
  map (fun '(k, s) => (k, finish a s)) (partial g a rows).
End Agg.

Arguments group_by : clear implicits.
Arguments accumulator : clear implicits.

(** ** The pass *)

Section Pass.
Context {A : Type}.

(** The shapes the pass distinguishes; anything else is [Any]. [Net] is a network boundary with its
    input plan. *)
Inductive ptree :=
| Net (input : ptree)
| HashRepart (input : ptree)
| Agg (partial_mode : bool) (id : A) (input : ptree)
| PartialReduce (id : A) (input : ptree)
| Any (id : A) (cs : list ptree).

(** Lines 25-101, with [transform_up]: children first, then the node. A boundary has exactly one child
    here ([require_one_child] cannot fail). *)
Fixpoint reduce_pass (p : ptree) : ptree :=
  match p with
  | Net input =>
      match reduce_pass input with
      | HashRepart (Agg true id i) => Net (PartialReduce id (HashRepart (Agg true id i)))
      | input => Net input
      end
  | HashRepart i => HashRepart (reduce_pass i)
  | Agg m id i => Agg m id (reduce_pass i)
  | PartialReduce id i => PartialReduce id (reduce_pass i)
  | Any id cs => Any id (map reduce_pass cs)
  end.

(** Lines 17-23: switched off by default. *)
Definition partial_reduce_below_network_shuffles (enabled : bool) (p : ptree) : ptree :=
  if enabled then reduce_pass p else p.
End Pass.
