(** What the cost estimate of a plan is meant to say. *)
From Verif Require Import Base CiuModel SamplerModel GatherModel CostModel.
From Coq Require Import ZArith NArith.
Local Open Scope N_scope.

(** ** Work of an operator, in bytes *)

(** Sizes in bytes of what an operator reads and writes. *)
Definition sizes := linear -> N.
Definition Nsum (l : list N) : N := fold_right N.add 0%N l.

(** Each column counts once for every operation above it. *)
Fixpoint weighted (col : nat -> N) (above : N) (e : expr) : N :=
  match e with
  | ECol i => above * col i
  | ELit => 0
  | EOp args => Nsum (map (weighted col (above + 1)) args)
  end.
(** The columns of an expression, as often as they occur. *)
Fixpoint occurrences (e : expr) : list nat :=
  match e with ECol i => [i] | ELit => [] | EOp args => flat_map occurrences args end.

Definition computes (e : expr) : bool :=
  match e with EOp _ => match occurrences e with [] => false | _ => true end | _ => false end.
(** Evaluating an expression: 1 if it computes nothing from a column. *)
Definition expr_work (col : nat -> N) (e : expr) : N := if computes e then weighted col 0 e else 1.
(** Hashing or comparing a key: its columns, or 1 if it has none. *)
Definition key_work (col : nat -> N) (e : expr) : N :=
  match occurrences e with [] => 1 | l => Nsum (map col l) end.

(** The columns of a join filter; the mark of a mark join, or a column out of range, counts 1. *)
Definition filter_column (sz : sizes) (cols : list side) (i : nat) : N :=
  match nth_error cols i with
  | Some (SLeft j) => sz (ColumnFromLeft j)
  | Some (SRight j) => sz (ColumnFromRight j)
  | _ => 1
  end.
Definition filter_work (sz : sizes) (jf : option join_filter) : N :=
  match jf with None => 0 | Some jf => expr_work (filter_column sz (jf_columns jf)) (jf_expr jf) end.

Definition keys_work (sz : sizes) (l : list expr) : N := Nsum (map (key_work (fun i => sz (Column i))) l).
Definition left_work (sz : sizes) (on : keys) : N :=
  Nsum (map (fun e => key_work (fun i => sz (ColumnFromLeft i)) (fst e)) on).
Definition right_work (sz : sizes) (on : keys) : N :=
  Nsum (map (fun e => key_work (fun i => sz (ColumnFromRight i)) (snd e)) on).

(** Work of an operator other than a sort. For a sort: its input and its keys, read once. *)
Definition work (sz : sizes) (o : operator) : N :=
  match o with
  | NestedLoopJoin jf => sz AllColumnsFromLeft * sz AllColumnsFromRight + filter_work sz jf
  | CrossJoin => sz AllColumnsFromLeft * sz AllColumnsFromRight
  | HashJoin on jf =>
      2 * sz AllColumnsFromLeft + left_work sz on + sz AllColumnsFromRight + right_work sz on + filter_work sz jf
  | SymmetricHashJoin on jf =>
      2 * sz AllColumnsFromLeft + left_work sz on + 2 * sz AllColumnsFromRight + right_work sz on + filter_work sz jf
  | SortMergeJoin on jf =>
      match on, jf with
      | [], None => 1
      | _, _ => left_work sz on + right_work sz on + filter_work sz jf
      end
  | Aggregate group filters _ =>
      sz AllColumns + keys_work sz group
      + Nsum (map (fun e => match e with Some e => expr_work (fun i => sz (Column i)) e | None => 0 end) filters)
  | Sort l _ | WindowAgg l | BoundedWindowAgg l | SortPreservingMerge l | Repartition l =>
      sz AllColumns + keys_work sz l
  | Filter e => sz AllOutputColumns + expr_work (fun i => sz (Column i)) e
  | Projection [] => 1
  | Projection l => Nsum (map (expr_work (fun i => sz (Column i))) l)
  | DataSource | Boundary | Other => sz AllOutputColumns
  | Limit | CoalescePartitions | Bcast _ | Union | Interleave | Empty => 1
  end.
Definition is_sort (o : operator) : bool := match o with Sort _ _ => true | _ => false end.

(** The sizes an operator's work is made of. *)
Definition expr_reads (e : expr) : list linear := if computes e then map Column (occurrences e) else [].
Definition filter_reads (jf : option join_filter) : list linear :=
  match jf with
  | None => []
  | Some jf =>
      if computes (jf_expr jf) then
        flat_map (fun i => match nth_error (jf_columns jf) i with
                           | Some (SLeft j) => [ColumnFromLeft j]
                           | Some (SRight j) => [ColumnFromRight j]
                           | _ => []
                           end) (occurrences (jf_expr jf))
      else []
  end.
Definition keys_reads (l : list expr) : list linear := flat_map (fun e => map Column (occurrences e)) l.
Definition on_reads (on : keys) : list linear :=
  flat_map (fun e => map ColumnFromLeft (occurrences (fst e))) on
  ++ flat_map (fun e => map ColumnFromRight (occurrences (snd e))) on.
Definition reads (o : operator) : list linear :=
  match o with
  | NestedLoopJoin jf => [AllColumnsFromLeft; AllColumnsFromRight] ++ filter_reads jf
  | CrossJoin => [AllColumnsFromLeft; AllColumnsFromRight]
  | HashJoin on jf | SymmetricHashJoin on jf => [AllColumnsFromLeft; AllColumnsFromRight] ++ on_reads on ++ filter_reads jf
  | SortMergeJoin on jf => on_reads on ++ filter_reads jf
  | Aggregate group filters _ =>
      AllColumns :: keys_reads group ++ flat_map (fun e => match e with Some e => expr_reads e | None => [] end) filters
  | Sort l fetch => AllColumns :: keys_reads l ++ (if fetch then [AllOutputColumns] else [])
  | WindowAgg l | BoundedWindowAgg l | SortPreservingMerge l | Repartition l => AllColumns :: keys_reads l
  | Filter e => AllOutputColumns :: expr_reads e
  | Projection l => flat_map expr_reads l
  | DataSource | Boundary | Other => [AllOutputColumns]
  | Limit | CoalescePartitions | Bcast _ | Union | Interleave | Empty => []
  end.

(** What an operator would cost on inputs without a single byte: the constants of its work. *)
Definition fixed_work (o : operator) : N := work (fun _ => 0%N) o.

(** ** Plans *)

Inductive subplan (q : plan) : plan -> Prop :=
| sub_refl : subplan q q
| sub_child o fields lib cs c : In c cs -> subplan q c -> subplan q (Plan o fields lib cs).

(** An estimate at least as large: known where the other is. *)
Definition estimate_le (a b : precision) : Prop :=
  forall x, get_value a = Some x -> exists y, get_value b = Some y /\ (x <= y)%N.
Definition costs_le (a b : costs) : Prop :=
  estimate_le (c_cpu a) (c_cpu b) /\ estimate_le (c_memory a) (c_memory b) /\ estimate_le (c_network a) (c_network b).

(** Sizes at least as large, and known for the same things. *)
Definition size_le (a b : precision) : Prop :=
  match get_value a, get_value b with
  | Some x, Some y => (x <= y)%N
  | None, None => True
  | _, _ => False
  end.
Definition sizes_le (a b : stats) : Prop :=
  size_le (total_byte_size a) (total_byte_size b)
  /\ Forall2 (fun c d => size_le (byte_size c) (byte_size d)) (columns a) (columns b).

(** The same operators, with sizes at least as large at each of them. *)
Inductive larger (f32_log2 : f32 -> f32) : plan -> plan -> Prop :=
| larger_node o fields lib cs fields' lib' cs' :
    Forall2 (larger f32_log2) cs cs' ->
    (forall k s k' s', f f32_log2 true (Plan o fields lib cs) = Ok (k, s) ->
       f f32_log2 true (Plan o fields' lib' cs') = Ok (k', s') -> sizes_le s s') ->
    larger f32_log2 (Plan o fields lib cs) (Plan o fields' lib' cs').

(** Statistics hold [usize] values. *)
Definition usize_stats (s : stats) : Prop :=
  (forall x, get_value (total_byte_size s) = Some x -> (x <= usize_max)%N)
  /\ Forall (fun c => forall x, get_value (byte_size c) = Some x -> (x <= usize_max)%N) (columns s).

(** ** Sizes in the statistics *)

Definition says (p : precision) (n : N) : Prop := p = Exact n \/ p = Inexact n.
Definition column_says (s : stats) (i : nat) (n : N) : Prop :=
  exists c, nth_error (columns s) i = Some c /\ says (byte_size c) n.

(** [n] bytes for [l], going by the statistics of the operator's output and inputs; the left input is the first one, the right
    input the last one. *)
Inductive size_in (out : stats) : list stats -> linear -> N -> Prop :=
| in_output ins n : says (total_byte_size out) n -> size_in out ins AllOutputColumns n
| in_input s ins n : says (total_byte_size s) n -> size_in out (s :: ins) AllColumns n
| in_input_column s ins i n : column_says s i n -> size_in out (s :: ins) (Column i) n
| in_left s ins n : says (total_byte_size s) n -> size_in out (s :: ins) AllColumnsFromLeft n
| in_left_column s ins i n : column_says s i n -> size_in out (s :: ins) (ColumnFromLeft i) n
| in_right s ins n : says (total_byte_size s) n -> size_in out (ins ++ [s]) AllColumnsFromRight n
| in_right_column s ins i n : column_says s i n -> size_in out (ins ++ [s]) (ColumnFromRight i) n.

(** ** Memory and network *)

(** Bytes kept by an operator: the build side of a join, what is sorted (twice: as input and as output), the groups, a window's
    input, what is broadcast. *)
Definition memory_work (sz : sizes) (o : operator) : N :=
  match o with
  | NestedLoopJoin _ | CrossJoin | HashJoin _ _ => sz AllColumnsFromLeft
  | SymmetricHashJoin _ _ => sz AllColumnsFromLeft + sz AllColumnsFromRight
  | Sort _ true | Bcast _ | Aggregate _ _ false => sz AllOutputColumns
  | Sort _ false => 2 * sz AllColumns
  | WindowAgg _ => sz AllColumns
  | Aggregate _ _ true | BoundedWindowAgg _ => 1
  | _ => 0
  end.
Definition memory_reads (o : operator) : list linear :=
  match o with
  | NestedLoopJoin _ | CrossJoin | HashJoin _ _ => [AllColumnsFromLeft]
  | SymmetricHashJoin _ _ => [AllColumnsFromLeft; AllColumnsFromRight]
  | Sort _ true | Bcast _ | Aggregate _ _ false => [AllOutputColumns]
  | Sort _ false | WindowAgg _ => [AllColumns]
  | _ => []
  end.
(** Bytes sent: what a boundary hands on, once for every consumer of a broadcast. *)
Definition network_work (sz : sizes) (o : operator) (child : option operator) : N :=
  match o, child with
  | Boundary, Some (Bcast n) => N.of_nat n * sz AllOutputColumns
  | Boundary, _ => sz AllOutputColumns
  | _, _ => 0
  end.
Definition network_reads (o : operator) : list linear := match o with Boundary => [AllOutputColumns] | _ => [] end.

(** ** Sizes of types *)

(** Bytes assumed for one value: one for its validity, then its width; 50 for the contents of strings and 16 for a view; for
    lists, one element; structs have the sum of their fields, unions their largest one and a tag. Dictionary values count as
    their keys, runs as their values. *)
Fixpoint value_bytes (t : dtype) : N :=
  match t with
  | Null => 0
  | Fixed n => 1 + n
  | FixedSizeBinary z => 1 + Z.to_N z
  | FixedSizeList e z => 1 + Z.to_N z * value_bytes e
  | Struct fs => Nsum (map value_bytes fs)
  | UnionType fs => 1 + fold_right N.max 0 (map value_bytes fs)
  | Dictionary t | RunEndEncoded t => value_bytes t
  | Varlen n => 1 + n + 50
  | Views => 1 + 16
  | Lists n e => 1 + n + value_bytes e
  end.

(** No negative sizes, and nothing larger than a [usize]. *)
Inductive fits : dtype -> Prop :=
| fits_null : fits Null
| fits_fixed n : fits (Fixed n)
| fits_binary z : (0 <= z < 2 ^ 31)%Z -> fits (FixedSizeBinary z)
| fits_list e z : (0 <= z < 2 ^ 31)%Z -> fits e -> value_bytes (FixedSizeList e z) <= usize_max -> fits (FixedSizeList e z)
| fits_struct fs : Forall fits fs -> value_bytes (Struct fs) <= usize_max -> fits (Struct fs)
| fits_union fs : Forall fits fs -> value_bytes (UnionType fs) <= usize_max -> fits (UnionType fs)
| fits_dictionary k : fits k -> fits (Dictionary k)
| fits_runs v : fits v -> fits (RunEndEncoded v)
| fits_varlen n : fits (Varlen n)
| fits_views : fits Views
| fits_lists n e : fits e -> value_bytes (Lists n e) <= usize_max -> fits (Lists n e).
