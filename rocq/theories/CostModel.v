(** Model of the cost estimate of a plan (src/distributed_planner/statistics: complexity.rs, complexity_cpu.rs,
    complexity_memory.rs, complexity_network.rs, plan_statistics.rs, default_bytes_for_datatype.rs, cost.rs).

    [usize] values are [N]; arithmetic that may overflow panics where overflow checks are on ([checks]) and wraps
    otherwise. [f32] and [f64] are SpecFloat's. An operator is described by what the estimate looks at: its kind, its
    expressions and the types of its fields; what DataFusion's own estimator ([statistics_from_inputs]) answers is a
    function given with the operator. *)
From Verif Require Import Base CiuModel SamplerModel GatherModel.
From Coq Require Import NArith ZArith SpecFloat.

(** ** complexity.rs *)

(** Lines 20-36. *)
Inductive linear :=
| Column (i : nat) | AllColumns
| ColumnFromLeft (i : nat) | AllColumnsFromLeft
| ColumnFromRight (i : nat) | AllColumnsFromRight
| AllOutputColumns.

(** Lines 5-18. *)
Inductive complexity :=
| Constant (v : f32)
| Linear (l : linear)
| Log (n m : complexity)
| Plus (n m : complexity)
| Multiply (n m : complexity).

(** The derived equality (lines 5 and 20); on [f32] it is the IEEE one. *)
Definition linear_eqb (a b : linear) : bool :=
  match a, b with
  | Column i, Column j | ColumnFromLeft i, ColumnFromLeft j | ColumnFromRight i, ColumnFromRight j => Nat.eqb i j
  | AllColumns, AllColumns | AllColumnsFromLeft, AllColumnsFromLeft | AllColumnsFromRight, AllColumnsFromRight
  | AllOutputColumns, AllOutputColumns => true
  | _, _ => false
  end.
Fixpoint complexity_eqb (a b : complexity) : bool :=
  match a, b with
  | Constant v, Constant w => SFeqb v w
  | Linear l, Linear k => linear_eqb l k
  | Log n m, Log n' m' | Plus n m, Plus n' m' | Multiply n m, Multiply n' m' =>
      complexity_eqb n n' && complexity_eqb m m'
  | _, _ => false
  end.

Definition f32_two : f32 := f32_of_N 2.

(** [f32::log2], of the system's mathematical library. *)
Section Log2.
Variable f32_log2 : f32 -> f32.

(** Lines 39-44. *)
Definition log (s o : complexity) : complexity :=
  match s, o with
  | Constant n, Constant m => Constant (f32_mul n (f32_log2 m))
  | _, _ => Log s o
  end.
End Log2.

(** Lines 59-64. *)
Definition multiply (s o : complexity) : complexity :=
  match s, o with
  | Constant n, Constant m => Constant (f32_mul n m)
  | _, _ => Multiply s o
  end.

(** Lines 46-57. The call of line 51 on the constants is unfolded. *)
Fixpoint plus (s o : complexity) {struct s} : complexity :=
  match s, o with
  | Constant n, Constant m => Constant (f32_add n m)
  | Plus a (Constant n), Constant m => plus a (Constant (f32_add n m))
  | _, _ => if complexity_eqb s o then multiply (Constant f32_two) s else Plus s o
  end.

(** [Precision::get_value]. *)
Definition get_value (p : precision) : option N :=
  match p with Exact n | Inexact n => Some n | Absent => None end.

(** [saturating_add], [saturating_mul]. *)
Definition saturating_add (a b : N) : N := N.min (a + b) usize_max.
Definition saturating_mul (a b : N) : N := N.min (a * b) usize_max.

(** Column [i] and all the columns of a child. *)
Definition column_size (i : nat) (s : option stats) : option N :=
  match s with
  | None => None
  | Some s => match nth_error (columns s) i with None => None | Some c => get_value (byte_size c) end
  end.
Definition total_size (s : option stats) : option N :=
  match s with None => None | Some s => get_value (total_byte_size s) end.
(** [slice::last]. *)
Definition last_of {A} (l : list A) : option A := nth_error l (List.length l - 1).

(** Lines 75-97. *)
Definition linear_cost (output : stats) (inputs : list stats) (l : linear) : option N :=
  match l with
  | Column i | ColumnFromLeft i => column_size i (hd_error inputs)
  | AllColumns | AllColumnsFromLeft => total_size (hd_error inputs)
  | ColumnFromRight i => column_size i (last_of inputs)
  | AllColumnsFromRight => total_size (last_of inputs)
  | AllOutputColumns => get_value (total_byte_size output)
  end.

Section Checks.
Variable checks : bool.

(** Lines 68-113. [checked_ilog2] is undefined at 0 only. *)
Fixpoint cost (output : stats) (inputs : list stats) (c : complexity) : Res (option N) :=
  match c with
  | Constant v => Ok (Some (f32_as_usize v))
  | Linear l => Ok (linear_cost output inputs l)
  | Log n m =>
      let* n := cost output inputs n in
      match n with
      | None => Ok None
      | Some n =>
          let* m := cost output inputs m in
          match m with
          | None => Ok None
          | Some m => let* r := usize_mul checks n (if (m =? 0)%N then 0 else N.log2 m)%N in Ok (Some r)
          end
      end
  | Plus n m =>
      let* n := cost output inputs n in
      match n with
      | None => Ok None
      | Some n =>
          let* m := cost output inputs m in
          match m with None => Ok None | Some m => Ok (Some (saturating_add n m)) end
      end
  | Multiply n m =>
      let* n := cost output inputs n in
      match n with
      | None => Ok None
      | Some n =>
          let* m := cost output inputs m in
          match m with None => Ok None | Some m => Ok (Some (saturating_mul n m)) end
      end
  end.
End Checks.

(** ** Expressions (complexity_cpu.rs:294-436) *)

(** A column, a literal, or anything else with its arguments. *)
Inductive expr := ECol (i : nat) | ELit | EOp (args : list expr).

(** [Some(match acc { Some(r) => r.plus(c), None => c })], lines 318-321, 383-386, 419-422, 425-430 (and 104-107,
    112-115, 120-123, 216-220). *)
Definition add_to (acc : option complexity) (c : complexity) : option complexity :=
  Some (match acc with Some r => plus r c | None => c end).
Definition or_one (acc : option complexity) : complexity :=
  match acc with Some c => c | None => Constant f32_one end.

(** Lines 391-436: what is processed, and the columns read. *)
Fixpoint processed (e : expr) : option complexity * list nat :=
  match e with
  | ECol i => (None, [i])
  | ELit => (None, [])
  | EOp args =>
      fold_left (fun '(acc, read) '(p, cols) =>
          let acc := match p with Some p => add_to acc p | None => acc end in
          (fold_left (fun acc i => add_to acc (Linear (Column i))) cols acc, read ++ cols))
        (map processed args) (None, [])
  end.
Definition cols_read (e : expr) : list nat := snd (processed e).

(** Lines 299-303. *)
Definition expression_complexity (e : expr) : complexity := or_one (fst (processed e)).

(** Lines 309-324. *)
Definition join_key_complexity (e : expr) (from_left : bool) : complexity :=
  or_one (fold_left (fun acc i =>
    add_to acc (Linear (if from_left then ColumnFromLeft i else ColumnFromRight i))) (cols_read e) None).

(** Lines 379-389. *)
Definition hash_or_comparison_key_complexity (e : expr) : complexity :=
  or_one (fold_left (fun acc i => add_to acc (Linear (Column i))) (cols_read e) None).

(** datafusion [JoinFilter]: an expression over columns of which each comes from one side of the join ([None]: the mark of
    a mark join). *)
Inductive side := SLeft (i : nat) | SRight (i : nat) | SMark.
Record join_filter := mkFilter { jf_expr : expr; jf_columns : list side }.

Section Operators.
Variable f32_log2 : f32 -> f32.

(** Lines 344-370. *)
Fixpoint remap_filter_columns (c : complexity) (columns : list side) : complexity :=
  match c with
  | Constant v => Constant v
  | Linear (Column i) =>
      match nth_error columns i with
      | Some (SLeft j) => Linear (ColumnFromLeft j)
      | Some (SRight j) => Linear (ColumnFromRight j)
      | _ => Constant f32_one
      end
  | Linear l => Linear l
  | Log n m => log f32_log2 (remap_filter_columns n columns) (remap_filter_columns m columns)
  | Plus n m => plus (remap_filter_columns n columns) (remap_filter_columns m columns)
  | Multiply n m => multiply (remap_filter_columns n columns) (remap_filter_columns m columns)
  end.

(** Lines 333-338. *)
Definition join_filter_complexity (f : join_filter) : complexity :=
  remap_filter_columns (expression_complexity (jf_expr f)) (jf_columns f).

(** ** Operators *)

Definition keys := list (expr * expr).

(** What the estimate looks at in an operator. [Bcast] carries its number of consumers; [Boundary] is any network
    boundary; [Other] anything not named in complexity_cpu.rs. *)
Inductive operator :=
| NestedLoopJoin (filter : option join_filter)
| CrossJoin
| Sort (by_ : list expr) (fetch : bool)
| HashJoin (on : keys) (filter : option join_filter)
| SortMergeJoin (on : keys) (filter : option join_filter)
| SymmetricHashJoin (on : keys) (filter : option join_filter)
| Aggregate (group : list expr) (filters : list (option expr)) (no_grouping : bool)
| WindowAgg (partition_by : list expr)
| BoundedWindowAgg (partition_by : list expr)
| SortPreservingMerge (by_ : list expr)
| Filter (predicate : expr)
| Projection (exprs : list expr)
| Repartition (by_ : list expr)
| DataSource
| Limit
| CoalescePartitions
| Bcast (consumers : nat)
| Union
| Interleave
| Empty
| Boundary
| Other.

Definition with_filter (c : complexity) (f : option join_filter) : complexity :=
  match f with Some f => plus c (join_filter_complexity f) | None => c end.
Definition with_keys (c : complexity) (l : list expr) : complexity :=
  fold_left (fun c e => plus c (hash_or_comparison_key_complexity e)) l c.
Definition with_left (c : complexity) (on : keys) : complexity :=
  fold_left (fun c e => plus c (join_key_complexity (fst e) true)) on c.
Definition with_right (c : complexity) (on : keys) : complexity :=
  fold_left (fun c e => plus c (join_key_complexity (snd e) false)) on c.

(** complexity_cpu.rs:27-292. *)
Definition complexity_cpu (o : operator) : complexity :=
  match o with
  (* 30-42 *)
  | NestedLoopJoin f => with_filter (multiply (Linear AllColumnsFromLeft) (Linear AllColumnsFromRight)) f
  (* 46-51 *)
  | CrossJoin => multiply (Linear AllColumnsFromLeft) (Linear AllColumnsFromRight)
  (* 56-70 *)
  | Sort by_ fetch =>
      let input := with_keys (Linear AllColumns) by_ in
      if fetch then log f32_log2 input (Linear AllOutputColumns) else log f32_log2 input input
  (* 74-92 *)
  | HashJoin on f =>
      let c := plus (Linear AllColumnsFromLeft) (Linear AllColumnsFromLeft) in
      let c := with_left c on in
      let c := plus c (Linear AllColumnsFromRight) in
      with_filter (with_right c on) f
  (* 99-126 *)
  | SortMergeJoin on f =>
      let c := fold_left (fun c e => add_to c (join_key_complexity (fst e) true)) on None in
      let c := fold_left (fun c e => add_to c (join_key_complexity (snd e) false)) on c in
      or_one (match f with Some f => add_to c (join_filter_complexity f) | None => c end)
  (* 133-151 *)
  | SymmetricHashJoin on f =>
      let c := plus (Linear AllColumnsFromLeft) (Linear AllColumnsFromLeft) in
      let c := with_left c on in
      let c := plus (plus c (Linear AllColumnsFromRight)) (Linear AllColumnsFromRight) in
      with_filter (with_right c on) f
  (* 155-167 *)
  | Aggregate group filters _ =>
      fold_left (fun c f => match f with Some e => plus c (expression_complexity e) | None => c end) filters
        (with_keys (Linear AllColumns) group)
  (* 171-178, 180-186 *)
  | WindowAgg l | BoundedWindowAgg l => with_keys (Linear AllColumns) l
  (* 191-199 *)
  | SortPreservingMerge l => with_keys (Linear AllColumns) l
  (* 204-209 *)
  | Filter e => plus (Linear AllOutputColumns) (expression_complexity e)
  (* 213-223 *)
  | Projection l => or_one (fold_left (fun c e => add_to c (expression_complexity e)) l None)
  (* 227-247; for round-robin and unknown partitionings there are no expressions *)
  | Repartition l => with_keys (Linear AllColumns) l
  (* 250-252 *)
  | DataSource => Linear AllOutputColumns
  (* 256-288 *)
  | Limit | CoalescePartitions | Bcast _ | Union | Interleave | Empty => Constant f32_one
  (* 291 *)
  | Boundary | Other => Linear AllOutputColumns
  end.

(** complexity_memory.rs:14-97. *)
Definition complexity_memory (o : operator) : complexity :=
  match o with
  | NestedLoopJoin _ | CrossJoin | HashJoin _ _ => Linear AllColumnsFromLeft
  | Sort _ true => Linear AllOutputColumns
  | Sort _ false => plus (Linear AllColumns) (Linear AllColumns)
  | SortMergeJoin _ _ | SortPreservingMerge _ => Constant (f32_of_N 0)
  | SymmetricHashJoin _ _ => plus (Linear AllColumnsFromLeft) (Linear AllColumnsFromRight)
  | Aggregate _ _ no_grouping => if no_grouping then Constant f32_one else Linear AllOutputColumns
  | WindowAgg _ => Linear AllColumns
  | BoundedWindowAgg _ => Constant f32_one
  | Bcast _ => Linear AllOutputColumns
  | _ => Constant (f32_of_N 0)
  end.

(** complexity_network.rs:7-26. [child] is the first child. *)
Definition complexity_network (o : operator) (child : option operator) : complexity :=
  match o with
  | Boundary =>
      match child with
      | Some (Bcast n) => multiply (Linear AllOutputColumns) (Constant (f32_of_nat n))
      | _ => Linear AllOutputColumns
      end
  | _ => Constant (f32_of_N 0)
  end.

(** ** default_bytes_for_datatype.rs *)

(** Arrow's data types, as far as their sizes go: [Fixed n] are the types of [n] bytes (lines 41-64 and 70), [Varlen n] the
    types with offsets of [n] bytes (lines 114-120), [Views] the view types (line 123). [Lists n] are lists with [n] bytes
    of offsets (lines 129-143). *)
Inductive dtype :=
| Null
| Fixed (width : N)
| FixedSizeBinary (size : Z)
| FixedSizeList (elem : dtype) (size : Z)
| Struct (fields : list dtype)
| Dictionary (key : dtype)
| UnionType (fields : list dtype)
| RunEndEncoded (values : dtype)
| Varlen (offset : N)
| Views
| Lists (offset : N) (elem : dtype).

(** [size as usize] for an [i32]. *)
Definition i32_as_usize (z : Z) : N := Z.to_N (z mod 2 ^ 64).

Section Sizes.
Variable checks : bool.

(** Lines 26-146. *)
Fixpoint default_bytes (t : dtype) : Res N :=
  match t with
  | Null => Ok 0%N
  | Fixed n => Ok (1 + n)%N
  | FixedSizeBinary z => usize_add checks 1 (i32_as_usize z)
  | FixedSizeList e z =>
      let* b := default_bytes e in let* p := usize_mul checks (i32_as_usize z) b in usize_add checks 1 p
  | Struct fs =>
      let* l := (fix all (fs : list dtype) : Res (list N) :=
                   match fs with [] => Ok [] | f :: fs => let* b := default_bytes f in let* l := all fs in Ok (b :: l) end) fs in
      usize_sum checks 0 l
  | Dictionary k => default_bytes k
  | UnionType fs =>
      let* l := (fix all (fs : list dtype) : Res (list N) :=
                   match fs with [] => Ok [] | f :: fs => let* b := default_bytes f in let* l := all fs in Ok (b :: l) end) fs in
      usize_add checks 1 (fold_right N.max 0%N l)
  | RunEndEncoded v => default_bytes v
  | Varlen n => Ok (1 + n + 50)%N
  | Views => Ok (1 + 16)%N
  | Lists n e => let* b := default_bytes e in usize_add checks (1 + n) b
  end.

(** ** plan_statistics.rs *)

(** [(rows as f64 * 0.5) as usize], line 49. *)
Definition fallback_ndv (rows : N) : N :=
  floor_as_usize (f64_mul (f64_of_Z (Z.of_N rows)) (S754_finite false 4503599627370496 (-53))).

(** Lines 30-37. *)
Definition fill_rows (children : list stats) (s : stats) : Res stats :=
  match num_rows s with
  | Absent =>
      match flat_map (fun c => match get_value (num_rows c) with Some n => [n] | None => [] end) children with
      | [] => Ok s
      | l => let* n := usize_sum checks 0 l in Ok (mkStats (Inexact n) (total_byte_size s) (columns s))
      end
  | _ => Ok s
  end.

(** Lines 46-65, for one column. [fields] are the types from this column on. *)
Fixpoint fill_columns (rows : N) (fields : list dtype) (cols : list column_stats) {struct cols} : Res (list column_stats) :=
  match cols with
  | [] => Ok []
  | c :: cols =>
      let ndv := match distinct_count c with Absent => Inexact (fallback_ndv rows) | d => d end in
      match fields with
      | [] => Err "Field not present in schema"
      | f :: fields =>
          let* size := match byte_size c with
                       | Absent => let* b := default_bytes f in Ok (Inexact (saturating_mul b rows))
                       | s => Ok s
                       end in
          let* cols := fill_columns rows fields cols in
          Ok (mkColStats (null_count c) ndv size :: cols)
      end
  end.

(** Lines 70-77. *)
Definition sum_columns (cols : list column_stats) : N :=
  fold_left (fun acc c => saturating_add acc (match get_value (byte_size c) with Some n => n | None => 0%N end)) cols 0%N.

(** Lines 16-80. [lib] is DataFusion's [statistics_from_inputs] of the operator. *)
Definition plan_statistics (lib : list stats -> Res stats) (fields : list dtype) (children : list stats) : Res stats :=
  let* s := lib children in
  let* s := fill_rows children s in
  let* s := match get_value (num_rows s) with
            | None => Ok s
            | Some rows =>
                let* cols := fill_columns rows fields (columns s) in
                Ok (mkStats (num_rows s) (total_byte_size s) cols)
            end in
  match total_byte_size s with
  | Absent => Ok (mkStats (num_rows s) (Inexact (sum_columns (columns s))) (columns s))
  | _ => Ok s
  end.

(** ** cost.rs *)

(** Lines 11-16. *)
Record costs := mkCosts { c_cpu : precision; c_memory : precision; c_network : precision }.

(** Lines 26-33. *)
Definition sum_precision (one other : precision) : Res precision :=
  match get_value one, get_value other with
  | Some a, Some b => let* r := usize_add checks a b in Ok (Inexact r)
  | Some a, None => Ok (Inexact a)
  | None, Some b => Ok (Inexact b)
  | None, None => Ok Absent
  end.

(** Lines 18-24. *)
Definition add_costs (a b : costs) : Res costs :=
  let* cpu := sum_precision (c_cpu a) (c_cpu b) in
  let* memory := sum_precision (c_memory a) (c_memory b) in
  let* network := sum_precision (c_network a) (c_network b) in
  Ok (mkCosts cpu memory network).

(** Lines 59-64. *)
Definition inexact_or_absent (v : option N) : precision := match v with None => Absent | Some n => Inexact n end.

(** A plan: the operator, the types of its fields, DataFusion's estimator for it, and its inputs. *)
Inductive plan := Plan (o : operator) (fields : list dtype) (lib : list stats -> Res stats) (children : list plan).
Definition p_op (p : plan) : operator := let '(Plan o _ _ _) := p in o.

(** Lines 49-55: what the operator itself costs. *)
Definition own_cost (o : operator) (child : option operator) (s : stats) (inputs : list stats) : Res costs :=
  let* cpu := cost checks s inputs (complexity_cpu o) in
  let* memory := cost checks s inputs (complexity_memory o) in
  let* network := cost checks s inputs (complexity_network o child) in
  Ok (mkCosts (inexact_or_absent cpu) (inexact_or_absent memory) (inexact_or_absent network)).

(** Lines 39-57. *)
Fixpoint f (p : plan) : Res (costs * stats) :=
  let '(Plan o fields lib children) := p in
  let* r := (fix inputs (l : list plan) (acc : costs) (ss : list stats) : Res (costs * list stats) :=
     match l with
     | [] => Ok (acc, ss)
     | c :: l =>
         let* r := f c in
         let '(k, s) := r in
         let* acc := add_costs acc k in
         inputs l acc (ss ++ [s])
     end) children (mkCosts Absent Absent Absent) [] in
  let '(acc, ss) := r in
  let* s := plan_statistics lib fields ss in
  let* own := own_cost o (match children with c :: _ => Some (p_op c) | [] => None end) s ss in
  let* acc := add_costs acc own in
  Ok (acc, s).

(** Lines 35-37. *)
Definition calculate_cost (p : plan) : Res costs := let* r := f p in Ok (fst r).
End Sizes.
End Operators.
