(** Model of ChildrenIsolatorUnionExec: allocation of tasks to children and execution.
    Source: src/execution_plans/children_isolator_union.rs. *)
From Verif Require Import Base NetModel.
From Coq Require Import ZArith NArith SpecFloat.

(** * f64
    IEEE-754 binary64 with round-to-nearest-even, from the standard library's executable
    specification [SpecFloat] (53-bit mantissa, emax 1024). *)
Definition f64 := spec_float.
Definition f64_mul : f64 -> f64 -> f64 := SFmul 53 1024.
Definition f64_div : f64 -> f64 -> f64 := SFdiv 53 1024.
Definition f64_add : f64 -> f64 -> f64 := SFadd 53 1024.
Definition f64_sub : f64 -> f64 -> f64 := SFsub 53 1024.
Definition f64_zero : f64 := S754_zero false.
(** [n as f64]. *)
Definition f64_of_Z (z : Z) : f64 := binary_normalize 53 1024 z 0 false.
Definition f64_of_nat (n : nat) : f64 := f64_of_Z (Z.of_nat n).
Definition f64_is_finite (x : f64) : bool :=
  match x with S754_zero _ | S754_finite _ _ _ => true | _ => false end.
Definition f64_lt (x y : f64) : bool := SFltb x y.

(** Integer part towards minus infinity of a finite value. *)
Definition floor_Z (x : f64) : Z :=
  match x with
  | S754_finite s m e =>
      let v := if s then Zneg m else Zpos m in
      if (0 <=? e)%Z then (v * 2 ^ e)%Z else (v / 2 ^ (- e))%Z
  | _ => 0%Z
  end.

(** [f64::floor]. *)
Definition f64_floor (x : f64) : f64 :=
  match x with
  | S754_finite s _ _ => binary_normalize 53 1024 (floor_Z x) 0 s
  | _ => x
  end.

Definition usize_max : N := (2 ^ 64 - 1)%N.

(** [x.floor() as usize]: saturating cast, NaN gives 0. *)
Definition floor_as_usize (x : f64) : N :=
  match x with
  | S754_nan => 0%N
  | S754_infinity false => usize_max
  | S754_infinity true => 0%N
  | S754_zero _ => 0%N
  | S754_finite _ _ _ => N.min (Z.to_N (floor_Z x)) usize_max
  end.

(** children_isolator_union.rs:106-113. *)
Record ChildWeight := mkWeight { weight : f64; cw_max : option nat }.
(** children_isolator_union.rs:117-122. *)
Definition desired (w : f64) : ChildWeight := mkWeight w None.
(** children_isolator_union.rs:125-130. *)
Definition maximum (n : nat) : ChildWeight := mkWeight (f64_of_nat n) (Some n).

(** * split_children, children_isolator_union.rs:446-601 *)

(** Lines 470-488. *)
Definition valid_weight (w : ChildWeight) : bool :=
  match cw_max w with Some 0 => false | _ => true end
  && negb (f64_lt (weight w) f64_zero)
  && f64_is_finite (weight w).

(** Lines 493-494; the sum is taken left to right. *)
Definition total_weight (children : list ChildWeight) : f64 :=
  fold_left f64_add (map weight children) f64_zero.

(** Lines 500-508. *)
Definition shares (children : list ChildWeight) (budget : nat) : list f64 :=
  let total := total_weight children in
  if f64_lt f64_zero total
  then map (fun c => f64_div (f64_mul (f64_of_nat budget) (weight c)) total) children
  else repeat (f64_div (f64_of_nat budget) (f64_of_nat (List.length children)))
              (List.length children).

(** Lines 513-521. *)
Definition capped_floor (c : ChildWeight) (share : f64) : nat :=
  match cw_max c with
  | Some m => N.to_nat (N.min (floor_as_usize share) (N.of_nat m))
  | None => N.to_nat (floor_as_usize share)
  end.

Definition init_counts (children : list ChildWeight) (sh : list f64) : list nat :=
  map (fun '(c, s) => capped_floor c s) (combine children sh).

(** Lines 532-538: comparison of two child indexes, descending fractional part, then index. An index
    out of range cannot occur ([order] is a permutation of the child indexes); 0 is used then. *)
Definition frac (sh : list f64) (i : nat) : f64 :=
  let x := nth i sh f64_zero in f64_sub x (f64_floor x).

Definition order_le (sh : list f64) (a b : nat) : bool :=
  match SFcompare (frac sh b) (frac sh a) with
  | Some Lt => true
  | Some Gt => false
  | Some Eq | None => a <=? b
  end.

(** Stable sort with the comparison above, written as an insertion sort. *)
Fixpoint insert_by (le : nat -> nat -> bool) (x : nat) (l : list nat) : list nat :=
  match l with
  | [] => [x]
  | y :: ys => if le x y then x :: y :: ys else y :: insert_by le x ys
  end.
Fixpoint sort_by (le : nat -> nat -> bool) (l : list nat) : list nat :=
  match l with
  | [] => []
  | x :: xs => insert_by le x (sort_by le xs)
  end.

Fixpoint upd {A} (l : list A) (i : nat) (v : A) : list A :=
  match l, i with
  | [], _ => []
  | _ :: xs, 0 => v :: xs
  | x :: xs, S i => x :: upd xs i v
  end.

Definition at_cap (c : ChildWeight) (count : nat) : bool :=
  match cw_max c with Some m => m <=? count | None => false end.

(** Lines 541-553: one pass of the [for] loop. Returns the counts, what is left and whether progress
    was made. *)
Fixpoint pass (children : list ChildWeight) (order : list nat) (counts : list nat)
    (lft : nat) (progress : bool) : Res (list nat * nat * bool) :=
  match order with
  | [] => Ok (counts, lft, progress)
  | idx :: rest =>
      if lft =? 0 then Ok (counts, lft, progress) else
      match nth_error children idx, nth_error counts idx with
      | Some c, Some k =>
          if at_cap c k then pass children rest counts lft progress
          else pass children rest (upd counts idx (k + 1)) (lft - 1) true
      | _, _ => Panic "index out of bounds"
      end
  end.

(** Lines 539-558: the [while] loop; [fuel] bounds the number of passes (running out is an explicit
    failure, excluded by the theorems). *)
Fixpoint hand_out (fuel : nat) (children : list ChildWeight) (order : list nat)
    (counts : list nat) (lft : nat) : Res (list nat) :=
  if lft =? 0 then Ok counts else
  match fuel with
  | 0 => Panic "out of fuel"
  | S fuel =>
      let* r := pass children order counts lft false in
      let '(counts, lft, progress) := r in
      if (progress : bool) then hand_out fuel children order counts lft else Ok counts
  end.

(** Lines 527-559. *)
Definition final_counts (children : list ChildWeight) (budget : nat) (sh : list f64)
    (counts : list nat) : Res (list nat) :=
  let allocated := list_sum counts in
  let unallocated := budget - allocated in (* saturating_sub *)
  if 0 <? unallocated
  then hand_out budget children (sort_by (order_le sh) (seq 0 (List.length children)))
                counts unallocated
  else Ok counts.

(** One entry of [task_idx_map] (line 101): the children a task runs, with their contexts. *)
Notation slot := (list (nat * TaskCtx)).

(** [result[i].push(e)]. *)
Definition push_at (result : list slot) (i : nat) (e : nat * TaskCtx) : Res (list slot) :=
  match nth_error result i with
  | Some s => Ok (upd result i (s ++ [e]))
  | None => Panic "index out of bounds"
  end.

(** Lines 567-576: the inner loop, for the task indexes [tis]. *)
Fixpoint lay_child (child task_count : nat) (tis : list nat) (result : list slot) (task_idx : nat)
  : Res (list slot * nat) :=
  match tis with
  | [] => Ok (result, task_idx)
  | ti :: rest =>
      let* result := push_at result task_idx (child, mkCtx ti task_count) in
      lay_child child task_count rest result (task_idx + 1)
  end.

(** Lines 566-577: the outer loop, from child index [child]. *)
Fixpoint lay_out (child : nat) (counts : list nat) (result : list slot) (task_idx : nat)
  : Res (list slot * nat) :=
  match counts with
  | [] => Ok (result, task_idx)
  | k :: rest =>
      let* r := lay_child child k (seq 0 k) result task_idx in
      let '(result, task_idx) := r in
      lay_out (child + 1) rest result task_idx
  end.

(** Lines 583-599: children without tasks share the occupied slots. *)
Fixpoint lay_zero (child : nat) (counts : list nat) (occupied zero_i : nat) (result : list slot)
  : Res (list slot) :=
  match counts with
  | [] => Ok result
  | k :: rest =>
      if negb (k =? 0) then lay_zero (child + 1) rest occupied zero_i result
      else
        let* result := push_at result (zero_i mod occupied) (child, mkCtx 0 1) in
        lay_zero (child + 1) rest occupied (zero_i + 1) result
  end.

(** Lines 564-600. *)
Definition layout (counts : list nat) (budget : nat) : Res (list slot) :=
  let* r := lay_out 0 counts (repeat [] budget) 0 in
  let '(result, task_idx) := r in
  if 0 <? task_idx then lay_zero 0 counts task_idx 0 result else Ok result.

(** Lines 446-601. *)
Definition split_children (children : list ChildWeight) (budget : nat) : Res (list slot) :=
  if budget =? 0 then Err "task count 0" else
  if List.length children =? 0 then Err "no children" else
  if negb (forallb valid_weight children) then Err "invalid weight" else
  let sh := shares children budget in
  let* counts := final_counts children budget sh (init_counts children sh) in
  layout counts budget.

(** * The operator *)

(** Lines 197-207, the body of [child_task_counts] for [n] children and task map [m]. *)
Definition map_task_counts (n : nat) (m : list slot) : list nat :=
  fold_left (fun counts s =>
      fold_left (fun counts '(i, ctx) =>
          match nth_error counts i with
          | Some k => upd counts i (Nat.max k (task_count ctx))
          | None => counts
          end) s counts)
    m (repeat 0 n).

Section Ciu.
Context {row : Type}.

(** A child plan: advertised partitions and what a partition yields in a task context. *)
Record child := mkChild { ch_parts : nat; ch_run : TaskCtx -> nat -> Res (list row) }.

(** children_isolator_union.rs:87-102. *)
Record ciu := mkCiu {
  ciu_parts : nat;
  ciu_children : list child;
  ciu_weights : list ChildWeight;
  task_idx_map : list slot
}.

(** Lines 169-173: [children[child_idx]] panics when out of bounds. *)
Definition slot_partitions (children : list child) (s : slot) : Res nat :=
  let* ns := mapM (fun '(i, _) => match nth_error children i with
                                  | Some c => Ok (ch_parts c)
                                  | None => Panic "index out of bounds"
                                  end) s in
  Ok (list_sum ns).

(** Lines 143-195 [from_children_and_weights] (plan properties other than the partition count are
    not modelled). *)
Definition ciu_new (children : list child) (weights : list ChildWeight) (task_count : nat)
  : Res ciu :=
  if negb (List.length children =? List.length weights) then Err "children and weights differ" else
  let* m := split_children weights task_count in
  let* counts := mapM (slot_partitions children) m in
  match counts with
  | [] => Err "empty task_idx_map"
  | _ => Ok (mkCiu (list_max counts) children weights m)
  end.

(** Lines 197-207 [child_task_counts]. *)
Definition child_task_counts (u : ciu) : list nat :=
  map_task_counts (List.length (ciu_children u)) (task_idx_map u).

(** Lines 280-296 [with_new_children]. *)
Definition ciu_with_new_children (u : ciu) (children : list child) : Res ciu :=
  if negb (List.length children =? List.length (ciu_children u)) then Err "number of children" else
  ciu_new children (ciu_weights u) (List.length (task_idx_map u)).

(** Lines 327-350: which child partition serves an output partition. *)
Fixpoint pick (children : list child) (s : slot) (partition : nat)
  : Res (option (nat * TaskCtx * nat)) :=
  match s with
  | [] => Ok None
  | (i, ctx) :: rest =>
      match nth_error children i with
      | None => Err "Could not find child"
      | Some c =>
          if partition <? ch_parts c then Ok (Some (i, ctx, partition))
          else pick children rest (partition - ch_parts c)
      end
  end.

(** Lines 313-325. *)
Definition ciu_delegate (u : ciu) (ctx : TaskCtx) (partition : nat)
  : Res (option (nat * TaskCtx * nat)) :=
  match nth_error (task_idx_map u) (task_index ctx) with
  | None => Panic "index out of bounds"
  | Some s => pick (ciu_children u) s partition
  end.

(** Lines 313-351 [execute]. *)
Definition ciu_execute (u : ciu) (ctx : TaskCtx) (partition : nat) : Res (list row) :=
  let* d := ciu_delegate u ctx partition in
  match d with
  | None => Ok []
  | Some (i, cctx, p) =>
      match nth_error (ciu_children u) i with
      | Some c => ch_run c cctx p
      | None => Err "Could not find child"
      end
  end.

End Ciu.
Arguments child : clear implicits.
Arguments ciu : clear implicits.
