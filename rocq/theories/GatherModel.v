(** Model of the run-time statistics of a stage (coordinator/prepare_dynamic_plan.rs, [gather_runtime_statistics]):
    load reports are collected until there are enough, and extrapolated to the whole stage.

    [usize] values are [N]; arithmetic that may overflow panics where overflow checks are on ([checks]) and wraps
    otherwise. [f32] is SpecFloat's binary32. Metrics are left out. *)
From Verif Require Import Base CiuModel SamplerModel.
From Coq Require Import NArith ZArith SpecFloat.

(** ** usize and f32 *)

Definition usize_add (checks : bool) (a b : N) : Res N :=
  if (a + b <=? usize_max)%N then Ok (a + b)%N
  else if checks then Panic "attempt to add with overflow" else Ok ((a + b) mod 2 ^ 64)%N.
Definition usize_mul (checks : bool) (a b : N) : Res N :=
  if (a * b <=? usize_max)%N then Ok (a * b)%N
  else if checks then Panic "attempt to multiply with overflow" else Ok ((a * b) mod 2 ^ 64)%N.
Definition usize_div (a b : N) : Res N :=
  if (b =? 0)%N then Panic "attempt to divide by zero" else Ok (a / b)%N.

Definition f32_one : f32 := S754_finite false 8388608 (-23).
(** [0.2], lines 202 and 206. *)
Definition f32_fifth : f32 := S754_finite false 13421773 (-26).

(** [x as usize]: truncation, saturating; not-a-number is 0. The floor is the truncation since negative values give 0. *)
Definition f32_as_usize (x : f32) : N := floor_as_usize x.

(** [x.round() as usize] for [x >= 0]: halves are rounded up. *)
Definition f32_round_as_usize (x : f32) : N :=
  match x with
  | S754_finite false m e =>
      N.min (Z.to_N (if (0 <=? e)%Z then Z.pos m * 2 ^ e else (2 * Z.pos m + 2 ^ (- e)) / (2 * 2 ^ (- e)))%Z) usize_max
  | S754_infinity false => usize_max
  | _ => 0%N
  end.

(** [f32::min]: ignores an operand that is not a number. *)
Definition f32_min (x y : f32) : f32 :=
  match SFcompare x y with
  | Some Gt => y
  | Some _ => x
  | None => match x with S754_nan => y | _ => x end
  end.

(** ** common/vec.rs *)

(** [element_wise_sum], lines 16-28, on [usize] values... *)
Fixpoint sum_into (checks : bool) (one other : list N) : Res (list N) :=
  match one, other with
  | a :: one, b :: other => let* x := usize_add checks a b in let* l := sum_into checks one other in Ok (x :: l)
  | _, _ => Ok []
  end.
Definition element_wise_sum (checks : bool) (one other : list N) : Res (list N) :=
  if List.length one =? List.length other then sum_into checks one other
  else Err "Cannot do an element wise sum of two vectors of different lengths".
(** ... and on [f32] values of equal length. *)
Definition f32_sums (one other : list f32) : list f32 := map (fun '(a, b) => f32_add a b) (combine one other).

(** [vec_mul], lines 31-40, by a [usize], and [vec_div], lines 43-52. *)
Definition vec_mul (checks : bool) (one : list N) (k : N) : Res (list N) := mapM (fun x => usize_mul checks x k) one.
Definition vec_div (one : list N) (k : N) : Res (list N) := mapM (fun x => usize_div x k) one.

(** [vec_avg_reduce], lines 56-81. The lengths agree where [element_wise_sum] is called. *)
Fixpoint avg_from (acc : list f32) (vecs : list (list f32)) : Res (list f32) :=
  match vecs with
  | [] => Ok acc
  | v :: vecs =>
      match v with
      | [] => avg_from acc vecs
      | _ => if List.length acc =? List.length v then avg_from (f32_sums acc v) vecs
             else Err "vec_avg_reduce: length mismatch"
      end
  end.
Fixpoint first_nonempty (vecs : list (list f32)) : option (list f32 * list (list f32)) :=
  match vecs with
  | [] => None
  | [] :: vecs => first_nonempty vecs
  | v :: vecs => Some (v, vecs)
  end.
Definition vec_avg_reduce (vecs : list (list f32)) : Res (list f32) :=
  match first_nonempty vecs with
  | None => Ok []
  | Some (v, rest) =>
      let* acc := avg_from v rest in
      Ok (map (fun x => f32_div x (f32_of_nat (List.length vecs))) acc)
  end.

(** ** Reports *)

(** A [LoadInfo] as the coordinator receives it (protocol/worker_channel.rs:142-161); its partition is not used. *)
Record sample := mkSample {
  s_rows : N; s_bytes : list N; s_ndv : list f32; s_nulls : list f32; s_pulled : N; s_eos : bool
}.

(** What the loop of lines 233-257 has added up. *)
Record gathered := mkGathered {
  g_rows : N; g_pulled : N; g_bytes : list N; g_ndv : list (list f32); g_nulls : list (list f32);
  g_with_bytes : N; g_eos : N; g_done : N
}.

Definition nothing_gathered (n_cols : nat) : gathered := mkGathered 0 0 (repeat 0%N n_cols) [] [] 0 0 0.

(** [apply_pct(total_partitions, BYTES_READY_SAMPLE_PERCENTAGE).max(1)], lines 214-216, 247-248. *)
Definition enough (total : N) : N := N.max (f32_round_as_usize (f32_mul (f32_of_N total) f32_fifth)) 1.

(** One iteration, lines 234-244. *)
Definition add_sample (checks : bool) (g : gathered) (s : sample) : Res gathered :=
  let* rows := usize_add checks (g_rows g) (s_rows s) in
  let* pulled := usize_add checks (g_pulled g) (s_pulled s) in
  let* bytes := element_wise_sum checks (g_bytes g) (s_bytes s) in
  Ok (mkGathered rows pulled bytes (g_ndv g ++ [s_ndv s]) (g_nulls g ++ [s_nulls s])
        (g_with_bytes g + if existsb (fun v => 0 <? v)%N (s_bytes s) then 1 else 0)%N
        (g_eos g + if s_eos s then 1 else 0)%N (g_done g + 1)%N).

(** Lines 233-257. [arrivals] are the reports in the order [select_all] yields them, until all streams end. *)
Fixpoint collect (checks : bool) (total : N) (g : gathered) (arrivals : list sample) : Res gathered :=
  match arrivals with
  | [] => Ok g
  | s :: arrivals =>
      let* g := add_sample checks g s in
      if (enough total <=? g_with_bytes g)%N then Ok g
      else if (g_done g =? total)%N then Ok g
      else collect checks total g arrivals
  end.

(** ** Statistics *)

(** datafusion [Precision], [ColumnStatistics] and [Statistics], without minima, maxima and sums (always absent). *)
Inductive precision := Exact (n : N) | Inexact (n : N) | Absent.
Record column_stats := mkColStats { null_count : precision; distinct_count : precision; byte_size : precision }.
Record stats := mkStats { num_rows : precision; total_byte_size : precision; columns : list column_stats }.

(** Lines 367-382. *)
Definition zero_stats (n_cols : nat) : stats :=
  mkStats (Exact 0) (Exact 0) (repeat (mkColStats (Exact 0) (Exact 0) (Exact 0)) n_cols).

(** Lines 336-352: the rows announced by the leaves on the driver path, in order; [None] is a leaf without an
    estimate. A leaf whose statistics fail ends the traversal (its error is dropped); [leaves] are those before it. *)
Fixpoint leaf_rows (checks : bool) (total : option N) (leaves : list (option N)) : Res (option N) :=
  match leaves with
  | [] => Ok total
  | None :: leaves => leaf_rows checks total leaves
  | Some n :: leaves =>
      match total with
      | None => leaf_rows checks (Some n) leaves
      | Some t => let* t := usize_add checks t n in leaf_rows checks (Some t) leaves
      end
  end.

(** Lines 270-287. *)
Definition estimated_pct_sampled (g : gathered) (pulled : N) (estimate : option N) : f32 :=
  if (g_eos g =? g_done g)%N then f32_one
  else match estimate with
       | Some n => f32_min (f32_div (f32_of_N pulled) (f32_of_N n)) f32_one
       | None => f32_fifth
       end.

Fixpoint usize_sum (checks : bool) (acc : N) (l : list N) : Res N :=
  match l with [] => Ok acc | x :: l => let* acc := usize_add checks acc x in usize_sum checks acc l end.

(** Lines 259-333. [plan_cols] and [n_cols] are the columns of the plan and of its sampler. *)
Definition extrapolate (checks : bool) (plan_cols n_cols : nat) (total : N) (leaves : list (option N)) (g : gathered) : Res stats :=
  if (g_done g =? 0)%N then Ok (zero_stats plan_cols)
  else
    let* b := vec_mul checks (g_bytes g) total in
    let* bytes := vec_div b (g_done g) in
    let* r := usize_mul checks (g_rows g) total in
    let* rows := usize_div r (g_done g) in
    let* p := usize_mul checks (g_pulled g) total in
    let* pulled := usize_div p (g_done g) in
    let* estimate := if (g_eos g =? g_done g)%N then Ok None else leaf_rows checks None leaves in
    let pct := estimated_pct_sampled g pulled estimate in
    let total_num_rows := f32_as_usize (f32_div (f32_of_N rows) pct) in
    if (total_num_rows =? 0)%N then Ok (zero_stats n_cols)
    else
      let* per_col := vec_mul checks bytes (f32_as_usize (f32_div f32_one pct)) in
      let* total_bytes := usize_sum checks 0 per_col in
      let* ndv := vec_avg_reduce (g_ndv g) in
      if negb (List.length ndv =? n_cols) then Err "Expected ndv values" else
      let* nulls := vec_avg_reduce (g_nulls g) in
      if negb (List.length nulls =? n_cols) then Err "Expected null values" else
      let part pct := Inexact (f32_as_usize (f32_mul pct (f32_of_N total_num_rows))) in
      Ok (mkStats (Inexact total_num_rows) (Inexact total_bytes)
            (map (fun '(d, n, b) => mkColStats (part n) (part d) (Inexact b)) (combine (combine ndv nulls) per_col))).

(** Lines 195-334. [per_task] partitions are sampled in each of [tasks] tasks. A plan without sampler is an error
    before anything else; [plan_cols], [n_cols], [per_task] and [leaves] describe the plan and its sampler. *)
Definition gather (checks : bool) (plan_cols n_cols : nat) (per_task tasks : N) (leaves : list (option N))
    (arrivals : list sample) : Res stats :=
  let* total := usize_mul checks per_task tasks in
  let* g := collect checks total (nothing_gathered n_cols) arrivals in
  extrapolate checks plan_cols n_cols total leaves g.

(** What the coordinator decodes from a worker's report. *)
Definition decoded (li : load_info) : sample :=
  mkSample (N.of_nat (li_rows_ready li)) (map N.of_nat (li_bytes_ready li)) (li_ndv li) (li_nulls li)
    (N.of_nat (li_pulled li)) (li_eos li).
