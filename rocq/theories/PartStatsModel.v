(** Model of the statistics a network boundary announces for its input stage (stage.rs, [Stage::partition_statistics];
    the three boundaries forward to it: network_shuffle.rs:257-267, network_coalesce.rs:348-358,
    network_broadcast.rs:281-291).

    Statistics are those of GatherModel: minima, maxima and sums are left out, they are always absent (lines 191-193). *)
From Verif Require Import Base CiuModel SamplerModel GatherModel.
From Coq Require Import NArith.

(** stage.rs:74-77, with what matters here: a local stage computes its statistics with DataFusion ([local], a parameter
    that gets the partition asked for); a remote one has the statistics gathered at run time, if any. *)
Inductive stage_stats :=
| LocalStats (local : option nat -> Res stats)
| RemoteStats (runtime : option stats).

(** datafusion [Statistics::new_unknown]. *)
Definition new_unknown (n_cols : nat) : stats := mkStats Absent Absent (repeat (mkColStats Absent Absent Absent) n_cols).

(** Lines 201-207. *)
Definition multiply_precision (p : precision) (f : f32) : precision :=
  match p with
  | Exact v => Exact (f32_as_usize (f32_mul (f32_of_N v) f))
  | Inexact v => Inexact (f32_as_usize (f32_mul (f32_of_N v) f))
  | Absent => Absent
  end.

(** Lines 182-199. *)
Definition multiply_stats (s : stats) (f : f32) : stats :=
  mkStats (multiply_precision (num_rows s) f) (multiply_precision (total_byte_size s) f)
    (map (fun col => mkColStats (multiply_precision (null_count col) f) (multiply_precision (distinct_count col) f)
                        (multiply_precision (byte_size col) f)) (columns s)).

(** Lines 155-180. [n_cols] columns are in the boundary's schema. *)
Definition partition_statistics (stage : stage_stats) (partition : option nat) (partition_count : N) (n_cols : nat) : Res stats :=
  match stage with
  | LocalStats local => local partition
  | RemoteStats None => Ok (new_unknown n_cols)
  | RemoteStats (Some s) =>
      match partition with
      | None => Ok s
      | Some _ => Ok (multiply_stats s (f32_div f32_one (f32_of_N partition_count)))
      end
  end.
