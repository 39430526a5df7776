(** Model of the progress that sampling reports: the walk over the streamed side of a plan (common/recursion.rs:136-160
    [apply_driver_path]), the rows read from its leaves (execution_plans/sampler.rs:335-359
    [set_rows_pulled_from_leaf]) and the rows they announce (coordinator/prepare_dynamic_plan.rs:336-352
    [estimated_driver_path_leaf_rows]). *)
From Verif Require Import Base SamplerModel GatherModel.
From Coq Require Import NArith.

(** A plan as the walk sees it: the joins that stream their right side (HashJoinExec, NestedLoopJoinExec,
    CrossJoinExec), and any other operator with its children; one without children is a leaf. A boundary whose stage
    runs elsewhere is a leaf (network_shuffle.rs:189-194 and the like). [id] is the identity of the operator. *)
Inductive dplan :=
| DJoin (id : nat) (left right : dplan)
| DOther (id : nat) (cs : list dplan).

Section Walk.
Context {S : Type}.
(** The visitor: the new state, and whether it went well. Both visitors only ever continue; an error ends the walk
    and what was written to captured variables before stays ([let _ =] drops the error). *)
Variable f : S -> dplan -> S * bool.

(** recursion.rs:140-157; [apply_until_stop] over the children is [visit_all]. *)
Fixpoint apply_driver_path (p : dplan) (s : S) : S * bool :=
  let '(s, fine) := f s p in
  if fine then
    match p with
    | DJoin _ _ r => apply_driver_path r s
    | DOther _ cs =>
        (fix visit_all cs s :=
           match cs with
           | [] => (s, true)
           | c :: cs => let '(s, fine) := apply_driver_path c s in if fine then visit_all cs s else (s, false)
           end) cs s
    end
  else (s, false).
End Walk.

(** [plan.children().is_empty()]. *)
Definition is_leaf (p : dplan) : option nat := match p with DOther id [] => Some id | _ => None end.

(** sampler.rs:335-359. [output_rows id] is the counter of the operator at this moment ([None] if it has no such
    metric), [partitions] is the partition count of the sampled plan. An overflow of the sum leaves the walk as a
    panic; the sum is kept in the state. *)
Definition rows_pulled (checks : bool) (output_rows : nat -> option N) (partitions : N) (p : dplan) : Res N :=
  fst (apply_driver_path
    (fun s n =>
       match s, is_leaf n with
       | Ok acc, Some id =>
           match output_rows id with
           | Some rows => (let* share := usize_div rows partitions in usize_add checks acc share, true)
           | None => (s, true)
           end
       | _, _ => (s, true)
       end) p (Ok 0%N)).

(** prepare_dynamic_plan.rs:336-352: what each leaf that is reached announces, in order; [statistics id] is [None] if
    computing the statistics fails, [Some None] if they have no row count. The sum is [leaf_rows]. *)
Definition announcements (statistics : nat -> option (option N)) (p : dplan) : list (option N) :=
  fst (apply_driver_path
    (fun s n =>
       match is_leaf n with
       | Some id => match statistics id with Some rows => (s ++ [rows], true) | None => (s, false) end
       | None => (s, true)
       end) p []).
