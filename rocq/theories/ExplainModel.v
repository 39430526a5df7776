(** Model of the text shown by EXPLAIN and EXPLAIN ANALYZE: the stages of a distributed plan, one block of
    lines per stage, and the operator that runs EXPLAIN ANALYZE.
    Source: src/stage.rs:246-440 (explain_analyze, display_plan_ascii, display_ascii, display_inner_ascii,
    display_inner_distributed_leaf), 608-622 (format_tasks_for_stage), 1037-1049 (find_input_stages),
    src/explain_analyze.rs:76-152, and the Display of the boundaries (network_shuffle.rs:169-177,
    network_coalesce.rs:215-223, network_broadcast.rs:187-201). *)
From Verif Require Import Base ShowModel PlannerModel NetModel.
From Coq Require Import String Ascii NArith.
Local Open Scope string_scope.

(** What the display code sees of an operator: its one-line text from DataFusion ([displayable(..).one_line()],
    trimmed at the end), the number of its output partitions and whether they are hash partitions, and the text
    of its metrics: [, metrics=[...]] (stage.rs:559-564) when they are shown, the empty text otherwise. *)
Record info := mkInfo { line : string; partitions : nat; hashed : bool; metrics : string }.

(** A plan as the display code walks it. A [VLeaf] is a DistributedLeafExec: it has no children
    (distributed_leaf.rs:159-161), its variants are shown with their metrics. A [VNet] is a network boundary with
    its input stage: number, tasks, the text of the stage's own metrics (stage.rs:365-368; empty when they are not
    shown), the plan. Input stages are Local: the plan that is shown is the one made by the planner, or
    the one rebuilt with Local stages after execution (coordinator/distributed.rs:124-137). The wrapper that carries
    metrics (execution_plans/metrics.rs:39-110) answers for the node it wraps. *)
Inductive view :=
| VNode (i : info) (cs : list view)
| VLeaf (i : info) (variants : list (string * string))
| VNet (b : bkind) (i : info) (num tasks : nat) (stage_metrics : string) (input : view).

Definition info_of (v : view) : info :=
  match v with VNode i _ | VLeaf i _ | VNet _ i _ _ _ _ => i end.
(** network_shuffle.rs:189-194 and the same function of the other boundaries. *)
Definition vchildren (v : view) : list view :=
  match v with VNode _ cs => cs | VLeaf _ _ => [] | VNet _ _ _ _ _ p => [p] end.
Definition is_boundary (v : view) : bool := match v with VNet _ _ _ _ _ _ => true | _ => false end.

Definition num_text (n : nat) : string := show (N.of_nat n).

(** The Display of the three boundaries. *)
Definition boundary_text (b : bkind) (parts num tasks stage_parts : nat) : string :=
  "[Stage " ++ num_text num ++ "] => " ++
  match b with
  | BShuffle => "NetworkShuffleExec: output_partitions=" ++ num_text parts ++ ", input_tasks=" ++ num_text tasks
  | BCoalesce => "NetworkCoalesceExec: output_partitions=" ++ num_text parts ++ ", input_tasks=" ++ num_text tasks
  | BBroadcast => "NetworkBroadcastExec: partitions_per_consumer=" ++ num_text parts ++
                  ", stage_partitions=" ++ num_text stage_parts ++ ", input_tasks=" ++ num_text tasks
  end.
Definition node_text (v : view) : string :=
  match v with
  | VNode i _ | VLeaf i _ => line i
  | VNet b i num tasks _ p => boundary_text b (partitions i) num tasks (partitions (info_of p))
  end.

Definition newline : string := String (ascii_of_nat 10) "".
(** [str::repeat] and the pieces written one after the other. *)
Fixpoint times (n : nat) (s : string) : string := match n with 0 => "" | S n => s ++ times n s end.
Definition spaces (n : nat) : string := times n " ".
Definition concat_all (l : list string) : string := fold_right append "" l.

(** Lines 395-438. [variant_lines] is the loop over the variants, one numbered line each. *)
Fixpoint variant_lines (indent : nat) (task : nat) (l : list (string * string)) : string :=
  match l with
  | [] => ""
  | (text, ms) :: l =>
      spaces indent ++ "   t" ++ num_text task ++ ": " ++ text ++ ms ++ newline ++ variant_lines indent (S task) l
  end.
Definition display_leaf (indent : nat) (i : info) (variants : list (string * string)) : string :=
  spaces indent ++ " DistributedLeafExec:" ++ metrics i ++ newline ++ variant_lines indent 0 variants.

(** Lines 363-393. *)
Fixpoint display_inner (indent : nat) (v : view) : string :=
  match v with
  | VLeaf i variants => display_leaf indent i variants
  | _ =>
      spaces indent ++ " " ++ node_text v ++ metrics (info_of v) ++ newline ++
      match v with
      | VNode _ cs => concat_all (map (display_inner (indent + 2)) cs)
      | _ => ""
      end
  end.

(** Lines 1037-1049: the input stages of the boundaries below a plan; the plan itself is not looked at. *)
Record shown_stage := mkStage { st_num : nat; st_tasks : nat; st_metrics : string; st_plan : view }.
Fixpoint find_input_stages (v : view) : list shown_stage :=
  match v with
  | VNode _ cs =>
      List.concat (map (fun c => match c with
                                 | VNet _ _ num tasks ms p => [mkStage num tasks ms p]
                                 | _ => find_input_stages c
                                 end) cs)
  | VLeaf _ _ => []
  | VNet _ _ _ _ _ c =>
      match c with
      | VNet _ _ num tasks ms p => [mkStage num tasks ms p]
      | _ => find_input_stages c
      end
  end.

(** Lines 608-622. *)
Definition stage_partitions (tasks : nat) (head : view) : nat :=
  if hashed (info_of head) then partitions (info_of head) else tasks * partitions (info_of head).
Definition format_tasks (tasks : nat) (head : view) : string :=
  "tasks=" ++ num_text tasks ++ ", partitions=" ++ num_text (stage_partitions tasks head).

(** Lines 264-267. *)
Definition LTCORNER := "┌".
Definition LDCORNER := "└".
Definition VERTICAL := "│".
Definition rule (n : nat) : string := times n "─".

(** [str::split('\n')], the filter and the [join] of lines 345-349. *)
Fixpoint split_lines (s : string) : list string :=
  match s with
  | "" => [""]
  | String c s =>
      let rest := split_lines s in
      if Ascii.eqb c (ascii_of_nat 10) then "" :: rest
      else match rest with [] => [String c ""] | x :: xs => String c x :: xs end
  end.
Definition nonempty (s : string) : bool := match s with "" => false | _ => true end.

(** The header of a block: that of the whole plan (lines 299-317) or that of a stage (lines 318-337), without the
    corner. [head_metrics] is [ ── ] and the metrics of DistributedExec when they are shown. *)
Inductive head := HDistributed (head_metrics : string) | HStage (s : shown_stage).
Definition head_text (h : head) (plan : view) : string :=
  match h with
  | HDistributed ms => " DistributedExec" ++ ms
  | HStage s => " Stage " ++ num_text (st_num s) ++ " " ++ rule 2 ++ " " ++ format_tasks (st_tasks s) plan ++ st_metrics s
  end.

(** Lines 283-361, with fuel for the recursion over the stages; [None] is out of fuel (C82 excludes it). Writing to
    a String does not fail. *)
Definition block (depth : nat) (h : head) (plan : view) : string :=
  let pad := times depth "  " in
  pad ++ LTCORNER ++ rule 5 ++ head_text h plan ++ newline ++
  pad ++ VERTICAL ++
    String.concat (newline ++ pad ++ VERTICAL) (filter nonempty (split_lines (display_inner 0 plan))) ++ newline ++
  pad ++ LDCORNER ++ rule 50 ++ newline.
Fixpoint display_ascii (fuel depth : nat) (h : head) (plan : view) : option string :=
  match fuel with
  | 0 => None
  | S fuel =>
      fold_left (fun acc s =>
                   match acc, display_ascii fuel (S depth) (HStage s) (st_plan s) with
                   | Some a, Some b => Some (a ++ b)
                   | _, _ => None
                   end)
        (find_input_stages plan) (Some (block depth h plan))
  end.

(** Nesting of boundaries, enough fuel. *)
Fixpoint levels (v : view) : nat :=
  match v with
  | VNode _ cs => list_max (map levels cs)
  | VLeaf _ _ => 0
  | VNet _ _ _ _ _ p => S (levels p)
  end.

(** Lines 268-281 for a DistributedExec over [plan]. *)
Definition display_plan_ascii (head_metrics : string) (plan : view) : option string :=
  display_ascii (S (levels plan)) 0 (HDistributed head_metrics) plan.

(** ** The plans of the planner, as they are shown *)

(** [text] stands for DataFusion's one-line texts and those of this crate's other operators, [variants] for those of
    the variants of a DistributedLeafExec, [hash] for whether the output of an operator is hash partitioned. Without
    metrics. *)
Section Trees.
Context {row : Type}.
Variables (text : tree row -> string) (variants : leaf_node row -> list string) (hash : tree row -> bool).

Fixpoint view_of (t : tree row) : view :=
  let i := mkInfo (text t) (tparts t) (hash t) "" in
  match t with
  | Node (KLeaf (LTasks d)) _ => VLeaf i (map (fun s => (s, "")) (variants (LTasks d)))
  | Node _ cs | Ciu _ _ cs => VNode i (map view_of cs)
  | Net b _ _ num tasks p => VNet b i num tasks "" (view_of p)
  end.
End Trees.

(** ** EXPLAIN ANALYZE: explain_analyze.rs:76-152 *)

(** The query is the stream of its batches, given by their number of rows; what [explain_analyze] answers once the
    metrics of all the workers have arrived is given for both formats. [duration] is the text of the time taken. The
    rows of the answer are pairs of a title and a text. *)
Definition analyze_execute (partition : nat) (stream : Res (list (Res nat))) (plan_text full_text : Res string)
    (duration : string) (verbose : bool) : Res (list (string * string)) :=
  if (partition =? 0)%nat then
    let* batches := stream in
    let* rows := mapM (fun b => b) batches in
    let* plan := plan_text in
    let* full := if verbose then let* t := full_text in Ok (Some t) else Ok None in
    Ok (("Plan with Metrics", plan) ::
        match full with
        | None => []
        | Some full => [("Plan with Full Metrics", full); ("Output Rows", num_text (list_sum rows)); ("Duration", duration)]
        end)
  else Err "DistributedAnalyzeExec invalid partition".
