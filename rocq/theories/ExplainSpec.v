(** What EXPLAIN is expected to show, stated on the plan alone. *)
From Verif Require Import Base NetModel ShowModel PlannerModel ExplainModel.
From Coq Require Import String Ascii NArith.
Local Open Scope string_scope.

(** The lines of the text. [depth] is how far the stage is from the top of the plan. *)
Inductive text_line :=
| Head (depth : nat) (text : string)            (* ┌───── ... *)
| Body (depth indent : nat) (text : string)     (* │   ... *)
| Foot (depth : nat).                           (* └───── *)
Definition string_of_line (l : text_line) : string :=
  match l with
  | Head d text => times d "  " ++ "┌─────" ++ text
  | Body d k text => times d "  " ++ "│" ++ times k " " ++ " " ++ text
  | Foot d => times d "  " ++ "└" ++ times 50 "─"
  end.
Definition string_of_lines (ls : list text_line) : string :=
  fold_right (fun l s => string_of_line l ++ newline ++ s) "" ls.

(** The line of a boundary: the stage that it reads, its name, its partitions and the tasks of that stage. *)
Definition boundary_name (b : bkind) : string :=
  match b with BShuffle => "NetworkShuffleExec" | BCoalesce => "NetworkCoalesceExec" | BBroadcast => "NetworkBroadcastExec" end.
Definition boundary_line (b : bkind) (output num tasks input : nat) : string :=
  "[Stage " ++ num_text num ++ "] => " ++ boundary_name b ++ ": " ++
  match b with
  | BShuffle | BCoalesce => "output_partitions=" ++ num_text output
  | BBroadcast => "partitions_per_consumer=" ++ num_text output ++ ", stage_partitions=" ++ num_text input
  end ++ ", input_tasks=" ++ num_text tasks.
(** The header of a stage: its number, its tasks, its partitions, its metrics. *)
Definition stage_header (num tasks partitions : nat) (metrics : string) : string :=
  " Stage " ++ num_text num ++ " ── tasks=" ++ num_text tasks ++ ", partitions=" ++ num_text partitions ++ metrics.
Definition header (h : head) (p : view) : string :=
  match h with
  | HDistributed ms => " DistributedExec" ++ ms
  | HStage s => stage_header (st_num s) (st_tasks s) (stage_partitions (st_tasks s) p) (st_metrics s)
  end.

(** One line per operator of a stage, children below their parent and two columns to the right. A boundary is the
    last operator of the stage: what is below it belongs to another stage. A leaf has a line for each of its tasks. *)
Fixpoint numbered (i : nat) (l : list (string * string)) : list string :=
  match l with [] => [] | (text, ms) :: l => ("t" ++ num_text i ++ ": " ++ text ++ ms) :: numbered (S i) l end.
Fixpoint operators (depth indent : nat) (v : view) : list text_line :=
  match v with
  | VNode i cs => Body depth indent (line i ++ metrics i) :: List.concat (map (operators depth (indent + 2)) cs)
  | VLeaf i vs => Body depth indent ("DistributedLeafExec:" ++ metrics i) :: map (Body depth (indent + 2)) (numbered 0 vs)
  | VNet b i num tasks _ p =>
      [Body depth indent (boundary_line b (partitions i) num tasks (partitions (info_of p)) ++ metrics i)]
  end.

(** All the stages below a plan, each with its distance from the top; a stage comes before those that feed it. *)
Fixpoint stages (depth : nat) (v : view) : list (nat * head * view) :=
  match v with
  | VNode _ cs => List.concat (map (stages depth) cs)
  | VLeaf _ _ => []
  | VNet _ _ num tasks ms p => (depth, HStage (mkStage num tasks ms p), p) :: stages (S depth) p
  end.

(** The lines of a stage. *)
Definition stage_lines (s : nat * head * view) : list text_line :=
  let '(depth, h, p) := s in
  Head depth (header h p) :: operators depth 0 p ++ [Foot depth].

(** No plan of a stage, and not the whole plan either, is nothing but a boundary. *)
Fixpoint no_bare_inputs (v : view) : Prop :=
  match v with
  | VNode _ cs => fold_right (fun c P => no_bare_inputs c /\ P) True cs
  | VLeaf _ _ => True
  | VNet _ _ _ _ _ p => is_boundary p = false /\ no_bare_inputs p
  end.
Definition no_bare_stage (v : view) : Prop := is_boundary v = false /\ no_bare_inputs v.

(** The texts of operators and of metrics are on one line. *)
Definition on_one_line (s : string) : Prop := ~ In (ascii_of_nat 10) (list_ascii_of_string s).
Fixpoint single_lines (v : view) : Prop :=
  match v with
  | VNode i cs => on_one_line (line i) /\ on_one_line (metrics i) /\ fold_right (fun c P => single_lines c /\ P) True cs
  | VLeaf i vs => on_one_line (metrics i) /\ Forall (fun '(text, ms) => on_one_line text /\ on_one_line ms) vs
  | VNet _ i _ _ ms p => on_one_line (metrics i) /\ on_one_line ms /\ single_lines p
  end.

(** The texts of operators do not begin with a space or with a bracket, as those of boundaries do. *)
Definition plain_start (s : string) : Prop :=
  match s with String c _ => c <> " "%char /\ c <> "["%char | EmptyString => True end.
Fixpoint plain_texts (v : view) : Prop :=
  match v with
  | VNode i cs => line i <> "" /\ plain_start (line i) /\ fold_right (fun c P => plain_texts c /\ P) True cs
  | VLeaf _ _ => True
  | VNet _ _ _ _ _ p => plain_texts p
  end.

(** The plan that a reader has in mind: operators with their texts, stages with their headers. *)
Inductive outline :=
| Operator (text : string) (below : list outline)
| Boundary (text header : string) (stage : outline).
Fixpoint outline_of (v : view) : outline :=
  match v with
  | VNode i cs => Operator (line i ++ metrics i) (map outline_of cs)
  | VLeaf i vs => Operator ("DistributedLeafExec:" ++ metrics i) (map (fun s => Operator s []) (numbered 0 vs))
  | VNet b i num tasks ms p =>
      Boundary (boundary_line b (partitions i) num tasks (partitions (info_of p)) ++ metrics i)
               (header (HStage (mkStage num tasks ms p)) p) (outline_of p)
  end.

(** The same with the facts instead of the texts that tell them. *)
Inductive sketch :=
| SOperator (text : string) (below : list sketch)
| SBoundary (b : bkind) (output num tasks : nat) (metrics : string) (shown_partitions : nat) (stage_metrics : string) (stage : sketch).
Fixpoint sketch_of (v : view) : sketch :=
  match v with
  | VNode i cs => SOperator (line i ++ metrics i) (map sketch_of cs)
  | VLeaf i vs => SOperator ("DistributedLeafExec:" ++ metrics i) (map (fun s => SOperator s []) (numbered 0 vs))
  | VNet b i num tasks ms p =>
      SBoundary b (partitions i) num tasks (metrics i) (stage_partitions tasks p) ms (sketch_of p)
  end.
(** The texts of metrics do not begin with a digit: they are empty or begin with a comma. *)
Definition no_digit_first (s : string) : Prop :=
  match s with String c _ => forall d, d < 10 -> c <> ascii_of_nat (48 + d) | EmptyString => True end.
Fixpoint separate_metrics (v : view) : Prop :=
  match v with
  | VNode _ cs => fold_right (fun c P => separate_metrics c /\ P) True cs
  | VLeaf _ _ => True
  | VNet _ i _ _ ms p => no_digit_first (metrics i) /\ no_digit_first ms /\ separate_metrics p
  end.

(** The partitions that the tasks of a stage make available to the stage that reads them: those of one task if all
    tasks write to the same partitions, as below a shuffle; those of all tasks otherwise. *)
Definition partitions_made (b : bkind) (tasks parts : nat) : nat :=
  match b with BShuffle => parts | _ => tasks * parts end.

(** ** Plans that can be written without a bare stage *)

Section Trees.
Context {row : Type}.
(** A repartition that is not by hash. *)
Definition round_robin (t : tree row) : bool :=
  match t with Node (KRepart _) _ => negb (is_hash_repart t) | _ => false end.
(** No such repartition directly below a CoalescePartitionsExec or SortPreservingMergeExec. *)
Fixpoint plain_merges (t : tree row) : Prop :=
  match t with
  | Node _ cs =>
      (is_coalesce t = true -> Forall (fun c => round_robin c = false) cs) /\ Forall (fun P => P) (map plain_merges cs)
  | Ciu _ _ cs => Forall (fun P => P) (map plain_merges cs)
  | Net _ _ _ _ _ i => plain_merges i
  end.
(** The plan does not begin with a repartition or a BroadcastExec, except with a hash repartition into several partitions. *)
Definition plain_root (t : tree row) : Prop :=
  match t with
  | Node (KRepart (HashP _ n)) _ => 1 < n
  | Node (KRepart _) _ | Node (KBcast _) _ => False
  | _ => True
  end%nat.
End Trees.
