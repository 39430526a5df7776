(** Model of how EXPLAIN ANALYZE shows a leaf that is split among tasks: stage.rs:396-440
    [display_inner_distributed_leaf], 583-609 [metrics_suffix], [metrics_by_task_id]. *)
From Verif Require Import Base ShowModel.
From Coq Require Import NArith String.
Local Open Scope string_scope.

(** stage.rs:598-604: the number in the first label named [task_id]; [usize] has 64 bits. *)
Definition task_number (m : metric) : option N :=
  match task_id m with Some id => parse_u64 id | None => None end.

(** stage.rs:595-609: [map.entry(task_id).or_default().push(..)] for every metric with a number, the others are
    dropped. The hash map is a list of pairs; it is only asked for keys and for being empty. *)
Fixpoint insert_metric (t : N) (m : metric) (map : list (N * list metric)) : list (N * list metric) :=
  match map with
  | [] => [(t, [m])]
  | (k, ms) :: rest => if (k =? t)%N then (k, (ms ++ [m])%list) :: rest else (k, ms) :: insert_metric t m rest
  end.
Definition metrics_by_task_id (ms : list metric) : list (N * list metric) :=
  fold_left (fun map m => match task_number m with Some t => insert_metric t m map | None => map end) ms [].
Fixpoint get_task (t : N) (map : list (N * list metric)) : option (list metric) :=
  match map with
  | [] => None
  | (k, ms) :: rest => if (k =? t)%N then Some ms else get_task t rest
  end.

(** What the display code is given of the leaf: the metrics of the wrapper around it ([None] when metrics are not
    shown), and the texts of its variants. What it decides to write: the metrics in the first line and those in the
    line of each variant; [None] where no [metrics=[..]] is written, [Some None] where an empty one is. *)
Definition decided := option (option (list metric)).
Definition leaf_lines (shown : option (list metric)) (variants : list string) : decided * list (string * decided) :=
  match shown with
  | None => (None, map (fun v => (v, None)) variants)
  | Some ms =>
      let by_task := metrics_by_task_id ms in
      match by_task with
      | [] => (Some (Some ms), map (fun v => (v, None)) variants)
      | _ => (None, map (fun '(i, v) => (v, Some (get_task (N.of_nat i) by_task)))
                        (combine (seq 0 (List.length variants)) variants))
      end
  end.

(** stage.rs:583-590, [format] being [format_metrics_by_task]. *)
Definition metrics_suffix (formatted : option string) : string :=
  match formatted with
  | None => ", metrics=[]"
  | Some s => if String.eqb s "" then ", metrics=[]" else ", metrics=[" ++ s ++ "]"
  end.
Definition suffix_of (format : list metric -> string) (d : decided) : string :=
  match d with None => "" | Some ms => metrics_suffix (option_map format ms) end.

(** task_metrics_rewriter.rs:31-37, 113-143 for one metric in the format [PerTask]; [Aggregated] leaves it alone. *)
Definition label_metric (t : nat) (m : metric) : metric :=
  mkMetric (mval m) (mpartition m) (mlabels m ++ [(task_label, show (N.of_nat t))])%list.

(** stage.rs:396-440 as text: the first line, then one line per variant; [format] is [format_metrics_by_task], [trim]
    is [str::trim_end]. *)
Definition leaf_text (format : list metric -> string) (trim : string -> string) (indent : nat)
    (shown : option (list metric)) (variants : list string) : list string :=
  let '(header, lines) := leaf_lines shown variants in
  let pad := String.concat "" (repeat " " indent) in
  (pad ++ " DistributedLeafExec:" ++ suffix_of format header) ::
  map (fun '(i, (variant, d)) =>
         pad ++ "   t" ++ show (N.of_nat i) ++ ": " ++ trim variant ++ suffix_of format d)
    (combine (seq 0 (List.length lines)) lines).
