(** Model of how the metrics of an executed plan are shown: stage.rs 440-588 (EXPLAIN ANALYZE),
    the labels of metrics/task_metrics_rewriter.rs 119-145, and execution_plans/metrics.rs 83-113.

    Values are those of DataFusion's [MetricValue]: a variant of the enum, a name and a number. What
    DataFusion does with them is a parameter: [sort_key] is [display_sort_key], [timestamp] says which
    variants are timestamps, [op] and [unit] are what [aggregate] and [new_empty] do to the number,
    [display] is the text of a value. Composite values (a ratio, a user's own type) have a number only
    here. *)
From Verif Require Import Base.
From Coq Require Import NArith DecimalString DecimalN String Ascii Sorting.Sorted.
Open Scope string_scope.

Record mvalue := mkValue { variant : nat; vname : string; amount : N }.
Record metric := mkMetric { mval : mvalue; mpartition : option nat; mlabels : list (string * string) }.

Definition name (m : metric) : string := vname (mval m).

(** [u64::to_string] and [str::parse::<u64>]: digits, perhaps after a plus sign, below 2^64. *)
Definition show (n : N) : string := NilZero.string_of_uint (N.to_uint n).
Definition strip_plus (s : string) : string :=
  match s with String c r => if Ascii.eqb c "+"%char then r else s | EmptyString => s end.
Definition parse_u64 (s : string) : option N :=
  match NilZero.uint_of_string (strip_plus s) with
  | Some d => if (N.of_uint d <? 2 ^ 64)%N then Some (N.of_uint d) else None
  | None => None
  end.

(** metrics/mod.rs 17. *)
Definition task_label : string := "task_id".

(** stage.rs 482-486 (and 521-525, 562-566): the first label with that name. *)
Definition task_id (m : metric) : option string :=
  match find (fun l => String.eqb (fst l) task_label) (mlabels m) with
  | Some l => Some (snd l)
  | None => None
  end.

(** task_metrics_rewriter.rs 126-144 and stage.rs 448-459. *)
Definition annotate (task : N) (ms : list metric) : list metric :=
  map (fun m => mkMetric (mval m) (mpartition m) (mlabels m ++ [(task_label, show task)])%list) ms.

(** task_metrics_rewriter.rs 226-262: the metrics of one node of the plan in all tasks, [DistributedMetricsFormat::PerTask] ... *)
Fixpoint per_task_from (t : N) (tasks : list (list metric)) : list metric :=
  match tasks with
  | [] => []
  | ms :: rest => (annotate t ms ++ per_task_from (t + 1) rest)%list
  end.
Definition per_task (tasks : list (list metric)) : list metric := per_task_from 0 tasks.
(** ... and [Aggregated]. *)
Definition aggregated (tasks : list (list metric)) : list metric := List.concat tasks.

(** stage.rs 442-466. [store] is what the store of metrics has for the tasks of the stage; the loop ends
    at the first task without metrics. *)
Inductive header_from (store : N -> option (list metric)) : N -> list metric -> Prop :=
| header_end t : store t = None -> header_from store t []
| header_task t ms rest : store t = Some ms -> header_from store (t + 1)%N rest ->
    header_from store t (annotate t ms ++ rest)%list.
Definition header (stage : list metric) (store : N -> option (list metric)) (ms : list metric) : Prop :=
  exists rest, header_from store 0 rest /\ ms = (stage ++ rest)%list.

(** execution_plans/metrics.rs 83-113. *)
Definition same_metric (a b : metric) : bool :=
  (variant (mval a) =? variant (mval b))%nat && String.eqb (name a) (name b) && (amount (mval a) =? amount (mval b))%N &&
  match mpartition a, mpartition b with
  | Some p, Some q => (p =? q)%nat
  | None, None => true
  | _, _ => false
  end.
Definition wrapper_metrics (wrapped : list metric) (inner : option (list metric)) : list metric :=
  match inner with
  | None => wrapped
  | Some local => (wrapped ++ filter (fun m => negb (existsb (fun w => same_metric w m) wrapped)) local)%list
  end.

Section Show.
Variables (sort_key : nat -> nat) (timestamp : nat -> bool) (op : nat -> N -> N -> N) (unit : nat -> N)
  (display : mvalue -> string).

(** DataFusion's [MetricValue::aggregate], which panics if the variants differ. *)
Definition aggregate (a b : mvalue) : Res mvalue :=
  if (variant a =? variant b)%nat then Ok (mkValue (variant a) (vname a) (op (variant a) (amount a) (amount b)))
  else Panic "Mismatched metric types".

Definition key := (string * option string)%type.
Definition key_eqb (a b : key) : bool :=
  String.eqb (fst a) (fst b) &&
  match snd a, snd b with
  | Some x, Some y => String.eqb x y
  | None, None => true
  | _, _ => false
  end.

(** stage.rs 476-511 [aggregate_by_task_id], one metric. The map is a list of pairs; its order is not that
    of the code's hash map, see [formats]. *)
Definition labels_of (id : option string) : list (string * string) :=
  match id with Some id => [(task_label, id)] | None => [] end.
Fixpoint aggregate_into (m : metric) (map : list (key * metric)) : Res (list (key * metric)) :=
  match map with
  | [] =>
      let* v := aggregate (mkValue (variant (mval m)) (name m) (unit (variant (mval m)))) (mval m) in
      Ok [((name m, task_id m), mkMetric v None (labels_of (task_id m)))]
  | (k, a) :: rest =>
      if key_eqb k (name m, task_id m) then
        let* v := aggregate (mval a) (mval m) in
        Ok ((k, mkMetric v (mpartition a) (mlabels a)) :: rest)
      else
        let* rest' := aggregate_into m rest in
        Ok ((k, a) :: rest')
  end.
Fixpoint aggregate_all (ms : list metric) (map : list (key * metric)) : Res (list (key * metric)) :=
  match ms with
  | [] => Ok map
  | m :: ms => let* map' := aggregate_into m map in aggregate_all ms map'
  end.
Definition aggregate_by_task_id (ms : list metric) : Res (list metric) :=
  let* map := aggregate_all ms [] in Ok (List.map snd map).

(** stage.rs 518-535 [sorted_for_display_by_task_id]: by the key of the variant, the name as bytes and the number
    of the task, none first. The sort is unstable. *)
Definition sorting (m : metric) : nat * string * option N :=
  (sort_key (variant (mval m)), name m,
   match task_id m with Some id => parse_u64 id | None => None end).
Definition before (a b : nat * string * option N) : Prop :=
  let '(k, n, t) := a in
  let '(k', n', t') := b in
  (k < k')%nat \/ (k = k' /\ (String.compare n n' = Lt \/ (n = n' /\
    match t, t' with
    | None, Some _ => True
    | Some x, Some y => (x < y)%N
    | _, None => False
    end))).
Definition sorted_for_display (l : list metric) : Prop :=
  StronglySorted (fun a b => before (sorting a) (sorting b) \/ sorting a = sorting b) l.

(** stage.rs 549-580 [format_metrics_by_task]: the groups, with the last one first. *)
Definition entry (m : metric) : string :=
  match task_id m with
  | Some id => id ++ ":" ++ display (mval m)
  | None => display (mval m)
  end.
Definition push (groups : list (string * bool * list string)) (m : metric) : list (string * bool * list string) :=
  match groups with
  | (n, b, es) :: rest =>
      if String.eqb n (name m) then (n, b, (es ++ [entry m])%list) :: rest
      else (name m, match task_id m with Some _ => true | None => false end, [entry m]) :: groups
  | [] => [(name m, match task_id m with Some _ => true | None => false end, [entry m])]
  end.
Definition group_text (g : string * bool * list string) : string :=
  let '(n, b, es) := g in
  if b then n ++ "={" ++ String.concat ", " es ++ "}" else n ++ "=" ++ String.concat ", " es.
Definition text_of (l : list metric) : string :=
  String.concat ", " (map group_text (rev (fold_left push l []))).

(** The whole. The order in which the hash map is read is unspecified, and so is the order of equal
    elements after the sort: any sorted permutation may be what is formatted. [timestamps_removed] is
    DataFusion's. *)
Definition formats (ms : list metric) (out : string) : Prop :=
  exists l sorted, aggregate_by_task_id ms = Ok l /\ Permutation l sorted /\ sorted_for_display sorted /\
    out = text_of (filter (fun m => negb (timestamp (variant (mval m)))) sorted).
End Show.
