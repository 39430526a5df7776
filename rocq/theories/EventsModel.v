(** Model of the event handlers: task-count annotations, handler chains, routing of tasks to workers and
    the built-in file scan handlers, and of the per-task leaf holder they produce.
    Source: src/events/*.rs, src/execution_plans/distributed_leaf.rs. *)
From Verif Require Import Base NetModel.

(** * Task count annotations, events/desired_task_count.rs *)

(** Lines 10-20. *)
Inductive annotation := Desired (n : nat) | Maximum (n : nat).

(** Lines 109-114. *)
Definition as_usize (a : annotation) : nat := match a with Desired n => n | Maximum n => n end.

(** Lines 116-121. *)
Definition limit (a : annotation) (l : nat) : annotation :=
  match a with Desired n => Desired (Nat.min n l) | Maximum n => Maximum (Nat.min n l) end.

(** Lines 123-130. *)
Definition merge (a b : annotation) : annotation :=
  match a, b with
  | Desired a, Desired b => Desired (Nat.max a b)
  | Desired _, Maximum b => Maximum b
  | Maximum a, Desired _ => Maximum a
  | Maximum a, Maximum b => Maximum (Nat.min a b)
  end.

(** * Handler chains, events/common.rs *)

Section Chain.
Context {H : Type}.

(** Lines 4-7. *)
Record chain := mkChain { builtin : list H; custom : list H }.

(** Lines 9-16. *)
Definition chain_default : chain := mkChain [] [].

(** Lines 28-30. *)
Definition chain_iter (c : chain) : list H := custom c ++ builtin c.

(** [Iterator::find_map]. *)
Fixpoint find_map {T} (f : H -> option T) (l : list H) : option T :=
  match l with
  | [] => None
  | h :: rest => match f h with Some x => Some x | None => find_map f rest end
  end.

(** Lines 32-40. *)
Definition chain_find_map {T} (f : H -> option T) (c : chain) : option T :=
  match find_map f (custom c) with Some x => Some x | None => find_map f (builtin c) end.

(** Lines 42-51. *)
Fixpoint try_fold {T} (f : T -> H -> Res T) (l : list H) (v : T) : Res T :=
  match l with
  | [] => Ok v
  | h :: rest => let* v := f v h in try_fold f rest v
  end.
Definition chain_try_fold {T} (f : T -> H -> Res T) (c : chain) (v : T) : Res T :=
  try_fold f (custom c ++ builtin c) v.

(** Lines 55-62, 64-74, 76-83; the chain stored in the session config is [None] before the first
    registration. *)
Definition push_builtin (c : option chain) (h : H) : chain :=
  let c := match c with Some c => c | None => chain_default end in
  mkChain (builtin c ++ [h]) (custom c).
Definition extend_builtin (c : option chain) (hs : list H) : chain :=
  let c := match c with Some c => c | None => chain_default end in
  mkChain (fold_left (fun acc h => acc ++ [h]) hs (builtin c)) (custom c).
Definition push_custom (c : option chain) (h : H) : chain :=
  let c := match c with Some c => c | None => chain_default end in
  mkChain (builtin c) (custom c ++ [h]).

(** desired_task_count.rs:173-185, route_tasks.rs:73-78, scale_up_leaf_node.rs:72-76: dispatch of an
    event. The first two lines are the missing-extension case ([?]). *)
Definition dispatch {T} (c : option chain) (f : H -> option T) : option T :=
  match c with None => None | Some c => chain_find_map f c end.

(** desired_task_count.rs:173-185 uses a [for] loop over [iter()] instead of [find_map]. *)
Definition dispatch_loop {T} (c : option chain) (f : H -> option T) : option T :=
  match c with None => None | Some c => find_map f (chain_iter c) end.
End Chain.
Arguments chain : clear implicits.

(** * Routing, events/defaults/routing.rs and coordinator/query_coordinator.rs *)

Section Routing.
Context {url : Type}.

(** What a routing handler can look at: the number of tasks, the URLs the resolver reports, this
    process' own URL if it can act as worker, and the worker lists of the remote input stages of the
    top-most network boundaries of the plan in visiting order. [start] is the random number drawn by
    [random_routing] (any value below the number of URLs). *)
Record route_event := mkRoute {
  rt_task_count : nat;
  rt_resolver : Res (list url);
  rt_self_url : option url;
  rt_children : list (list url);
  rt_start : nat
}.

(** routing.rs:10-32. The index [available_urls[..]] would panic out of bounds. *)
Definition random_routing (ev : route_event) : option (Res (list url)) :=
  match rt_resolver ev with
  | Ok [] => Some (Err "0 URLs available during routing")
  | Ok urls =>
      Some (mapM (fun i => match nth_error urls ((rt_start ev + i) mod List.length urls) with
                           | Some u => Ok u
                           | None => Panic "index out of bounds"
                           end) (seq 0 (rt_task_count ev)))
  | Err e => Some (Err e)
  | Panic e => Some (Panic e)
  end.

(** routing.rs:35-45. *)
Definition single_task_coordinator_routing (ev : route_event) : option (Res (list url)) :=
  if negb (rt_task_count ev =? 1) then None
  else match rt_self_url ev with Some u => Some (Ok [u]) | None => None end.

(** routing.rs:49-74. *)
Definition single_task_child_url_routing (ev : route_event) : option (Res (list url)) :=
  if negb (rt_task_count ev =? 1) then None
  else match find (fun ws => List.length ws =? 1) (rt_children ev) with
       | Some (u :: _) => Some (Ok [u])
       | _ => None
       end.

(** session_state_builder_ext.rs:35-48: the built-in chain, in registration order. *)
Definition builtin_routing : list (route_event -> option (Res (list url))) :=
  [single_task_coordinator_routing; single_task_child_url_routing; random_routing].

(** query_coordinator.rs:398-416. *)
Definition routed_urls (handlers : option (chain (route_event -> option (Res (list url)))))
    (ev : route_event) : Res (list url) :=
  match dispatch handlers (fun h => h ev) with
  | None => Err "No task routing handler was able to resolve URLs for stage"
  | Some r =>
      let* urls := r in
      if negb (List.length urls =? rt_task_count ev)
      then Err "number of tasks was not equal to number of urls at execution time"
      else Ok urls
  end.
End Routing.
Arguments route_event : clear implicits.

(** * Per-task leaves, execution_plans/distributed_leaf.rs *)

Section Leaf.
Context {row : Type}.

(** A leaf plan: partitions, schema (as an opaque number) and what executing a partition yields. *)
Record leaf := mkLeaf { lf_parts : nat; lf_schema : nat; lf_exec : nat -> Res (list row) }.

(** Lines 73-77 ([properties] is the advertised partition count). *)
Record dle := mkDle { dle_original : leaf; dle_parts : nat; dle_variants : list leaf }.

(** Lines 89-109: the closure applied to the variants in order. *)
Fixpoint check_variants (prev : option leaf) (vs : list leaf) : Res (option leaf) :=
  match vs with
  | [] => Ok prev
  | v :: rest =>
      match prev with
      | None => check_variants (Some v) rest
      | Some p =>
          if negb (lf_parts p =? lf_parts v) then Err "Different partition count"
          else if negb (lf_schema p =? lf_schema v) then Err "Different schemas"
          else check_variants prev rest
      end
  end.

(** Lines 85-120. *)
Definition dle_try_new (original : leaf) (variants : list leaf) : Res dle :=
  let* p := check_variants None variants in
  match p with
  | None => Err "Empty list of variants"
  | Some v => Ok (mkDle original (lf_parts v) variants)
  end.

(** Lines 138-140. *)
Definition dle_to_task_specialized (d : dle) (task_i : nat) : Res leaf :=
  match nth_error (dle_variants d) task_i with
  | Some v => Ok v
  | None => Panic "index out of bounds"
  end.

(** Lines 180-199. *)
Definition dle_execute (d : dle) (ctx : TaskCtx) (partition : nat) : Res (list row) :=
  if task_count ctx =? 1 then lf_exec (dle_original d) partition else
  match nth_error (dle_variants d) (task_index ctx) with
  | None => Err "Task index out of range"
  | Some v => lf_exec v partition
  end.

(** * File scans, events/defaults/file_scan_config.rs *)

(** A file (or range of a file) is whatever it reads; a group is a list of files. Executing partition
    [p] of a scan reads its group [p]; DataFusion's file stream indexes the groups. *)
Definition scan (schema : nat) (groups : list (list (list row))) : leaf :=
  mkLeaf (List.length groups) schema
    (fun p => match nth_error groups p with
              | Some g => Ok (List.concat g)
              | None => Panic "index out of bounds"
              end).

(** Lines 13-34, [sizes] being the sizes of all files. [div_ceil] panics on a zero divisor. *)
Definition rust_div_ceil (a b : nat) : Res nat :=
  match b with 0 => Panic "attempt to divide by zero" | _ => Ok (div_ceil a b) end.
Definition file_scan_desired (sizes : list nat) (bytes_per_partition target_partitions : nat)
  : Res annotation :=
  let* a := rust_div_ceil (list_sum sizes) bytes_per_partition in
  let* b := rust_div_ceil a target_partitions in
  Ok (Desired b).

(** Pushing [x] at the back of bin [i mod n]. *)
Fixpoint bin_push {A} (bins : list (list A)) (i : nat) (x : A) : list (list A) :=
  match bins, i with
  | [], _ => []
  | b :: rest, 0 => (b ++ [x]) :: rest
  | b :: rest, S i => b :: bin_push rest i x
  end.

(** [for (idx, item) in items.enumerate() { bins[idx % n].push(item) }] over [n] empty bins;
    a zero [n] panics as soon as there is an item. Lines 87-95 and 66-70. *)
Fixpoint deal {A} (n : nat) (bins : list (list A)) (idx : nat) (items : list A) : Res (list (list A)) :=
  match items with
  | [] => Ok bins
  | x :: rest =>
      match n with
      | 0 => Panic "attempt to calculate the remainder with a divisor of zero"
      | _ => deal n (bin_push bins (idx mod n) x) (idx + 1) rest
      end
  end.

(** Lines 87-95. *)
Definition rebalance_round_robin {A} (items : list A) (target_groups : nat) : Res (list (list A)) :=
  deal target_groups (repeat [] target_groups) 0 items.

(** Lines 36-85. [partitioner n groups] stands for DataFusion's [FileGroupPartitioner] with [n] target
    partitions ([None] when it declines). [preset] is [output_partitioning.is_some()]. *)
Definition file_scan_scale_up (partitioner : nat -> list (list (list row)) -> option (list (list (list row))))
    (schema : nat) (groups : list (list (list row))) (partition_count : nat) (preset : bool)
    (task_count : nat) : Res dle :=
  let* rebalanced :=
    (if preset
     then rebalance_round_robin (List.concat groups) (partition_count * task_count)
     else Ok (match partitioner (partition_count * task_count) groups with
              | Some gs => gs
              | None => groups
              end)) in
  let* per_task := deal task_count (repeat [] task_count) 0 rebalanced in
  dle_try_new (scan schema groups) (map (scan schema) per_task).

End Leaf.
Arguments leaf : clear implicits.
Arguments dle : clear implicits.
