(** The console's overview of the cluster: the numbers above the table, the order of its rows and the keys that choose it.
    Source: console/src/app.rs:68-101, 136-289, console/src/state.rs:12-84, console/src/input.rs:96-110,
    console/src/worker.rs:310-346, console/src/ui/cluster.rs:122-144. *)
From Coq Require Import QArith.
From Verif Require Import Base ConsoleModel.
Close Scope Q_scope.

(** * Rows *)

(** state.rs:12-21, 62-67. *)
Inductive column := CWorker | CStatus | CTasks | CQueries | CCpu | CMemory.
Inductive direction := Unsorted | Ascending | Descending.

(** state.rs:24-39, 42-57, 70-76. *)
Definition next_column (wide : bool) (c : column) : column :=
  match c with
  | CWorker => CStatus | CStatus => CTasks | CTasks => if wide then CQueries else CCpu
  | CQueries => CCpu | CCpu => CMemory | CMemory => CWorker
  end.
Definition prev_column (wide : bool) (c : column) : column :=
  match c with
  | CWorker => CMemory | CStatus => CWorker | CTasks => CStatus | CQueries => CTasks
  | CCpu => if wide then CQueries else CTasks | CMemory => CCpu
  end.
Definition next_direction (d : direction) : direction :=
  match d with Unsorted => Ascending | Ascending => Descending | Descending => Unsorted end.

(** input.rs:97-105: Right, Left and Space. The width of the terminal is not asked for. *)
Definition press_right (c : column) : column := next_column true c.
Definition press_left (c : column) : column := prev_column true c.
(** ui/cluster.rs:125-144: the columns drawn. *)
Definition columns (wide : bool) : list column :=
  if wide then [CWorker; CStatus; CTasks; CQueries; CCpu; CMemory] else [CWorker; CStatus; CTasks; CCpu; CMemory].

(** worker.rs:310-317 [status_sort_key]. *)
Definition status_sort_key (s : status) : nat :=
  match s with Disconnected => 0 | Active => 1 | Idle => 2 | Connecting => 3 end.
(** worker.rs:338-345 [distinct_query_count]. *)
Definition distinct_query_count (w : conn) : nat := List.length (nodup Nat.eq_dec (map query_of (keys (tasks w)))).

(** A worker's CPU usage is an [f64] of its last answer: a number, here a natural one, or NaN, here [None]; by the position of
    the worker. So is its memory. *)
Definition partial_cmp (a b : option nat) : option comparison :=
  match a, b with Some a, Some b => Some (Nat.compare a b) | _, _ => None end.

(** app.rs:192-257: the comparison for a column. *)
Definition column_cmp (cpu : nat -> option nat) (rss : nat -> nat) (ws : list conn) (c : column) (a b : nat) : comparison :=
  let at_ (f : conn -> nat) i := match nth_error ws i with Some w => f w | None => 0 end in
  match c with
  | CWorker => Nat.compare (at_ url a) (at_ url b)
  | CStatus => Nat.compare (at_ (fun w => status_sort_key (st w)) a) (at_ (fun w => status_sort_key (st w)) b)
  | CTasks => Nat.compare (at_ (fun w => List.length (tasks w)) a) (at_ (fun w => List.length (tasks w)) b)
  | CQueries => Nat.compare (at_ distinct_query_count a) (at_ distinct_query_count b)
  | CCpu => match partial_cmp (cpu a) (cpu b) with Some o => o | None => Eq end
  | CMemory => Nat.compare (rss a) (rss b)
  end.

(** [slice::sort_by] of the standard library: stable; of a comparison that is not a total order on the elements it gives any
    order, or panics. *)
Fixpoint insert (cmp : nat -> nat -> comparison) (x : nat) (l : list nat) : list nat :=
  match l with
  | [] => [x]
  | y :: r => match cmp x y with Gt => y :: insert cmp x r | _ => x :: l end
  end.
Definition stable_sort (cmp : nat -> nat -> comparison) (l : list nat) : list nat := fold_right (insert cmp) [] l.
Definition total_order (cmp : nat -> nat -> comparison) (l : list nat) : Prop :=
  (forall a b, In a l -> In b l -> cmp b a = CompOpp (cmp a b)) /\
  (forall a b c, In a l -> In b l -> In c l -> cmp a b <> Gt -> cmp b c <> Gt -> cmp a c <> Gt) /\
  (forall a b c, In a l -> In b l -> In c l -> cmp a b = Eq -> cmp b c = Eq -> cmp a c = Eq).
Inductive sort_by (cmp : nat -> nat -> comparison) (l : list nat) : Res (list nat) -> Prop :=
| sort_stable : total_order cmp l -> sort_by cmp l (Ok (stable_sort cmp l))
| sort_any out : ~ total_order cmp l -> Permutation l out -> sort_by cmp l (Ok out)
| sort_panic : ~ total_order cmp l -> sort_by cmp l (Panic "user-provided comparison function does not correctly implement a total order").

(** app.rs:192-257 [sorted_worker_indices]. *)
Definition sorted_worker_indices (cpu : nat -> option nat) (rss : nat -> nat) (c : column) (d : direction) (ws : list conn)
    (out : Res (list nat)) : Prop :=
  let indices := seq 0 (List.length ws) in
  match d with
  | Unsorted => out = Ok indices
  | Ascending => sort_by (column_cmp cpu rss ws c) indices out
  | Descending => sort_by (fun a b => CompOpp (column_cmp cpu rss ws c a b)) indices out
  end.

(** * Numbers *)

(** app.rs:155-165 [rebuild_queries]. *)
Definition rebuild_queries (ws : list conn) : nat :=
  List.length (nodup Nat.eq_dec (flat_map (fun w => map query_of (keys (tasks w))) ws)).

(** app.rs:168-189 [cluster_stats]. *)
Record stats := mkStats { total : nat; active_count : nat; idle_count : nat; connecting_count : nat; disconnected_count : nat;
  total_tasks : nat; total_completed : nat; active_queries : nat }.
Definition count_worker (s : stats) (w : conn) : stats :=
  mkStats (total s)
    (active_count s + match st w with Active => 1 | _ => 0 end) (idle_count s + match st w with Idle => 1 | _ => 0 end)
    (connecting_count s + match st w with Connecting => 1 | _ => 0 end)
    (disconnected_count s + match st w with Disconnected => 1 | _ => 0 end)
    (total_tasks s + List.length (tasks w)) (total_completed s + List.length (completed w)) (active_queries s).
Definition cluster_stats (ws : list conn) (queries : nat) : stats :=
  fold_left count_worker ws (mkStats (List.length ws) 0 0 0 0 0 0 queries).

(** app.rs:136-152 [update_throughput], in exact arithmetic and with one reading of the clock; rows per unit of the clock. *)
Record meter := mkMeter { m_total : nat; m_time : option nat; m_rate : Q }.
Definition meter_new : meter := mkMeter 0 None 0%Q.
Definition per (rows time : nat) : Q := (inject_Z (Z.of_nat rows) / inject_Z (Z.of_nat time))%Q.
Definition update_throughput (ws : list conn) (now : nat) (m : meter) : meter :=
  let current := list_sum (map rows_total ws) in
  mkMeter current (Some now)
    match m_time m with
    | Some t => if 0 <? now - t then ((7 # 10) * per (current - m_total m) (now - t) + (3 # 10) * m_rate m)%Q else m_rate m
    | None => m_rate m
    end.

(** app.rs:260-272 [cluster_avg_task_duration], in exact arithmetic; worker.rs:329-335 and app.rs:274-280, the longest. *)
Definition cluster_avg_task_duration (ws : list conn) : option Q :=
  let l := flat_map (fun w => map snd (completed w)) ws in
  match l with [] => None | _ => Some (per (list_sum l) (List.length l)) end.
Definition longest_task_duration (now : nat) (w : conn) : nat := list_max (map (fun x => now - snd x) (first_seen w)).
Definition cluster_longest_active_task (now : nat) (ws : list conn) : nat := list_max (map (longest_task_duration now) ws).

(** * Histories *)
(** What the overview keeps besides [app]. *)
Record overview := mkOverview { o_workers : list conn; o_queries : nat; o_meter : meter; o_paused : bool }.
Definition overview_new : overview := mkOverview [] 0 meter_new false.
(** app.rs:68-101 [tick] with the workers' records after discovery, connecting and polling, which C86 is about. The reading of
    a worker that does not answer within 50 ms stays what it was. Keys pause and clear (input.rs:27-30, 106-110). *)
Inductive happening := Tick (now : nat) (ws : list conn) | Pause | Clear (cleared : list bool).
Definition happens (o : overview) (h : happening) : overview :=
  match h with
  | Tick now ws =>
      if o_paused o then o
      else mkOverview ws (rebuild_queries ws) (update_throughput ws now (o_meter o)) (o_paused o)
  | Pause => mkOverview (o_workers o) (o_queries o) (o_meter o) (negb (o_paused o))
  | Clear cleared =>
      mkOverview (map (fun x : bool * conn => if fst x then clear_completed (snd x) else snd x)
                    (combine (cleared ++ repeat false (List.length (o_workers o))) (o_workers o)))
        (o_queries o) (o_meter o) (o_paused o)
  end.
Definition overview_after (l : list happening) : overview := fold_left happens l overview_new.
