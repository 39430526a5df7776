(** The console: what it keeps about a worker and how it answers keys.
    Source: console/src/worker.rs:17-342, console/src/app.rs:68-134, 192-257, console/src/input.rs, console/src/state.rs. *)
From Verif Require Import Base CiuModel.

(** worker.rs:43-44: query, stage, number. *)
Definition key := (nat * nat * nat)%type.
Definition key_eqb (a b : key) : bool :=
  let '(q, s, n) := a in let '(q', s', n') := b in (q =? q') && (s =? s') && (n =? n').
Definition query_of (k : key) : nat := fst (fst k).

(** A task in a worker's answer ([TaskProgress]). *)
Record listed := mkListed { l_key : option key; l_running : bool; l_rows : nat }.
(** The worker's answer ([GetTaskProgressResponse]); CPU already as the integer that the history keeps. *)
Record answer := mkAnswer { a_tasks : list listed; a_rss : nat; a_cpu : nat }.

(** worker.rs:56-62; the reason of a disconnection is left out. *)
Inductive status := Connecting | Idle | Active | Disconnected.

(** worker.rs:17-41. [last_seen_query_ids], [poll_count] and [connected_since] are only written or shown and are left out. *)
Record conn := mkConn {
  url : nat; client : bool; st : status; tasks : list listed; completed : list (key * nat); first_seen : list (key * nat);
  last_attempt : option nat; rows_total : nat; prev_rows : nat;
  cpu_history : list nat; rss_history : list nat; rows_history : list nat
}.
Definition max_completed : nat := 50.
Definition history_len : nat := 300.

(** Lines 66-87. *)
Definition new_conn (u : nat) : conn := mkConn u false Connecting [] [] [] None 0 0 [] [] [].

(** Lines 358-364 [push_history]: newest last. *)
Definition push_history (l : list nat) (v : nat) : list nat :=
  (if history_len <=? List.length l then skipn 1 l else l) ++ [v].

(** Lines 90-118 [try_connect] at the time [now]. *)
Definition try_connect (now : nat) (ok : bool) (c : conn) : conn :=
  if ok
  then mkConn (url c) true Idle [] (completed c) [] (Some now) (rows_total c) (prev_rows c) (cpu_history c) (rss_history c) (rows_history c)
  else mkConn (url c) false Disconnected (tasks c) (completed c) (first_seen c) (Some now) (rows_total c) (prev_rows c)
         (cpu_history c) (rss_history c) (rows_history c).

(** Lines 121-133. Five seconds. *)
Definition should_retry (now : nat) (c : conn) : bool :=
  match st c, last_attempt c with
  | Connecting, None => true
  | Connecting, Some _ => false
  | Disconnected, Some t => 5 <=? now - t
  | Disconnected, None => true
  | _, _ => false
  end.

Definition keys (l : list listed) : list key := flat_map (fun t => match l_key t with Some k => [k] | None => [] end) l.
Definition has (k : key) (l : list key) : bool := existsb (key_eqb k) l.
Definition seen_at (l : list (key * nat)) (k : key) : option nat :=
  match find (fun x => key_eqb k (fst x)) l with Some (_, t) => Some t | None => None end.

(** Lines 177-207: a task that was running and is not listed any more is completed. One [now] stands for all readings of the
    clock during a poll. *)
Definition complete (now : nat) (new : list key) (acc : list (key * nat) * list (key * nat)) (old : listed) :=
  let '(done, seen) := acc in
  match l_running old, l_key old with
  | true, Some k =>
      if has k new then acc
      else (firstn max_completed ((k, match seen_at seen k with Some t => now - t | None => 0 end) :: done),
            filter (fun x => negb (key_eqb k (fst x))) seen)
  | _, _ => acc
  end.

(** Lines 209-217. *)
Definition note_seen (now : nat) (seen : list (key * nat)) (t : listed) : list (key * nat) :=
  match l_key t with
  | Some k => match seen_at seen k with Some _ => seen | None => seen ++ [(k, now)] end
  | None => seen
  end.

Definition is_running (t : listed) : bool := match l_key t with Some _ => l_running t | None => false end.

(** Lines 136-289 [poll]. The sum of the rows may overflow 64 bits, which is left out. *)
Definition poll (now : nat) (r : option answer) (c : conn) : conn :=
  if client c then
    match r with
    | Some a =>
        let total := list_sum (map l_rows (a_tasks a)) in
        let new := keys (a_tasks a) in
        let '(done, seen) := fold_left (complete now new) (tasks c) (completed c, first_seen c) in
        let seen := filter (fun x => has (fst x) new) (fold_left (note_seen now) (a_tasks a) seen) in
        let running := existsb is_running (a_tasks a) in
        let done :=
          if running && negb (existsb (fun k => existsb (fun d => query_of (fst d) =? query_of k) done) new)
          then [] else done in
        mkConn (url c) true
          (if running then Active else Idle)
          (a_tasks a) done seen (last_attempt c) total total
          (push_history (cpu_history c) (a_cpu a)) (push_history (rss_history c) (a_rss a))
          (push_history (rows_history c) (total - prev_rows c))
    | None =>
        mkConn (url c) false Disconnected [] (completed c) [] (last_attempt c) (rows_total c) (prev_rows c)
          (push_history (cpu_history c) 0) (push_history (rss_history c) 0) (push_history (rows_history c) 0)
    end
  else c.

(** input.rs:106-110, 212-216: the key [r]. *)
Definition clear_completed (c : conn) : conn :=
  mkConn (url c) (client c) (st c) (tasks c) [] (first_seen c) (last_attempt c) (rows_total c) (prev_rows c)
    (cpu_history c) (rss_history c) (rows_history c).

(** What happens to a worker's record, in the order of time. *)
Inductive event := EConnect (now : nat) (ok : bool) | EPoll (now : nat) (r : option answer) | EClear.
Definition apply_event (c : conn) (e : event) : conn :=
  match e with
  | EConnect now ok => if should_retry now c then try_connect now ok c else c
  | EPoll now r => poll now r c
  | EClear => clear_completed c
  end.
Definition after (u : nat) (l : list event) : conn := fold_left apply_event l (new_conn u).

(** * The application *)
Inductive view := Overview | Detail.
Inductive panel := Metrics | ActiveTasks | CompletedTasks.
(** app.rs:9-29 without what the keys do not touch. *)
Record app := mkApp {
  workers : list conn; current : view; cursor : option nat; worker_idx : nat;
  active_row : option nat; completed_row : option nat; focus : panel; paused : bool; help : bool; quit : bool
}.

(** app.rs:103-133 [maybe_discover_workers] with the urls found. *)
Definition discover (urls : list nat) (a : app) : app :=
  let known := map url (workers a) in
  let added := map new_conn (filter (fun u => negb (existsb (Nat.eqb u) known)) urls) in
  mkApp (filter (fun w => existsb (Nat.eqb (url w)) urls) (workers a ++ added))
    (current a) (cursor a) (worker_idx a) (active_row a) (completed_row a) (focus a) (paused a) (help a) (quit a).

Inductive input := KQuit | KHelp | KPause | KOverview | KDetail | KDown | KUp | KHome | KEnd | KEnter | KLeft | KRight
| KSpace | KReset | KTab | KEsc | KBackTab | KOther.

Definition set_view (a : app) v := mkApp (workers a) v (cursor a) (worker_idx a) (active_row a) (completed_row a) (focus a) (paused a) (help a) (quit a).
Definition set_cursor (a : app) c := mkApp (workers a) (current a) c (worker_idx a) (active_row a) (completed_row a) (focus a) (paused a) (help a) (quit a).
Definition set_workers (a : app) w := mkApp w (current a) (cursor a) (worker_idx a) (active_row a) (completed_row a) (focus a) (paused a) (help a) (quit a).
(** Another worker; the rows chosen in its tables are reset. *)
Definition set_worker (a : app) i := mkApp (workers a) (current a) (cursor a) i None None (focus a) (paused a) (help a) (quit a).
Definition set_rows (a : app) r r' := mkApp (workers a) (current a) (cursor a) (worker_idx a) r r' (focus a) (paused a) (help a) (quit a).
Definition set_focus (a : app) f := mkApp (workers a) (current a) (cursor a) (worker_idx a) (active_row a) (completed_row a) f (paused a) (help a) (quit a).
Definition set_flags (a : app) p h q := mkApp (workers a) (current a) (cursor a) (worker_idx a) (active_row a) (completed_row a) (focus a) p h q.

Section Keys.
(** app.rs:192-257 [sorted_worker_indices]: the indices of the workers in the order chosen; sorting is left out. *)
Variable order : list conn -> list nat.
Definition or_0 (o : option nat) : nat := match o with Some n => n | None => 0 end.

(** input.rs:51-140. Left, Right and Space choose the order. *)
Definition cluster_key (a : app) (k : input) : app :=
  let n := List.length (workers a) in
  if n =? 0 then a else
  match k with
  | KDown => set_cursor a (Some (Nat.min (S (or_0 (cursor a))) (n - 1)))
  | KUp => set_cursor a (Some (or_0 (cursor a) - 1))
  | KHome => set_cursor a (Some 0)
  | KEnd => set_cursor a (Some (n - 1))
  | KEnter =>
      match cursor a with
      | Some i => match nth_error (order (workers a)) i with
                  | Some r => set_focus (set_view (set_worker a r) Detail) ActiveTasks
                  | None => a end
      | None => a end
  | KTab =>
      match cursor a with
      | Some i => match nth_error (order (workers a)) i with
                  | Some r => set_view (mkApp (workers a) (current a) (cursor a) r (active_row a) (completed_row a) (focus a)
                                (paused a) (help a) (quit a)) Detail
                  | None => a end
      | None => a end
  | KReset => set_workers a (map clear_completed (workers a))
  | _ => a
  end.

(** input.rs:142-218; [Panic]: an index out of bounds. *)
Definition worker_key (a : app) (k : input) : Res app :=
  let n := List.length (workers a) in
  if n <=? worker_idx a then Ok a else
  match k with
  | KEsc | KTab => Ok (set_view a Overview)
  | KLeft => Ok (set_worker a (if worker_idx a =? 0 then n - 1 else worker_idx a - 1))
  | KRight => Ok (set_worker a ((worker_idx a + 1) mod n))
  | KDown =>
      match nth_error (workers a) (worker_idx a) with
      | None => Panic "index out of bounds"
      | Some w =>
          match focus a with
          | Metrics => Ok a
          | ActiveTasks =>
              let n := List.length (tasks w) in
              Ok (if 0 <? n then set_rows a (Some match active_row a with Some s => Nat.min (s + 1) (n - 1) | None => 0 end) (completed_row a) else a)
          | CompletedTasks =>
              let n := List.length (completed w) in
              Ok (if 0 <? n then set_rows a (active_row a) (Some match completed_row a with Some s => Nat.min (s + 1) (n - 1) | None => 0 end) else a)
          end
      end
  | KUp =>
      match focus a with
      | Metrics => Ok a
      | ActiveTasks => Ok (set_rows a (Some (or_0 (active_row a) - 1)) (completed_row a))
      | CompletedTasks => Ok (set_rows a (active_row a) (Some (or_0 (completed_row a) - 1)))
      end
  | KBackTab => Ok (set_focus a match focus a with Metrics => ActiveTasks | ActiveTasks => CompletedTasks | CompletedTasks => Metrics end)
  | KReset =>
      Ok match nth_error (workers a) (worker_idx a) with
         | Some w => set_workers a (upd (workers a) (worker_idx a) (clear_completed w))
         | None => a end
  | _ => Ok a
  end.

(** input.rs:6-49. *)
Definition handle_key (a : app) (k : input) : Res app :=
  if help a then Ok (set_flags a (paused a) false (quit a)) else
  match k with
  | KQuit => Ok (set_flags a (paused a) (help a) true)
  | KHelp => Ok (set_flags a (paused a) true (quit a))
  | KPause => Ok (set_flags a (negb (paused a)) (help a) (quit a))
  | KOverview => Ok (set_view a Overview)
  | KDetail => Ok (match workers a with [] => a | _ => set_view a Detail end)
  | k => match current a with Overview => Ok (cluster_key a k) | Detail => worker_key a k end
  end.
End Keys.
