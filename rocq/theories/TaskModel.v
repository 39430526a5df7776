(** Model of a worker's task registry: the write-once slot (worker/single_write_multi_read.rs), the coordinator
    channel (worker/impl_coordinator_channel.rs), data requests (worker/impl_execute_task.rs), the lazily built
    final plan (worker/task_data.rs), and the coordinator's metrics store (coordinator/metrics_store.rs,
    coordinator/distributed.rs). *)
From Verif Require Import Base CiuModel.

(** * The write-once slot *)
Section Slot.
Context {T : Type}.

(** single_write_multi_read.rs:71-90: a read in progress and, once it returned, its result ([None]: the
    [Timeout] error). The [NoValue] error needs the slot's own sender to be dropped while the slot is borrowed
    by the read, which cannot happen, and is left out. *)
Record reader := mkReader { rd_deadline : nat; rd_result : option (option T) }.

(** The slot: the watched value; a clock; history: the writes with their results ([true]: accepted). *)
Record swmr := mkSwmr { sw_value : option T; sw_writes : list (T * bool); sw_now : nat; sw_readers : list reader }.

(** Lines 43-46. *)
Definition swmr_new : swmr := mkSwmr None [] 0 [].

(** Lines 48-63: [send_modify] sets the value only if there is none. *)
Definition swmr_write (s : swmr) (v : T) : swmr :=
  match sw_value s with
  | None => mkSwmr (Some v) (sw_writes s ++ [(v, true)]) (sw_now s) (sw_readers s)
  | Some _ => mkSwmr (sw_value s) (sw_writes s ++ [(v, false)]) (sw_now s) (sw_readers s)
  end.

(** Lines 65-69. *)
Definition swmr_read_now (s : swmr) : option T := sw_value s.

(** Lines 71-90, one poll: [timeout] polls [wait_for] first and looks at the clock only if that is pending. *)
Definition read_poll (s : swmr) (d : nat) : option (option T) :=
  match sw_value s with
  | Some v => Some (Some v)
  | None => if d <=? sw_now s then Some None else None
  end.

Inductive swmr_step : swmr -> swmr -> Prop :=
| write_step s v : swmr_step s (swmr_write s v)
| read_step s d : swmr_step s (mkSwmr (sw_value s) (sw_writes s) (sw_now s) (sw_readers s ++ [mkReader (sw_now s + d) None]))
| tick_step s : swmr_step s (mkSwmr (sw_value s) (sw_writes s) (S (sw_now s)) (sw_readers s))
| poll_step s i d : nth_error (sw_readers s) i = Some (mkReader d None) ->
    swmr_step s (mkSwmr (sw_value s) (sw_writes s) (sw_now s) (upd (sw_readers s) i (mkReader d (read_poll s d)))).
End Slot.
Arguments swmr : clear implicits.
Arguments reader : clear implicits.

(** * The registry *)
Section Worker.
Context {plan head err : Type}.
(** task_data.rs:103-110: decoding a head and putting it on top of the plan of a task. *)
Variable insert : head -> plan -> plan + err.

(** An entry of the registry (worker_service.rs:14-23 [TaskDataEntries], task_data.rs:13-29): the write-once slot
    holding the task's plan or the error of building it, and the final plan once the first data request built
    it. *)
Record entry := mkEntry { en_value : option (plan + err); en_final : option (plan + err) }.

(** Where a coordinator channel is. *)
Inductive phase :=
| Building                      (* impl_coordinator_channel.rs:32-100: has its entry, builds the plan *)
| Rejected                      (* lines 102-104: the slot was already written *)
| BuildFailed                   (* line 106 *)
| Listening                     (* lines 124-155 *)
| Finished (sent : option plan) (* lines 157-169 done: metrics sent for that plan, or not *)
| Closed (sent : option plan).  (* line 170 done *)

(** A coordinator channel: its task, the entry it found or made, what building its plan gives
    ([request.plan.decode] etc., lines 45-98), whether metrics are collected, its phase. *)
Record channel := mkChannel { ch_key : nat; ch_entry : nat; ch_build : plan + err; ch_collect : bool; ch_phase : phase }.

(** What a data request gets. *)
Inductive answer :=
| Plan (p : plan)
| Failed (e : err)
| TimedOut.

(** A data request (impl_execute_task.rs:19-37): its task, head, the entry it found or made, its answer. *)
Record drequest := mkDrequest { dr_key : nat; dr_head : head; dr_entry : nat; dr_answer : option answer }.

Record worker := mkWorker {
  wk_entries : list entry;               (* every entry ever made; channels and requests hold references *)
  wk_cache : list (nat * nat);           (* moka cache: key, index of the entry *)
  wk_channels : list channel;
  wk_requests : list drequest
}.

Definition worker_new : worker := mkWorker [] [] [] [].

Definition cached (w : worker) (k : nat) : option nat :=
  match find (fun x => fst x =? k) (wk_cache w) with Some (_, e) => Some e | None => None end.
Definition uncache (c : list (nat * nat)) (k : nat) : list (nat * nat) := filter (fun x => negb (fst x =? k)) c.

(** moka's [get_with(key, Default::default())] (impl_coordinator_channel.rs:32-35, impl_execute_task.rs:23-26):
    the cached entry, or a fresh one put into the cache. *)
Definition get_with (w : worker) (k : nat) : list entry * list (nat * nat) * nat :=
  match cached w k with
  | Some e => (wk_entries w, wk_cache w, e)
  | None => let e := List.length (wk_entries w) in (wk_entries w ++ [mkEntry None None], (k, e) :: wk_cache w, e)
  end.

(** task_data.rs:103-116 [plan]: the first caller's head decides. *)
Definition final_plan (base : plan) (final : option (plan + err)) (h : head) : plan + err :=
  match final with Some r => r | None => insert h base end.

Inductive worker_step : worker -> worker -> Prop :=
(** impl_coordinator_channel.rs:30-100: a plan arrives; building it gives [build]. *)
| set_plan w k build collect :
    worker_step w
      (let '(es, c, e) := get_with w k in
       mkWorker es c (wk_channels w ++ [mkChannel k e build collect Building]) (wk_requests w))
(** Lines 102-106. *)
| publish w i ch en :
    nth_error (wk_channels w) i = Some ch -> ch_phase ch = Building -> nth_error (wk_entries w) (ch_entry ch) = Some en ->
    worker_step w
      match en_value en with
      | Some _ => mkWorker (wk_entries w) (wk_cache w)
                    (upd (wk_channels w) i (mkChannel (ch_key ch) (ch_entry ch) (ch_build ch) (ch_collect ch) Rejected)) (wk_requests w)
      | None => mkWorker (upd (wk_entries w) (ch_entry ch) (mkEntry (Some (ch_build ch)) (en_final en))) (wk_cache w)
                  (upd (wk_channels w) i (mkChannel (ch_key ch) (ch_entry ch) (ch_build ch) (ch_collect ch)
                     match ch_build ch with inl _ => Listening | inr _ => BuildFailed end)) (wk_requests w)
      end
(** Lines 124-169: the coordinator's stream ended (or failed); metrics are sent only if the final plan is
    there. *)
| end_of_stream w i ch en :
    nth_error (wk_channels w) i = Some ch -> ch_phase ch = Listening -> nth_error (wk_entries w) (ch_entry ch) = Some en ->
    worker_step w
      (mkWorker (wk_entries w) (wk_cache w)
         (upd (wk_channels w) i (mkChannel (ch_key ch) (ch_entry ch) (ch_build ch) (ch_collect ch)
            (Finished match en_final en with Some (inl p) => if ch_collect ch then Some p else None | _ => None end)))
         (wk_requests w))
(** Line 170. *)
| invalidate w i ch sent :
    nth_error (wk_channels w) i = Some ch -> ch_phase ch = Finished sent ->
    worker_step w
      (mkWorker (wk_entries w) (uncache (wk_cache w) (ch_key ch))
         (upd (wk_channels w) i (mkChannel (ch_key ch) (ch_entry ch) (ch_build ch) (ch_collect ch) (Closed sent)))
         (wk_requests w))
(** impl_execute_task.rs:23-26. *)
| data_request w k h :
    worker_step w
      (let '(es, c, e) := get_with w k in
       mkWorker es c (wk_channels w) (wk_requests w ++ [mkDrequest k h e None]))
(** impl_execute_task.rs:30-37 with a value in the slot. *)
| answer_request w i r en base :
    nth_error (wk_requests w) i = Some r -> dr_answer r = None -> nth_error (wk_entries w) (dr_entry r) = Some en ->
    en_value en = Some (inl base) ->
    worker_step w
      (mkWorker (upd (wk_entries w) (dr_entry r) (mkEntry (en_value en) (Some (final_plan base (en_final en) (dr_head r)))))
         (wk_cache w) (wk_channels w)
         (upd (wk_requests w) i (mkDrequest (dr_key r) (dr_head r) (dr_entry r)
            (Some match final_plan base (en_final en) (dr_head r) with inl p => Plan p | inr e => Failed e end))))
(** impl_execute_task.rs:34: the plan could not be built. *)
| refuse_request w i r en e :
    nth_error (wk_requests w) i = Some r -> dr_answer r = None -> nth_error (wk_entries w) (dr_entry r) = Some en ->
    en_value en = Some (inr e) ->
    worker_step w
      (mkWorker (wk_entries w) (wk_cache w) (wk_channels w)
         (upd (wk_requests w) i (mkDrequest (dr_key r) (dr_head r) (dr_entry r) (Some (Failed e)))))
(** impl_execute_task.rs:30-33: ten seconds without a value; a non-deterministic step here. *)
| time_out w i r en :
    nth_error (wk_requests w) i = Some r -> dr_answer r = None -> nth_error (wk_entries w) (dr_entry r) = Some en ->
    en_value en = None ->
    worker_step w
      (mkWorker (wk_entries w) (wk_cache w) (wk_channels w)
         (upd (wk_requests w) i (mkDrequest (dr_key r) (dr_head r) (dr_entry r) (Some TimedOut))))
(** moka's time-to-idle eviction (worker_service.rs:12,31 [TASK_CACHE_TTI]); a non-deterministic step here. *)
| evict w k : worker_step w (mkWorker (wk_entries w) (uncache (wk_cache w) k) (wk_channels w) (wk_requests w)).

(** * The coordinator's metrics store *)

(** The worker and the coordinator's store (metrics_store.rs:20-28) with the plans the metrics belong to. *)
Record monitored := mkMonitored { mo_worker : worker; mo_store : list (nat * plan) }.
Definition monitored_new : monitored := mkMonitored worker_new [].

Inductive monitored_step : monitored -> monitored -> Prop :=
| worker_moves w w' store : worker_step w w' -> monitored_step (mkMonitored w store) (mkMonitored w' store)
(** query_coordinator.rs:228-265 [worker_to_coordinator_task]: the metrics message of a channel arrives. *)
| deliver w store i ch p :
    nth_error (wk_channels w) i = Some ch -> (ch_phase ch = Finished (Some p) \/ ch_phase ch = Closed (Some p)) ->
    monitored_step (mkMonitored w store) (mkMonitored w ((ch_key ch, p) :: store)).

(** distributed.rs:84-112 [wait_for_metrics] returns when the store has all expected keys. *)
Definition wait_returns (expected : list nat) (m : monitored) : bool :=
  forallb (fun k => existsb (fun x => fst x =? k) (mo_store m)) expected.
End Worker.
Arguments entry : clear implicits.
Arguments phase : clear implicits.
Arguments channel : clear implicits.
Arguments answer : clear implicits.
Arguments drequest : clear implicits.
Arguments worker : clear implicits.
Arguments monitored : clear implicits.
