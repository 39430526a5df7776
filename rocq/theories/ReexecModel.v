(** Executing one distributed plan several times, one after another or at the same time.
    Source: coordinator/distributed.rs:84-112, 178-246, coordinator/prepare_static_plan.rs:20-63,
    coordinator/prepare_dynamic_plan.rs:28-137, coordinator/query_coordinator.rs:102-223, 228-266,
    coordinator/metrics_store.rs:20-28, distributed_planner/prepare_network_boundaries.rs:13-50,
    distributed_planner/inject_network_boundaries.rs:150-160, and the workers' registries ([TaskModel]). *)
From Verif Require Import Base CiuModel TaskModel.

Section Site.
Context {plan head err : Type}.
Variable insert : head -> plan -> plan + err.
Notation worker := (worker plan head err).

(** Setting [dynamic_task_count] (distributed.rs:207-210). *)
Variable dynamic : bool.
(** The keys (query, stage, task) of the tasks of the plan, made when the query is planned
    (prepare_network_boundaries.rs:18, 43-46). *)
Variable planned : list nat.
(** The plan that a run sends for a task (query_coordinator.rs:136-187). *)
Variable task_plan : nat -> nat -> plan.
(** Setting [collect_metrics], read by the workers (impl_coordinator_channel.rs:59, 92-95). *)
Variable collects : bool.

(** One call of [DistributedExec::execute]: the keys of its tasks; whether its end was signalled (line 241, or the result was
    dropped); its result once the caller has the end of the stream. *)
Record run := mkRun { ru_keys : list nat; ru_over : bool; ru_result : option bool }.

(** The background task that sends the plan of one task and reads the worker's answers (query_coordinator.rs:189-220): its
    channel at the worker once the plan arrived there; once it ended, whether it ended well. *)
Record call := mkCall { ca_run : nat; ca_key : nat; ca_url : nat; ca_chan : option nat; ca_done : option bool }.

(** A data request of a run: worker, number of the request there. *)
Record ask := mkAsk { as_run : nat; as_url : nat; as_req : nat }.

Record site := mkSite {
  si_workers : list worker;
  si_runs : list run;
  si_calls : list call;
  si_asks : list ask;
  si_metrics : list (nat * nat)     (* the plan's metrics store: key and the run whose worker sent them *)
}.
Definition site_new (n : nat) : site := mkSite (repeat worker_new n) [] [] [] [].

(** impl_coordinator_channel.rs:30-100, the step [set_plan] of [TaskModel]. *)
Definition take_plan (w : worker) (k : nat) (build : plan + err) : worker :=
  let '(es, c, e) := get_with w k in
  mkWorker es c (wk_channels w ++ [mkChannel k e build collects Building]) (wk_requests w).
(** impl_execute_task.rs:23-26, the step [data_request] of [TaskModel]. *)
Definition take_request (w : worker) (k : nat) (h : head) : worker :=
  let '(es, c, e) := get_with w k in
  mkWorker es c (wk_channels w) (wk_requests w ++ [mkDrequest k h e None]).

(** What the caller gets to know from a channel (impl_coordinator_channel.rs:102-106, 174-197): an error; or the end of the
    answers, which comes when the metrics were sent, or at once if none are collected. The load reports, which must end too, are
    left out (C65). *)
Definition reply (ch : channel plan err) : option bool :=
  match ch_phase ch with
  | Building => None
  | Rejected | BuildFailed => Some false
  | Listening => if ch_collect ch then None else Some true
  | Finished _ | Closed _ => Some true
  end.

(** The metrics a channel sent. *)
Definition metrics_sent (ch : channel plan err) : option plan :=
  match ch_phase ch with Finished s | Closed s => s | _ => None end.

(** The stream that channel [j] of worker [u] reads is over: its run was ended, or the connection is lost. *)
Definition stream_over (s : site) (u j : nat) : Prop :=
  exists c r, In c (si_calls s) /\ ca_url c = u /\ ca_chan c = Some j /\ nth_error (si_runs s) (ca_run c) = Some r /\
    (ru_over r = true \/ ca_done c = Some false).

Inductive site_step : site -> site -> Prop :=
(** distributed.rs:204-224: a run starts. With [dynamic_task_count] the network boundaries are made anew, with a new query id
    (inject_network_boundaries.rs:156; [Uuid::new_v4] gives a new one each time); otherwise those of the plan are used
    (prepare_static_plan.rs:31-46). The tasks are routed anew (query_coordinator.rs:112-134). *)
| start_run s keys urls :
    (if dynamic then NoDup keys /\ forall r k, In r (si_runs s) -> In k keys -> ~ In k (ru_keys r) else keys = planned) ->
    List.length urls = List.length keys -> (forall u, In u urls -> u < List.length (si_workers s)) ->
    site_step s (mkSite (si_workers s) (si_runs s ++ [mkRun keys false None])
      (si_calls s ++ map (fun ku => mkCall (List.length (si_runs s)) (fst ku) (snd ku) None None) (combine keys urls))
      (si_asks s) (si_metrics s))
(** query_coordinator.rs:203-211: the plan reaches the worker, where building it may fail. *)
| arrive s i c w build :
    nth_error (si_calls s) i = Some c -> ca_chan c = None -> nth_error (si_workers s) (ca_url c) = Some w ->
    (build = inl (task_plan (ca_run c) (ca_key c)) \/ exists e, build = inr e) ->
    site_step s (mkSite (upd (si_workers s) (ca_url c) (take_plan w (ca_key c) build)) (si_runs s)
      (upd (si_calls s) i (mkCall (ca_run c) (ca_key c) (ca_url c) (Some (List.length (wk_channels w))) (ca_done c)))
      (si_asks s) (si_metrics s))
(** A worker goes on: it publishes a plan, answers requests, ends and forgets channels, evicts idle entries. It goes on after
    the loop over the coordinator's messages only when these are over. *)
| work s u w w' :
    nth_error (si_workers s) u = Some w -> worker_step insert w w' ->
    List.length (wk_channels w') = List.length (wk_channels w) -> List.length (wk_requests w') = List.length (wk_requests w) ->
    (forall j ch, nth_error (wk_channels w) j = Some ch -> ch_phase ch = Listening -> ~ stream_over s u j ->
       nth_error (wk_channels w') j = Some ch) ->
    site_step s (mkSite (upd (si_workers s) u w') (si_runs s) (si_calls s) (si_asks s) (si_metrics s))
(** A data request of a run for one of its tasks arrives, from the head stage or from another worker. *)
| request s c w h :
    In c (si_calls s) -> nth_error (si_workers s) (ca_url c) = Some w ->
    site_step s (mkSite (upd (si_workers s) (ca_url c) (take_request w (ca_key c) h)) (si_runs s) (si_calls s)
      (si_asks s ++ [mkAsk (ca_run c) (ca_url c) (List.length (wk_requests w))]) (si_metrics s))
(** query_coordinator.rs:203-217: the call ends, or the worker cannot be reached or is lost. *)
| hear s i c w j ch ok :
    nth_error (si_calls s) i = Some c -> ca_done c = None -> ca_chan c = Some j ->
    nth_error (si_workers s) (ca_url c) = Some w -> nth_error (wk_channels w) j = Some ch -> reply ch = Some ok ->
    site_step s (mkSite (si_workers s) (si_runs s)
      (upd (si_calls s) i (mkCall (ca_run c) (ca_key c) (ca_url c) (ca_chan c) (Some ok))) (si_asks s) (si_metrics s))
| lose s i c :
    nth_error (si_calls s) i = Some c -> ca_done c = None ->
    site_step s (mkSite (si_workers s) (si_runs s)
      (upd (si_calls s) i (mkCall (ca_run c) (ca_key c) (ca_url c) (ca_chan c) (Some false))) (si_asks s) (si_metrics s))
(** distributed.rs:235-241: the rows are over, or nobody wants them. *)
| rows_over s x r :
    nth_error (si_runs s) x = Some r ->
    site_step s (mkSite (si_workers s) (upd (si_runs s) x (mkRun (ru_keys r) true (ru_result r))) (si_calls s) (si_asks s) (si_metrics s))
(** distributed.rs:242-243 with query_coordinator.rs:102-108: the caller gets the end of the result. *)
| end_run s x r :
    nth_error (si_runs s) x = Some r -> ru_over r = true -> ru_result r = None ->
    (forall c, In c (si_calls s) -> ca_run c = x -> ca_done c <> None) ->
    site_step s (mkSite (si_workers s)
      (upd (si_runs s) x (mkRun (ru_keys r) true
         (Some (forallb (fun c => negb (ca_run c =? x) || match ca_done c with Some ok => ok | None => false end) (si_calls s)))))
      (si_calls s) (si_asks s) (si_metrics s))
(** query_coordinator.rs:228-252: metrics of a task arrive, in a task of their own that may outlive the run. *)
| store s c w j ch p :
    In c (si_calls s) -> ca_chan c = Some j -> nth_error (si_workers s) (ca_url c) = Some w ->
    nth_error (wk_channels w) j = Some ch -> metrics_sent ch = Some p -> ca_done c <> Some false ->
    site_step s (mkSite (si_workers s) (si_runs s) (si_calls s) (si_asks s) ((ca_key c, ca_run c) :: si_metrics s)).

(** metrics_store.rs:20-30: what the store has for a key, the latest insertion. *)
Definition stored (s : site) (k : nat) : option nat :=
  match find (fun x => fst x =? k) (si_metrics s) with Some (_, x) => Some x | None => None end.
(** distributed.rs:84-112 [wait_for_metrics] of run [x] returns. *)
Definition wait_over (s : site) (x : nat) : bool :=
  match nth_error (si_runs s) x with
  | Some r => forallb (fun k => match stored s k with Some _ => true | None => false end) (ru_keys r)
  | None => false
  end.
End Site.
Arguments site : clear implicits.
