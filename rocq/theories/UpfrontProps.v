(** C105: a query whose task counts were chosen when the plan was made is sent out as a whole. *)
From Verif Require Import Base NetModel CiuModel EventsModel JoinModel PlannerModel PlannerSpec PlannerProps ExecProps DynModel DynProps
  StagewiseModel StagewiseSpec StagewiseProofs UpfrontModel UpfrontSpec UpfrontProofs UpfrontNums.
Open Scope nat_scope.

Section C105.
Context {row : Type}.
Notation tree := (tree row).
Variable routed : list nat -> Res unit.
Variable sent : list nat -> nat -> Res unit.
Notation prepare := (prepare_static routed sent).

(** C105. If the sending does not fail, all stages of the plan were sent, in all their tasks. *)
Theorem C105_all_sent (p : tree) log : prepare p = (log, Ok tt) ->
  forall q num b tasks, net_at [] p q num b tasks -> sent_whole log q num b tasks.
Proof.
  intros H. pose proof (static_fair routed sent p []) as F. unfold fair_tree in F.
  unfold prepare_static in H. rewrite H in F. exact (f_all _ _ _ _ _ _ F eq_refl).
Qed.

(** In any case, whatever happens at a stage happens after all stages below it were sent in all their
    tasks; tasks are sent after workers were chosen; nothing is sampled. *)
Theorem C105_inputs_first (p : tree) log r : prepare p = (log, r) ->
  forall before e after, log = before ++ e :: after ->
  (forall q num b tasks, net_at [] p q num b tasks -> under q (place e) -> sent_whole before q num b tasks) /\
  match e with
  | Routed _ _ _ _ => True
  | Sent q num task => exists b tasks, In (Routed q num b tasks) before /\ task < tasks
  | Sampled _ _ => False
  end.
Proof.
  intros H before e after E. pose proof (static_fair routed sent p []) as F. unfold fair_tree in F.
  unfold prepare_static in H. rewrite H in F. split.
  - exact (f_order _ _ _ _ _ _ F before e after E).
  - destruct e as [q num b ts|q num i|q num]; [exact Logic.I|exact (f_first _ _ _ _ _ _ F before q num i after E)|].
    apply (f_never _ _ _ _ _ _ F q num). cbn [fst]. rewrite E. apply in_or_app. right. left. reflexivity.
Qed.

(** Only stages of the plan are sent, with their numbers and task counts, each once, each task once. *)
Theorem C105_once (p : tree) log r : prepare p = (log, r) ->
  (forall q num b tasks, In (Routed q num b tasks) log -> net_at [] p q num b tasks) /\
  NoDup (places log) /\ NoDup log.
Proof.
  intros H. pose proof (static_fair routed sent p []) as F. unfold fair_tree in F.
  unfold prepare_static in H. rewrite H in F.
  split; [exact (f_stage _ _ _ _ _ _ F)|]. split; [exact (f_places _ _ _ _ _ _ F)|exact (f_once _ _ _ _ _ _ F)].
Qed.

(** An error is that of routing a stage or of sending a task of it, and nothing is sent after it: the log
    ends with the tasks of that stage that were sent before. *)
Theorem C105_stops (p : tree) log r : prepare p = (log, r) -> r <> Ok tt ->
  stopped_by routed sent (net_at [] p) log r.
Proof.
  intros H Hr. pose proof (static_fair routed sent p []) as F. unfold fair_tree in F.
  unfold prepare_static in H. rewrite H in F. exact (f_why _ _ _ _ _ _ F Hr).
Qed.

(** Without such an error it does not fail. *)
Theorem C105_succeeds (p : tree) : (forall a, routed a = Ok tt) -> (forall a i, sent a i = Ok tt) ->
  snd (prepare p) = Ok tt.
Proof. intros Hr Hs. exact (send_ok routed sent Hr Hs p). Qed.

(** For a plan of the planner, stages are sent in the order of their numbers, which start with 1: what was
    sent when a failure ends it are the stages up to some number. So no two tasks go by the same stage
    number and task number. *)
Theorem C105_numbers (cfg : settings row) (t p : tree) log r :
  create_distributed_plan cfg (TPlan t) = Ok (TDistributed p) -> dynamic_task_count cfg = false ->
  prepare p = (log, r) ->
  (exists k, numbers log = seq 1 k /\ k <= List.length (stage_nums p) /\
     (r = Ok tt -> k = List.length (stage_nums p))) /\
  forall q q' num i, In (Sent q num i) log -> In (Sent q' num i) log -> q = q'.
Proof.
  intros Hc Hd H. destruct (C13_final_plan_numbered cfg t p Hc Hd) as (Hn & _ & _).
  destruct (static_starts routed sent p []) as (rest & E & O). unfold prepare_static in H. rewrite H in E, O. cbn [fst snd] in E, O.
  assert (L : List.length (stage_nums p) = List.length (numbers log) + List.length rest) by (rewrite E, app_length; reflexivity).
  assert (S : numbers log = seq 1 (List.length (numbers log))).
  { rewrite Hn, L, seq_app in E. symmetry in E. apply same_front in E; [exact E|rewrite seq_length; reflexivity]. }
  split.
  - exists (List.length (numbers log)). split; [exact S|]. split; [lia|]. intros R. rewrite L, (O R). cbn. lia.
  - intros q q' num i A B.
    assert (F : forall x, In (Sent x num i) log -> exists b tasks, In (Routed x num b tasks) log).
    { intros x X. apply in_split in X as (l1 & l2 & X).
      destruct (proj2 (C105_inputs_first p log r H l1 _ l2 X)) as (b & ts & Y & _). exists b, ts. rewrite X. apply in_or_app. left. exact Y. }
    destruct (F q A) as (b & ts & A'), (F q' B) as (b' & ts' & B').
    apply (numbers_unique log) with (num := num) (b := b) (b' := b') (ts := ts) (ts' := ts'); [rewrite S; apply seq_NoDup|exact A'|exact B'].
Qed.
End C105.
Print Assumptions C105_all_sent.
Print Assumptions C105_inputs_first.
Print Assumptions C105_once.
Print Assumptions C105_stops.
Print Assumptions C105_succeeds.
Print Assumptions C105_numbers.

(** The join of DynProps, with its stages: all of it is sent; or the worker of the second task of the
    shuffled side cannot be reached, and the stage above is not sent. *)
Module UpfrontEx.
Definition plan := Eval vm_compute in number DynProps.Ex.dyn DynProps.Ex.num [] DynProps.Ex.injected.
Definition fine (_ : list nat) : Res unit := Ok tt.
Definition fine_task (_ : list nat) (_ : nat) : Res unit := Ok tt.
Definition failing (a : list nat) (i : nat) : Res unit :=
  match a, i with [0; 1; _; _], 1 => Err "unreachable" | _, _ => Ok tt end.
Definition short (e : event) : list nat * nat * nat :=
  match e with Routed a n _ t => (a, n, t) | Sent a n i => (a, n, 100 + i) | Sampled a n => (a, n, 999) end.
Example ex_all : let r := prepare_static fine fine_task plan in
  map short (fst r) =
    [([0; 0; 0; 0], 156, 3); ([0; 0; 0; 0], 156, 100); ([0; 0; 0; 0], 156, 101); ([0; 0; 0; 0], 156, 102);
     ([0; 1; 0; 0], 181, 3); ([0; 1; 0; 0], 181, 100); ([0; 1; 0; 0], 181, 101); ([0; 1; 0; 0], 181, 102);
     ([0], 1, 1); ([0], 1, 100)] /\ snd r = Ok tt.
Proof. vm_compute. split; reflexivity. Qed.
Example ex_failing : let r := prepare_static fine failing plan in
  map short (fst r) =
    [([0; 0; 0; 0], 156, 3); ([0; 0; 0; 0], 156, 100); ([0; 0; 0; 0], 156, 101); ([0; 0; 0; 0], 156, 102);
     ([0; 1; 0; 0], 181, 3); ([0; 1; 0; 0], 181, 100)] /\ snd r = Err "unreachable" /\ snd r <> Ok tt.
Proof. vm_compute. repeat split; discriminate. Qed.
(** A plan of the planner, with stages 1 and 2 of three tasks each; task 2 of stage 2 cannot be sent. *)
Definition grouped := Eval vm_compute in PlannerProps.Ex.result (PlannerProps.Ex.cfg true true 3) PlannerProps.Ex.grouped.
Definition failing' (a : list nat) (i : nat) : Res unit :=
  match a, i with [0], 2 => Err "unreachable" | _, _ => Ok tt end.
Example ex_planned :
  create_distributed_plan (PlannerProps.Ex.cfg true true 3) (TPlan PlannerProps.Ex.grouped) = Ok (TDistributed grouped) /\
  dynamic_task_count (PlannerProps.Ex.cfg true true 3) = false /\
  numbers (fst (prepare_static fine fine_task grouped)) = [1; 2] /\
  List.length (fst (prepare_static fine fine_task grouped)) = 8 /\
  map short (fst (prepare_static fine failing' grouped)) =
    [([0; 0; 0], 1, 3); ([0; 0; 0], 1, 100); ([0; 0; 0], 1, 101); ([0; 0; 0], 1, 102);
     ([0], 2, 3); ([0], 2, 100); ([0], 2, 101)].
Proof. vm_compute. repeat split. Qed.
End UpfrontEx.
