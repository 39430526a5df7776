(** Property C96: a query whose result ended normally is complete, whatever failed on the way; a failure
    anywhere in the plan keeps its result from ending normally. *)
From Verif Require Import Base NetModel NetSpec NetProofs CiuModel CiuSpec CiuProofs EventsModel EventsSpec JoinModel JoinSpec PlannerModel
  PlannerSpec PlannerProofs ExecModel ExecSpec ExecProofs ExecPasses ExecEnd EventsProps ExecProps
  OrderModel OrderSpec OrderProofs OrderEnd OrderProps PoolModel PoolSpec PoolProofs PoolProps DemuxModel DemuxSpec DemuxProofs DemuxProps
  NetRunModel NetRunProofs NetRunDone NetRunProps FaultModel FaultSpec FaultProofs FaultEnd.

Lemma some_none {A} (o : nat -> option A) P : (~ forall p, p < P -> o p <> None) -> exists p, p < P /\ o p = None.
Proof.
  induction P as [|P IH]; intros H; [destruct H; intros p Hp; lia|]. destruct (o P) eqn:E; [|exists P; auto].
  destruct IH as (p & Hp & En); [|exists p; auto]. intros G. apply H. intros p Hp. destruct (Nat.eq_dec p P) as [->|]; [congruence|apply G; lia].
Qed.

Section Boundaries.
Context {row err : Type}.
Variables (budget capacity : nat) (bad : nat -> err).
Notation boundary_outcomes := (boundary_outcomes budget capacity bad).
Notation outcomes := (nat -> nat -> outcome row).

(** C96, shuffles. A partition of the input stage that fails keeps every partition of every consumer task from
    ending normally. *)
Theorem C96_shuffle_failures_reach_everyone (part : partitioning row) tasks P q data (below o : outcomes) n t p :
  t < tasks -> p < P -> below t p = None ->
  boundary_outcomes BShuffle part tasks P (fun t => SRepart (q t) (SOther P (data t))) below n o ->
  forall i j, i < n -> j < partition_count part -> o i j = None.
Proof.
  intros Ht Hp Hnone Ho i j Hi Hj. destruct (o i j) as [l|] eqn:El; [exfalso|reflexivity].
  destruct (outcome_reads _ _ _ _ _ _ _ _ _ _ _ _ _ _ Ho Hi Hj El) as (reqs & Ereq & H).
  destruct (shuffle_reaches part tasks (fun t => SRepart (q t) (SOther P (data t))) _ j reqs t p Ereq Ht Hp) as (r & plan & Hin & <- & E1 & E2).
  exact (H _ _ _ Hin E1 E2 Hnone).
Qed.

(** C96, broadcasts. A partition of the input stage that fails keeps the same partition of every consumer task
    from ending normally. *)
Theorem C96_broadcast_failures_reach_everyone (part : partitioning row) tasks P copies data (below o : outcomes) n t p :
  partition_count part = P -> t < tasks -> p < P -> below t p = None ->
  boundary_outcomes BBroadcast part tasks P (fun t => SBcast (copies t) (SOther P (data t))) below n o ->
  forall i, i < n -> o i p = None.
Proof.
  intros HP Ht Hp Hnone Ho i Hi. destruct (o i p) as [l|] eqn:El; [exfalso|reflexivity].
  destruct (outcome_reads _ _ _ _ _ _ _ _ _ _ _ i p _ Ho Hi ltac:(lia) El) as (reqs & Ereq & H).
  destruct (broadcast_reaches part tasks (fun t => SBcast (copies t) (SOther P (data t))) _ reqs t p (eq_sym HP) ltac:(lia) Ereq Ht)
    as (r & plan & Hin & <- & E1 & E2).
  exact (H _ _ _ Hin E1 E2 Hnone).
Qed.

(** C96, coalesces. A partition of the input stage that fails keeps the one partition of the consumer task that
    reads it from ending normally. *)
Theorem C96_coalesce_failures_are_seen (part : partitioning row) tasks P data (below o : outcomes) t p :
  partition_count part = P * tasks -> t < tasks -> p < P -> below t p = None ->
  boundary_outcomes BCoalesce part tasks P (fun t => SOther P (data t)) below 1 o ->
  o 0 (t * P + p) = None.
Proof.
  intros HP Ht Hp Hnone Ho. destruct (o 0 (t * P + p)) as [l|] eqn:El; [exfalso|reflexivity].
  assert (Hj : t * P + p < partition_count part) by (rewrite HP; nia).
  destruct (outcome_reads _ _ _ _ _ _ _ _ _ _ _ _ _ _ Ho Nat.lt_0_1 Hj El) as (reqs & Ereq & H).
  destruct (coalesce_reaches part tasks P (fun t => SOther P (data t)) (data t) reqs t p eq_refl HP Ht Hp Ereq)
    as (r & plan & Hin & <- & E1 & E2).
  exact (H _ _ _ Hin E1 E2 Hnone).
Qed.
End Boundaries.
Print Assumptions C96_shuffle_failures_reach_everyone.
Print Assumptions C96_broadcast_failures_reach_everyone.
Print Assumptions C96_coalesce_failures_are_seen.

Section Queries.
Context {row err : Type}.
Notation tree := (tree row).
Notation outcomes := (nat -> nat -> outcome row).
Variable acts : op row -> list row -> list row -> Prop.
Variables (budget capacity : nat) (bad : nat -> err).
Hypothesis Hbudget : 0 < budget.
Hypothesis Hcapacity : 0 < capacity.
Notation runs_with_failures := (runs_with_failures budget capacity bad acts false).
Variable cfg : settings row.
Variable most : nat.
Hypothesis Hmost : max_tasks cfg = Ok most.
Hypothesis Hstatic : dynamic_task_count cfg = false.
Hypothesis Htarget : 0 < target_partitions cfg.
Hypothesis Hsane : sane_handlers cfg.
Hypothesis Hleaf : leaf_handlers cfg.

Lemma planned_well t D d :
  typed (partial_reduce cfg) t (@Permutation row) D -> ordinary t -> fed t -> spreadable t ->
  is_round_robin t = false -> every_scan (faithful_scan cfg most) t -> fits most t ->
  create_distributed_plan cfg (TPlan t) = Ok (TDistributed d) -> well_cut d 1.
Proof using Hmost Hstatic Htarget Hsane Hleaf.
  intros Ht Ho Hf Hsp Hr Hs Hfits H.
  destruct (distribute_inv cfg most t _ (ordinary_no_net t Ho) Hstatic Hfits H)
    as (p & q & a & d0 & id & Hp & Hq & Hd0 & Np & Fp & Hres).
  eapply (distributed_well cfg most t p D d); eauto. eapply spreadable_placed; eauto.
Qed.

(** C96. [t] is a plan as in C48 and C89. It is distributed and executed over the network, and anything may
    fail in any of its stages. If the result ended normally nevertheless, in all its partitions, it has the
    rows of the original plan, executed in one process: no failure is mistaken for the end of the rows. *)
Theorem C96_ended_results_are_complete t D d :
  (forall o l out, acts o l out -> Permutation out (op_fun o l)) ->
  typed (partial_reduce cfg) t (@Permutation row) D -> ordinary t -> fed t -> spreadable t ->
  is_round_robin t = false -> every_scan (faithful_scan cfg most) t -> fits most t ->
  create_distributed_plan cfg (TPlan t) = Ok (TDistributed d) ->
  forall o g, runs_with_failures d 1 o -> (forall p, p < tparts d -> o 0 p <> None) -> delivers acts false t 1 g ->
    Permutation (all_rows d 1 (rows o)) (all_rows t 1 g).
Proof using Hbudget Hcapacity Hmost Hstatic Htarget Hsane Hleaf.
  intros Hacts Ht Ho Hf Hsp Hr Hs Hfits H o g Hrun He Hg.
  refine (C89_query_over_the_network acts budget capacity bad Hbudget Hcapacity cfg most Hmost Hstatic Htarget Hsane Hleaf
    t D (TDistributed d) Hacts Ht Ho Hf Hsp Hr Hs Hfits H (rows o) g _ Hg).
  apply failure_free; [eapply planned_well; eauto|exact Hrun|]. intros i Hi. assert (i = 0) as -> by lia. exact He.
Qed.

(** C96. If some partition of some scan of some stage cannot be read in a task that executes it, some
    partition of the result does not end normally. *)
Theorem C96_unreadable_scans_fail_the_query t D d :
  typed (partial_reduce cfg) t (@Permutation row) D -> ordinary t -> fed t -> spreadable t ->
  is_round_robin t = false -> every_scan (faithful_scan cfg most) t -> fits most t ->
  create_distributed_plan cfg (TPlan t) = Ok (TDistributed d) ->
  forall o, runs_with_failures d 1 o -> ~ readable false d 1 -> exists p, p < tparts d /\ o 0 p = None.
Proof using Hmost Hstatic Htarget Hsane Hleaf.
  intros Ht Ho Hf Hsp Hr Hs Hfits H o Hrun Hread. clear Hbudget Hcapacity. apply some_none. intros He. apply Hread.
  eapply delivered_readable, failure_free; [eapply planned_well; eauto|exact Hrun|]. intros i Hi. assert (i = 0) as -> by lia. exact He.
Qed.

(** C96. The executions of C89, in which nothing fails, are executions of this model. *)
Theorem C96_undisturbed_executions (t : tree) n f :
  delivers_networked budget capacity bad acts false t n f -> runs_with_failures t n (fun i p => Some (f i p)).
Proof. apply undisturbed. Qed.
End Queries.
Print Assumptions C96_ended_results_are_complete.
Print Assumptions C96_unreadable_scans_fail_the_query.
Print Assumptions C96_undisturbed_executions.

(** The query of [C89_case] executed over the network without failures: the hypotheses of
    [C96_ended_results_are_complete] are those of [C89_case] and these. *)
Example C96_case :
  runs_with_failures 1 1 (fun _ => "bad"%string) Case.exactly false Through.distributed 1
    (fun i p => Some (Case.outcome i p)) /\
  (forall p, p < tparts Through.distributed -> Some (Case.outcome 0 p) <> None) /\
  Permutation (all_rows Through.distributed 1 (rows (fun i p => Some (Case.outcome i p)))) [0; 4; 8].
Proof.
  split; [apply C96_undisturbed_executions; apply C89_plans_over_the_network; [lia|lia|]; apply Case.executed|].
  split; [discriminate|]. apply C89_case.
Qed.

(** A shuffle from two tasks, of which the second fails after its first row. The pool gives both streams to
    the consumer, which sees the row and the error. *)
Module Broken.
Import String.
Local Open Scope string_scope.
Definition below (t p : nat) : outcome nat := match t with 0 => Some [0; 2] | _ => None end.
Definition producer (t : nat) : splan nat := SRepart (HashP (fun x => x) 1) (SOther 1 (rows below t)).
Definition sources (t : nat) : list (list (@item (list nat) + string)) :=
  match t with
  | 0 => [[inl (mkItem [0; 2] 16)]]
  | _ => [[inl (mkItem [1] 8); inr "disk"]]
  end.
Definition call (t : nat) : request nat := mkReq 0 1 t 0 (HRepartition (HashP (fun x => x) 1)).

Lemma pool_used : exists pl : pool nat (nat * nat) string,
  pool_reachable 2 2 pl /\
  pl_calls pl = [(call 0, Some (Got 0 0 (0, 0))); (call 1, Some (Got 1 0 (1, 0)))] /\
  pl_answers pl = [(0, inl [(0, 0)]); (1, inl [(1, 0)])] /\ pl_issued pl = [call 0; call 1].
Proof.
  eexists. split; [|split; [|split]].
  - unfold pool_reachable, pool_new. cbn [repeat].
    eapply steps_trans; [apply steps_one; apply (call_step 2 _ (call 0))|cbn].
    eapply steps_trans; [apply steps_one; apply (call_step 2 _ (call 1))|cbn].
    eapply steps_trans; [apply steps_one; apply (resolve_step 2 _ 0 (call 0) (inl [(0, 0)])); reflexivity|cbn].
    eapply steps_trans; [apply steps_one; apply (resolve_step 2 _ 1 (call 1) (inl [(1, 0)])); reflexivity|cbn].
    eapply steps_trans; [apply steps_one; eapply (poll_step 2 _ 0); reflexivity|cbn].
    eapply steps_trans; [apply steps_one; eapply (poll_step 2 _ 1); reflexivity|cbn].
    apply steps_refl.
  - reflexivity.
  - reflexivity.
  - reflexivity.
Qed.
End Broken.

Example C96_broken_case :
  Broken.below 1 0 = None /\
  boundary_outcomes 1 1 (fun _ => "bad"%string) BShuffle (HashP (fun x => x) 1) 2 1 Broken.producer Broken.below 1 (fun _ _ => None).
Proof.
  split; [reflexivity|]. intros i Hi. assert (i = 0) as -> by lia. destruct Broken.pool_used as (pl & Hr & Hc & Ha & Hiss).
  exists (mkNodeNet pl Broken.sources (fun t => InProcess (map (fun s => (s, true)) (Broken.sources t)))).
  split; [|split]; [constructor| |discriminate]; cbn [nn_pool nn_sources nn_link].
  - exact Hr.
  - eexists. split; [reflexivity|]. rewrite Hc. cbn. reflexivity.
  - rewrite Ha. intros t l [[= <- <-]|[[= <- <-]|[]]].
    + exists (Broken.call 0). rewrite Hiss. repeat split; [now left| |].
      * eexists. split; [vm_compute; reflexivity|]. repeat constructor.
      * repeat constructor. exists []. now rewrite app_nil_r.
    + exists (Broken.call 1). rewrite Hiss. repeat split; [right; now left| |].
      * eexists. split; [vm_compute; reflexivity|]. constructor; [|constructor]. intros E. destruct (E "disk"%string). right. now left.
      * repeat constructor. exists []. now rewrite app_nil_r.
  - intros r Hin _ j s plan p Hj He Hplan Hp. cbn [nn_pool nn_sources] in *. rewrite Hiss in Hin. destruct Hin as [<-|[<-|[]]]; [discriminate|].
    exfalso. destruct j as [|[|]]; try discriminate. injection Hj as <-. apply (He "disk"%string). right. now left.
Qed.

(** A boundary none of whose connections can be made. *)
Lemma calls_made {row stream err : Type} workers n (reqs : list (request row)) : exists pl : pool row stream err,
  pool_reachable workers n pl /\ map fst (pl_calls pl) = reqs /\ pl_answers pl = [].
Proof.
  induction reqs as [|r reqs (pl & H1 & H2 & H3)] using rev_ind; [exists (pool_new n); repeat split; apply steps_refl|].
  exists (pool_call workers pl r). split; [eapply steps_trans; [exact H1|apply steps_one, call_step]|].
  unfold pool_call. destruct (workers <=? rq_task r); [cbn; rewrite map_app, H2; auto|].
  destruct (nth_error (pl_slots pl) (rq_task r)) as [[]|]; cbn; rewrite map_app, H2; auto.
Qed.
Lemma all_down {row err : Type} budget capacity (bad : nat -> err) b (part : partitioning row) tasks P producers below n :
  (forall i, i < n -> exists calls, mapM (boundary_requests b part tasks (mkCtx i n)) (seq 0 (partition_count part)) = Ok calls) ->
  boundary_outcomes budget capacity bad b part tasks P producers below n (fun _ _ => None).
Proof.
  intros H i Hi. destruct (H i Hi) as (calls & Hc).
  destruct (@calls_made row (nat * nat) err tasks tasks (List.concat calls)) as (pl & H1 & H2 & H3).
  exists (mkNodeNet pl (fun _ => []) (fun _ => Refused (bad 0) [])). split; [constructor; cbn|split; [|discriminate]].
  - exact H1.
  - exists calls. split; [exact Hc|]. now rewrite H2.
  - rewrite H3. intros t l [].
  - intros r _ Hr. cbn in Hr. destruct (Hr _ _ eq_refl).
Qed.

(** SELECT DISTINCT on two files that are gone: the hypotheses of [C96_unreadable_scans_fail_the_query]. *)
Module Gone.
Import Ex.
Definition gone : leaf nat := mkLeaf 1 5 (fun _ => Err "gone"%string).
Definition split (t : tree nat) (s : nat) : option (Res (tree nat)) :=
  match t with
  | Node (KLeaf (LScan l)) [] =>
      Some (match dle_try_new l (repeat l s) with
            | Ok d => Ok (Node (KLeaf (LTasks d)) [])
            | Err e => Err e
            | Panic e => Panic e
            end)
  | _ => None
  end.
Definition cfg : settings nat :=
  mkSettings true true false false 0 (CiuModel.f64_div (f64_of_nat 3) (f64_of_nat 2)) 4 (Ok 2)
    wanted split (fun _ => EEqual) 77.
Definition query : tree nat := Node (KOp distinct) [Node (KRepart (HashP (fun x => x) 2)) [Node (KLeaf (LScan gone)) []]].
Definition scan_of_tasks : leaf_node nat := LTasks (mkDle gone 1 [gone; gone]).
Definition distributed : tree nat := Node (KCoalesce None None)
  [Net BCoalesce (UnknownP 4) 77 2 2
    (Node (KOp distinct) [Net BShuffle (HashP (fun x => x) 2) 77 1 2
       (Node (KRepart (HashP (fun x => x) 4)) [Node (KLeaf scan_of_tasks) []])])].

Lemma leaves : leaf_handlers cfg.
Proof.
  intros t n q E. cbn [cfg scale_up_leaf] in E. unfold split in E.
  destruct t as [[[l|]| | | | | |] []| |]; try discriminate. destruct (dle_try_new _ _); try discriminate.
  injection E as <-. eauto.
Qed.
Lemma sane : sane_handlers cfg.
Proof.
  intros t a E. cbn [cfg desired_task_count] in E. unfold wanted in E.
  destruct t as [[]| |]; injection E; intros; subst; cbn; lia || discriminate.
Qed.
Lemma scans : faithful_scan cfg 2 (LScan gone).
Proof.
  intros s q Hs _ E. unfold scaled in E. cbn [cfg scale_up_leaf split] in E.
  assert (Ed : dle_try_new gone (repeat gone s) = Ok (mkDle gone 1 (repeat gone s))).
  { destruct s as [|[|[|s]]]; [lia|reflexivity|reflexivity|lia]. }
  rewrite Ed in E. injection E as <-. eexists. split; [reflexivity|]. split; [reflexivity|].
  intros remote f n H. exfalso. destruct H as (fs & _ & H). cbn in H. destruct fs; [|exact H].
  assert (Hn : 0 < n) by (subst n; destruct remote; lia). specialize (H 0 0 Hn Nat.lt_0_1).
  cbn in H. destruct remote.
  - destruct H as (v & Ev & Hv). unfold dle_to_task_specialized in Ev. cbn in Ev. destruct s; [lia|]. cbn in Ev. injection Ev as <-. discriminate.
  - subst n. unfold dle_execute in H. cbn in H. discriminate.
Qed.
End Gone.

Example C96_gone_case :
  max_tasks Gone.cfg = Ok 2 /\ dynamic_task_count Gone.cfg = false /\ 0 < target_partitions Gone.cfg /\
  sane_handlers Gone.cfg /\ leaf_handlers Gone.cfg /\
  typed (partial_reduce Gone.cfg) Gone.query (@Permutation nat) Anyhow /\ ordinary Gone.query /\ fed Gone.query /\
  spreadable Gone.query /\ is_round_robin Gone.query = false /\
  every_scan (faithful_scan Gone.cfg 2) Gone.query /\ fits 2 Gone.query /\
  create_distributed_plan Gone.cfg (TPlan Gone.query) = Ok (TDistributed Gone.distributed) /\
  ~ readable false Gone.distributed 1 /\
  runs_with_failures 1 1 (fun _ => "bad"%string) Case.exactly false Gone.distributed 1 (fun _ _ => None).
Proof.
  split; [reflexivity|]. split; [reflexivity|]. split; [cbn; lia|]. split; [apply Gone.sane|]. split; [apply Gone.leaves|]. split.
  { refine (ty_keyed _ Ex.distinct _ (fun x => x) 2 _ _ Anyhow _ eq_refl perm_additive Logic.I Ex.distinct_keyed Logic.I).
    eapply ty_hash; [lia|constructor]. }
  split; [cbn; repeat constructor|]. split; [cbn; repeat split; repeat constructor; discriminate|].
  split; [cbn; repeat split; repeat constructor; cbn; lia|]. split; [reflexivity|].
  split; [cbn; repeat constructor; apply Gone.scans|]. split; [vm_compute; repeat constructor|].
  split; [vm_compute; reflexivity|]. split.
  - cbn. intros [_ H]. apply Forall_inv in H as [_ H]. apply Forall_inv in H as [_ H]. apply Forall_inv in H as [H _].
    destruct (H 0 0) as (rows & v & Ev & Hv); [lia|lia|]. injection Ev as <-. discriminate.
  - assert (N : forall n P (o : nat -> nat -> outcome nat) (Q : Prop), 0 < n -> 0 < P -> all_ended n P (fun _ _ => @None (list nat)) -> Q).
    { intros n P _ Q Hn HP H. destruct (H 0 Hn 0 HP eq_refl). }
    assert (E : forall P (Q : Prop), 0 < P -> ended P (fun _ => @None (list nat)) -> Q) by (intros P Q HP H; destruct (H 0 HP eq_refl)).
    exists [fun _ _ => None]. split; [|split; [intros i Hi; apply E; cbn; lia|apply (N 1); [exact (fun _ _ => None)|lia|cbn; lia]]].
    constructor; [|constructor]. exists (fun _ _ => None). split.
    + exists [fun _ _ => None]. split; [|split; [intros i Hi; apply E; cbn; lia|apply (N 2); [exact (fun _ _ => None)|lia|cbn; lia]]].
      constructor; [|constructor]. exists (fun _ _ => None). split.
      * exists []. split; [constructor|]. split; [intros i Hi; apply E; cbn; lia|apply (N 2); [exact (fun _ _ => None)|lia|cbn; lia]].
      * apply all_down. intros i Hi. Through.cases_below i; eexists; vm_compute; reflexivity.
    + apply all_down. intros i Hi. Through.cases_below i; eexists; vm_compute; reflexivity.
Qed.
