(** Properties C100, C89 and C98: plans with boundaries placed by the user over the network, with failures
    and abandoned reads; plans that can be executed at all can be executed over the network. *)
From Verif Require Import Base NetModel NetSpec NetProofs CiuModel CiuSpec CiuProofs EventsModel EventsSpec EventsProps JoinModel JoinSpec PlannerModel
  PlannerSpec PlannerProofs ExecModel ExecSpec ExecProofs ExecPasses ExecEnd ExecProps RunSpec RunProofs RunProps
  OrderModel OrderSpec OrderProofs OrderEnd OrderProps PoolModel PoolSpec PoolProofs PoolProps DemuxModel DemuxSpec DemuxProofs DemuxProps
  NetRunModel NetRunProofs NetRunDone NetRunProps FaultModel FaultSpec FaultProofs FaultEnd FaultProps CutModel CutProofs CutProps
  AnswerSpec AnswerProofs SitedModel SitedSpec SitedProofs SitedProps SitedNetSpec SitedNetProofs.

Section Props.
Context {row err : Type}.
Notation tree := (tree row).
Notation table := (nat -> nat -> list row).
Notation outcomes := (nat -> nat -> outcome row).
Notation readings := (nat -> nat -> reading row).
Variable acts : op row -> list row -> list row -> Prop.
Variables (budget capacity : nat) (bad : nat -> err).
Hypothesis Hbudget : 0 < budget.
Hypothesis Hcapacity : 0 < capacity.
Notation over_the_network := (delivers_networked budget capacity bad acts false).
Notation runs_with_failures := (runs_with_failures budget capacity bad acts false).
Notation runs_so_far := (runs_so_far budget capacity bad acts false).

(** C89. A plan that can be executed, its boundaries read without a network, can be executed over the
    network: no connection, demultiplexer or stream is stuck for want of rows. *)
Theorem C89_can_run_over_the_network (t : tree) n f :
  always_answers acts -> answerable t -> runs false t n f -> exists f', over_the_network t n f'.
Proof using Hbudget Hcapacity.
  intros Ha Ht Hf. destruct (can_deliver acts Ha t false n f Ht Hf) as (f' & Hf'). exists f'. now apply C89_plans_over_the_network.
Qed.

Variable cfg : settings row.
Hypothesis Hacts : forall o l out, acts o l out -> Permutation out (op_fun o l).

Lemma delivered_runs (d : tree) f : delivers acts false d 1 f -> runs false d 1 f.
Proof using Hacts. exact (delivers_runs acts (fun _ => None) true d (always_serves acts Hacts d) false 1 f). Qed.

(** C100 over the network: executed with all its boundaries read over connections, the plan has the rows of
    the plan without boundaries. *)
Theorem C100_over_the_network t D r :
  sited cfg 1 t (@Permutation row) D -> has_net t = true -> create_distributed_plan cfg (TPlan t) = Ok r ->
  exists d, body r = Some d /\
    forall f g, over_the_network d 1 f -> runs false (without_boundaries t) 1 g ->
      Permutation (all_rows d 1 f) (all_rows (without_boundaries t) 1 g).
Proof using Hacts Hbudget Hcapacity.
  intros Hs Hn H. destruct (C100_user_placed_same_rows cfg t D r Hs Hn H) as (d & Hb & _ & G). exists d. split; [exact Hb|].
  intros f g Hf Hg. apply C89_plans_over_the_network in Hf; [|assumption..]. exact (proj1 (G f g (delivered_runs d f Hf) Hg)).
Qed.

(** C100. If the scans can be read, in the tasks of their stages and on one node, the plan can be executed:
    over the network, and without boundaries on one node, with the same rows. *)
Theorem C100_can_run t D r :
  sited cfg 1 t (@Permutation row) D -> has_net t = true -> runnable cfg 1 t -> always_answers acts ->
  create_distributed_plan cfg (TPlan t) = Ok r ->
  exists d f g, body r = Some d /\ over_the_network d 1 f /\ runs false (without_boundaries t) 1 g /\
    Permutation (all_rows d 1 f) (all_rows (without_boundaries t) 1 g).
Proof using Hacts Hbudget Hcapacity.
  intros Hs Hn Hr Ha H. destruct (C100_over_the_network t D r Hs Hn H) as (d & Hb & G).
  destruct (placed_inv cfg t D r Hs Hn H) as (d' & Hb' & Hd). assert (d' = d) as -> by congruence.
  destruct (sited_can cfg 1 t _ _ Hs d false Hr Hd (le_n 1) (fun _ => eq_refl)) as (f0 & Hf0).
  destruct (C89_can_run_over_the_network d 1 f0 Ha (sited_answerable cfg 1 t _ _ Hs d Hr Hd) Hf0) as (f & Hf).
  destruct (sited_can single_node 1 _ _ _ (plain_sited cfg 1 t _ _ Hs) _ false (plain_runnable cfg 1 t _ _ Hs Hr)
    (plain_ready cfg 1 t _ _ Hs) (le_n 1) (fun _ => eq_refl)) as (g & Hg).
  exists d, f, g. auto.
Qed.

(** C100 and C96. Whatever fails in its stages, connections and scans: a result that ended normally in all
    its partitions is complete. *)
Theorem C100_ended_results_are_complete t D r :
  sited cfg 1 t (@Permutation row) D -> has_net t = true -> create_distributed_plan cfg (TPlan t) = Ok r ->
  exists d, body r = Some d /\
    forall o g, runs_with_failures d 1 o -> (forall p, p < tparts d -> o 0 p <> None) -> runs false (without_boundaries t) 1 g ->
      Permutation (all_rows d 1 (rows o)) (all_rows (without_boundaries t) 1 g).
Proof using Hacts Hbudget Hcapacity.
  intros Hs Hn H. destruct (C100_over_the_network t D r Hs Hn H) as (d & Hb & G). exists d. split; [exact Hb|].
  destruct (placed_inv cfg t D r Hs Hn H) as (d' & Hb' & Hd). assert (d' = d) as -> by congruence.
  intros o g Ho He Hg. apply G; [|exact Hg]. apply failure_free; [exact (sited_well cfg 1 t _ _ Hs d (le_n 1) Hd)|exact Ho|].
  intros i Hi. assert (i = 0) as -> by lia. exact He.
Qed.

(** C100 and C98. What the plan has returned so far, failures and abandoned partitions or not, are rows of
    the plan without boundaries, and all of them if the ends of all partitions were seen. *)
Theorem C100_rows_so_far t D r :
  sited cfg 1 t (@Permutation row) D -> has_net t = true -> runnable cfg 1 t -> always_answers acts ->
  create_distributed_plan cfg (TPlan t) = Ok r ->
  exists d, body r = Some d /\
    forall o g, runs_so_far d 1 o -> runs false (without_boundaries t) 1 g ->
      exists rest, Permutation (rows_so_far d o ++ rest) (all_rows (without_boundaries t) 1 g) /\
        ((forall p, p < tparts d -> closed (o 0 p) = true) -> rest = []).
Proof using Hacts Hbudget Hcapacity.
  intros Hs Hn Hr Ha H. destruct (C100_over_the_network t D r Hs Hn H) as (d & Hb & G). exists d. split; [exact Hb|].
  destruct (C100_can_run t D r Hs Hn Hr Ha H) as (d' & f0 & _ & Hb' & Hf0 & _). assert (d' = d) as -> by congruence.
  apply C89_plans_over_the_network in Hf0; [|assumption..].
  intros o g Ho Hg. destruct (beginnings_of_all acts budget capacity bad d f0 o Hf0 Ho) as (f & Hdf & rest & H1 & H2).
  exists rest. split; [|exact H2]. rewrite <- H1. apply G; [|exact Hg]. now apply C89_plans_over_the_network.
Qed.
End Props.
Print Assumptions C89_can_run_over_the_network.
Print Assumptions C100_over_the_network.
Print Assumptions C100_can_run.
Print Assumptions C100_ended_results_are_complete.
Print Assumptions C100_rows_so_far.

(** The progressive reduction of [SitedProps.Ex], in three leaf tasks and two intermediate tasks: all
    hypotheses hold, it can be executed over connections with a budget of one byte and channels of one
    message, and the execution is one of those with failures and of those so far. *)
Module SitedNetEx.
Import ExecProps.Ex SitedProps.Ex.
Definition exactly (o : op row) (l out : list row) : Prop := out = op_fun o l.
Lemma reads : site_readable (cfg false) 3 (LScan (scan 5 (files 5))).
Proof.
  destruct (RunEx.reads false 5) as [H1 H2]. split; [exact H1|]. split; [exact (proj1 H1)|].
  intros q Hq. destruct (H2 3 q ltac:(lia)) as (l' & E & _ & Hl); [|exact Hq|].
  { intros k Hk. vm_compute in Hk. destruct Hk. }
  exists l'. split; [exact E|]. intros remote Hrem. destruct remote; [exact (Hl true)|]. specialize (Hrem eq_refl). discriminate.
Qed.
Lemma can_be_read : runnable (cfg false) 1 reduction.
Proof. cbn. repeat split; repeat constructor; try apply reads. Qed.
End SitedNetEx.

Example C100_network_case : exists f g,
  delivers_networked 1 1 (fun _ => "bad"%string) SitedNetEx.exactly false SitedProps.Ex.planned 1 f /\
  runs_with_failures 1 1 (fun _ => "bad"%string) SitedNetEx.exactly false SitedProps.Ex.planned 1 (fun i p => Some (f i p)) /\
  runs_so_far 1 1 (fun _ => "bad"%string) SitedNetEx.exactly false SitedProps.Ex.planned 1 (all_closed f) /\
  runs false (without_boundaries SitedProps.Ex.reduction) 1 g /\
  Permutation (all_rows SitedProps.Ex.planned 1 f) (all_rows (without_boundaries SitedProps.Ex.reduction) 1 g).
Proof.
  destruct SitedProps.Ex.reduction_qualifies as (H1 & H2 & H3 & _).
  destruct (C100_can_run SitedNetEx.exactly 1 1 (fun _ => "bad"%string) ltac:(lia) ltac:(lia) (ExecProps.Ex.cfg false)
    ltac:(intros o l out ->; reflexivity) _ _ _ H1 H2 SitedNetEx.can_be_read ltac:(intros o l; eexists; reflexivity) H3)
    as (d & f & g & Hb & Hf & Hg & HP).
  injection Hb as <-. exists f, g. split; [exact Hf|]. split; [now apply C96_undisturbed_executions|]. split; [|auto].
  apply CutProofs.undisturbed; [lia|lia|]. apply C89_plans_over_the_network in Hf; [exact Hf|lia|lia].
Qed.
