(** C95: the operators of a task read the work units of their own feeds, wherever the task runs. *)
From Verif Require Import Base NetModel CiuModel EventsModel PlanModel PlanSpec PlanProofs PlanProps.
From Verif Require Import FeedPlanModel FeedPlanSpec FeedPlanProofs.
From Verif Require FeedModel.

(** Take a stage's plan whose per-task variants have no feeds and whose operators do not share feeds. Every
    operator with a feed that runs in a task is in the plan that the task receives, whether the task runs on a
    remote worker or in the coordinator's process. Every such operator of that plan, for each of its partitions
    [q], reads exactly what its provider makes on the coordinator for feed [parts * task_index + q], told to fan
    out to the tasks that run the operator. Missing for the full claim: per-task variants with feeds, see the
    refutations below. *)
Theorem C95_feeds_reach_their_operators_partial : forall {unit_} (provider : nat -> nat -> nat -> list unit_) p ctx fuel,
  runnable p ctx -> plain_variants p ctx -> own_feeds p ctx -> height p <= fuel ->
  exists p' decls fed,
    task_specialized_plan fuel p ctx = Ok (p', decls) /\ fed_nodes p ctx = Ok fed /\
    forall in_process,
      (forall o nctx feed, runs_with_feed p ctx o nctx feed ->
         exists o', runs_with_feed (arrived in_process p') ctx o' nctx feed /\
           op_id o' = op_id o /\ op_parts o' = op_parts o) /\
      (forall o nctx feed q, runs_with_feed (arrived in_process p') ctx o nctx feed -> q < op_parts o ->
         read_feed provider decls fed o q = Ok (provider feed (op_parts o * task_index nctx + q) (task_count nctx))).
Proof.
  intros unit_ provider p ctx fuel Hr Hv Ho Hh.
  assert (E : task_specialized_plan fuel p ctx = Ok (trimmed p ctx, decls p ctx)).
  { unfold task_specialized_plan. rewrite C14_rewrite_with_context, trim_walk by assumption. reflexivity. }
  exists (trimmed p ctx), (decls p ctx), (flat_map node_of (positions p [] ctx)).
  split; [exact E|]. split; [now apply fed_positions|]. intros in_process. split.
  - intros o nctx feed (at_ & cs & r & H & Hf).
    destruct (feed_trimmed _ _ _ _ _ H Hr _ _ _ _ eq_refl Hf) as (cs' & H').
    exists (mkOp (op_id o) (op_parts o) (Some (feed, true))). split; [|easy]. destruct in_process.
    + exists at_, cs', true. auto.
    + exists at_, (map decoded cs'), true. split; [|reflexivity]. apply runs_decoded in H'. exact H'.
  - intros o nctx feed q (at_ & cs & r & H & Hf) Hq.
    assert (G : exists o0 cs0 r0, r = true /\ runs_at p ctx at_ (POp o0 cs0) nctx /\ op_feed o0 = Some (feed, r0) /\
                  op_parts o = op_parts o0).
    { destruct in_process; cbn [arrived] in H.
      - destruct (trimmed_feed _ _ _ _ _ _ _ _ Hr Hv H Hf) as (-> & o0 & cs0 & r0 & H1 & H2 & H3 & _). eauto 10.
      - apply decoded_runs in H as (n0 & H & En). destruct n0 as [o0 cs0| | | |]; try discriminate.
        cbn [decoded] in En. injection En as -> ->. cbn in Hf. destruct (op_feed o0) as [[f0 r0]|] eqn:E0; [|discriminate].
        injection Hf as -> <-.
        destruct (trimmed_feed _ _ _ _ _ _ _ _ Hr Hv H E0) as (-> & o1 & cs1 & r1 & H1 & H2 & H3 & _).
        exists o1, cs1, r1. auto. }
    destruct G as (o0 & cs0 & r0 & -> & H0 & Hf0 & Hp). unfold read_feed. rewrite Hf.
    assert (Hd : In (feed, op_parts o) (decls p ctx)).
    { rewrite Hp. apply (C09_declared_feeds p ctx fuel (trimmed p ctx) _ Hr Hv Hh E).
      destruct o0 as [id k fd]. cbn in *. subst fd. eauto 10. }
    replace (has_receiver (decls p ctx) feed q) with true.
    2:{ symmetry. unfold has_receiver. apply existsb_exists. eexists. split; [exact Hd|].
        cbn. rewrite Nat.eqb_refl. now apply Nat.ltb_lt. }
    f_equal. rewrite Hp in *. eapply sent_once; eassumption.
Qed.

Print Assumptions C95_feeds_reach_their_operators_partial.

(** Over all tasks of a stage without unions, an operator of [P] partitions per task reads every feed index below
    [P * T] exactly once, each told to fan out to [T] tasks. *)
Theorem C95_stage_reads_each_feed_once : forall {unit_} (provider : nat -> nat -> nat -> list unit_) p T fuel id P feed,
  (forall i, i < T -> runnable p (mkCtx i T) /\ plain_variants p (mkCtx i T) /\ own_feeds p (mkCtx i T)) ->
  height p <= fuel ->
  (exists at_ cs, forall i, i < T -> runs_at p (mkCtx i T) at_ (POp (mkOp id P (Some (feed, false))) cs) (mkCtx i T)) ->
  forall in_process : nat -> bool,
  exists reads : nat -> nat -> list unit_,
    (forall i q, i < T -> q < P -> exists p' decls fed o,
       task_specialized_plan fuel p (mkCtx i T) = Ok (p', decls) /\ fed_nodes p (mkCtx i T) = Ok fed /\
       runs_with_feed (arrived (in_process i) p') (mkCtx i T) o (mkCtx i T) feed /\ op_id o = id /\
       read_feed provider decls fed o q = Ok (reads i q)) /\
    flat_map (fun i => flat_map (reads i) (seq 0 P)) (seq 0 T)
    = flat_map (fun j => provider feed j T) (seq 0 (P * T)).
Proof.
  intros unit_ provider p T fuel id P feed Hall Hh (at_ & cs & Hrun) in_process.
  exists (fun i q => provider feed (P * i + q) T). split.
  - intros i q Hi Hq. destruct (Hall i Hi) as (Hr & Hv & Ho).
    destruct (C95_feeds_reach_their_operators_partial provider p (mkCtx i T) fuel Hr Hv Ho Hh) as
      (p' & decls & fed & E1 & E2 & H). destruct (H (in_process i)) as [H1 H2].
    destruct (H1 (mkOp id P (Some (feed, false))) (mkCtx i T) feed) as (o' & Ho' & Eid & Ep).
    { exists at_, cs, false. split; [now apply Hrun|reflexivity]. }
    exists p', decls, fed, o'. cbn in Eid, Ep. repeat split; auto.
    rewrite (H2 o' (mkCtx i T) feed q Ho') by lia. cbn. now rewrite Ep.
  - clear. rewrite <- (flat_map_ext_in (fun i => flat_map (fun j => provider feed j T) (seq (P * i) P))).
    + rewrite <- flat_map_flat_map. f_equal. induction T as [|T IH]; [now rewrite Nat.mul_0_r|].
      rewrite seq_S, flat_map_app, IH, Nat.mul_succ_r, seq_app. cbn. now rewrite app_nil_r.
    + intros i _. rewrite <- (Nat.add_0_r (P * i)) at 1. generalize (P * i) as b. intros b.
      replace (seq (b + 0) P) with (map (fun q => b + q) (seq 0 P)).
      * now rewrite flat_map_map.
      * generalize 0 as a. induction P as [|P IHP]; intros a; cbn; [reflexivity|]. f_equal. rewrite IHP. f_equal. lia.
Qed.

Print Assumptions C95_stage_reads_each_feed_once.

(** ** Per-task variants with feeds *)

(** A per-task leaf whose variants are themselves operators with a feed: nothing is declared and nothing is fed,
    and on a remote worker every read of every such operator fails. *)
Theorem C95_feed_of_a_variant_refuted : forall {unit_} (provider : nat -> nat -> nat -> list unit_)
    P original vs ctx id feed fuel,
  nth_error vs (task_index ctx) = Some (POp (mkOp id P (Some (feed, false))) []) -> 0 < fuel ->
  exists p', task_specialized_plan fuel (PDle P original vs) ctx = Ok (p', []) /\
    fed_nodes (PDle P original vs) ctx = Ok [] /\
    runs_with_feed (arrived false p') ctx (mkOp id P (Some (feed, true))) ctx feed /\
    forall q, read_feed provider [] [] (mkOp id P (Some (feed, true))) q = Err "Missing WorkUnit feed".
Proof.
  intros unit_ provider P original vs ctx id feed fuel Ev Hf.
  exists (POp (mkOp id P (Some (feed, false))) []). split; [|split; [reflexivity|split; [|reflexivity]]].
  - unfold task_specialized_plan. rewrite C14_rewrite_with_context. destruct fuel as [|fuel]; [lia|].
    cbn. unfold dle_specialized. rewrite Ev. reflexivity.
  - exists [], [], true. split; [constructor|reflexivity].
Qed.

(** In the coordinator's process the same tasks run, but all of them read feeds [0 .. P-1] of the shared
    provider, told to fan out to one task: with two tasks the first feeds are read twice, the others never. *)
Theorem C95_variants_in_process_refuted : exists (provider : nat -> nat -> nat -> list nat) P original vs feed,
  let p := PDle P original vs in
  exists plans : list plan,
    List.length vs = 2 /\ List.length plans = 2 /\
    (forall i p', nth_error plans i = Some p' -> task_specialized_plan 2 p (mkCtx i 2) = Ok (p', [])) /\
    (forall i p' o nctx q, nth_error plans i = Some p' ->
       runs_with_feed (arrived true p') (mkCtx i 2) o nctx feed -> q < op_parts o ->
       exists fed, fed_nodes p (mkCtx i 2) = Ok fed /\ read_feed provider [] fed o q = Ok (provider feed q 1)) /\
    provider feed 0 2 = [10] /\ provider feed 1 2 = [11] /\ provider feed 0 1 = [10; 11] /\ P = 1.
Proof.
  exists (fun _ j t => if t =? 1 then [10; 11] else [10 + j]), 1, (PEmpty 1),
    [POp (mkOp 3 1 (Some (7, false))) []; POp (mkOp 4 1 (Some (7, false))) []], 7. cbn zeta.
  exists [POp (mkOp 3 1 (Some (7, false))) []; POp (mkOp 4 1 (Some (7, false))) []].
  split; [reflexivity|]. split; [reflexivity|]. split; [|split].
  - intros [|[|i]] p' E; cbn in E; try (destruct i; discriminate E); injection E as <-; reflexivity.
  - intros [|[|i]] p' o nctx q E (at_ & cs & r & H & Hf) Hq; cbn in E; try (destruct i; discriminate E);
      injection E as <-; exists []; (split; [reflexivity|]); cbn in H; inversion H; subst;
      try (destruct i; discriminate); cbn in Hf; injection Hf as <-; reflexivity.
  - repeat split; reflexivity.
Qed.

(** A variant with a feed below its root: the feed is declared to the worker and read without an error, but the
    coordinator never asks the provider, so the operator sees an empty feed, remote or not. *)
Theorem C95_feed_inside_a_variant_refuted : forall {unit_} (provider : nat -> nat -> nat -> list unit_)
    P original vs ctx id id' feed fuel,
  nth_error vs (task_index ctx) = Some (POp (mkOp id P None) [POp (mkOp id' P (Some (feed, false))) []]) -> 1 < fuel ->
  exists p', task_specialized_plan fuel (PDle P original vs) ctx = Ok (p', [(feed, P)]) /\
    fed_nodes (PDle P original vs) ctx = Ok [] /\
    (forall in_process, runs_with_feed (arrived in_process p') ctx (mkOp id' P (Some (feed, true))) ctx feed) /\
    forall q, q < P -> read_feed provider [(feed, P)] [] (mkOp id' P (Some (feed, true))) q = Ok [].
Proof.
  intros unit_ provider P original vs ctx id id' feed fuel Ev Hf.
  exists (POp (mkOp id P None) [POp (mkOp id' P (Some (feed, true))) []]). split; [|split; [reflexivity|split]].
  - unfold task_specialized_plan. rewrite C14_rewrite_with_context. destruct fuel as [|[|fuel]]; try lia.
    cbn. unfold dle_specialized. rewrite Ev. reflexivity.
  - intros in_process. exists [0], [], true. split; [|reflexivity].
    destruct in_process; cbn; (econstructor; [reflexivity|constructor]).
  - intros q Hq. apply Nat.ltb_lt in Hq. unfold read_feed, has_receiver. cbn -[Nat.ltb].
    now rewrite Nat.eqb_refl, Hq.
Qed.

Print Assumptions C95_feed_of_a_variant_refuted.
Print Assumptions C95_variants_in_process_refuted.
Print Assumptions C95_feed_inside_a_variant_refuted.

(** ** A plan that meets the hypotheses *)

Module FeedPlanEx.
(** A join-like operator over a scan with a feed of two partitions, and a union of two such scans of which each
    task runs one. *)
Definition scan (id n feed : nat) : plan := POp (mkOp id n (Some (feed, false))) [].
Definition ex : plan :=
  POp (mkOp 0 2 None)
    [scan 1 2 100; PCiu 3 [[(0, mkCtx 0 1)]; [(1, mkCtx 0 1)]] [scan 2 3 101; scan 3 3 102];
     PDle 2 (PEmpty 2) [POp (mkOp 4 2 None) []; POp (mkOp 5 2 None) []]].
Definition made_for (feed j t : nat) : list (nat * nat * nat) := [(feed, j, t)].

Ltac runs H := apply positions_runs in H; cbn in H;
  repeat (destruct H as [H|H]; [try discriminate; injection H; intros; subst|]); try contradiction.

Lemma ex_ok i : i < 2 -> runnable ex (mkCtx i 2) /\ plain_variants ex (mkCtx i 2) /\ own_feeds ex (mkCtx i 2).
Proof.
  intros Hi. assert (i = 0 \/ i = 1) as [-> | ->] by lia; (split; [|split]).
  1, 4: intros at_ n c H; runs H; cbn; auto;
    try (eexists; split; [reflexivity|]; repeat split; repeat constructor; cbn; intuition lia).
  1, 3: intros at_ k o vs c H; runs H; repeat constructor.
  1, 2: intros at_ at_' o o' cs cs' c c' feed r r' H H' Hf Hf'; runs H; runs H'; cbn in *; congruence.
Qed.

Example C95_hypotheses_met : runnable ex (mkCtx 1 2) /\ plain_variants ex (mkCtx 1 2) /\ own_feeds ex (mkCtx 1 2) /\
  height ex <= 3 /\
  exists p' decls fed, task_specialized_plan 3 ex (mkCtx 1 2) = Ok (p', decls) /\ fed_nodes ex (mkCtx 1 2) = Ok fed /\
    decls = [(100, 2); (102, 3)] /\
    read_feed made_for decls fed (mkOp 1 2 (Some (100, true))) 1 = Ok [(100, 3, 2)] /\
    read_feed made_for decls fed (mkOp 3 3 (Some (102, true))) 2 = Ok [(102, 2, 1)] /\
    read_feed made_for decls fed (mkOp 2 3 (Some (101, true))) 0 = Err "Missing WorkUnit feed".
Proof.
  destruct (ex_ok 1) as (H1 & H2 & H3); [lia|]. repeat split; auto. do 3 eexists. repeat split; reflexivity.
Qed.

Example C95_stage_hypotheses_met :
  (forall i, i < 2 -> runnable ex (mkCtx i 2) /\ plain_variants ex (mkCtx i 2) /\ own_feeds ex (mkCtx i 2)) /\
  exists at_ cs, forall i, i < 2 -> runs_at ex (mkCtx i 2) at_ (POp (mkOp 1 2 (Some (100, false))) cs) (mkCtx i 2).
Proof.
  split; [exact ex_ok|]. exists [0], []. intros i _. econstructor; [reflexivity|constructor].
Qed.
End FeedPlanEx.
