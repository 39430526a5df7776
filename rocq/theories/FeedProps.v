(** Theorems about work unit feeds: C38, C39, C40, C55, C56. *)
From Verif Require Import Base NetModel FeedModel FeedSpec FeedProofs.
From Coq Require Import NArith.

Section Props.
Context {unit_ : Type}.

(** ** C38: work units reach the right partition of the right task, in order, exactly once *)

(** Over the [T] tasks of a stage, a node of [P] partitions per task asks its provider for every feed index
    below [P * T] exactly once; feed [j] is read for partition [j mod P] of task [j / P]. *)
Theorem C38_each_feed_once : forall id P T,
  flat_map (fun i => map snd (feed_calls (mkNode id P (mkCtx i T)))) (seq 0 T) = seq 0 (P * T) /\
  forall i p j, In (p, j) (feed_calls (mkNode id P (mkCtx i T))) <-> p < P /\ i = j / P /\ p = j mod P.
Proof.
  intros id P T. split; [apply calls_all|]. intros i p j. rewrite feed_calls_in. unfold feed_of_partition. cbn. split.
  - intros [Hp ->]. destruct (div_mod_of P i p Hp) as [-> ->]. auto.
  - intros (Hp & -> & ->). split; [exact Hp|]. apply Nat.div_mod. lia.
Qed.

(** In every execution of a query: what the leaf of task [i] read for partition [p] is at any time a prefix of
    what the provider made for the feed of that partition, and if the leaf saw the end, then it read
    everything, unless the connection broke, the caller dropped the query, or a feed of that task failed. *)
Theorem C38_delivery : forall metrics l (q : query unit_) i t pos n p j,
  steps qstep (start_query metrics l) q -> nth_error (tasks q) i = Some t ->
  NoDup (map nid (nodes t)) -> nth_error (nodes t) pos = Some n -> In (p, j) (feed_calls n) ->
  prefix (got t (nid n, p)) (units (made (sources t pos j))) /\
  (saw_end t (nid n, p) = true ->
     (got t (nid n, p) = units (made (sources t pos j)) /\ ended (sources t pos j) = true) \/
     broken t = true \/ dropped q = true \/
     exists e pos' n' p' j', result t = Failed e /\ nth_error (nodes t) pos' = Some n' /\ In (p', j') (feed_calls n') /\
       In (Bad e) (made (sources t pos' j'))).
Proof.
  intros metrics l q i t pos n p j Hs Ht Hown Hn Hin. apply reachable_qinv in Hs. apply nth_error_In in Ht.
  pose proof (q_inv _ _ _ Hs t Ht Hown) as Hi. pose proof Hin as Hin'. apply feed_calls_in in Hin' as [Hp ->]. split.
  - eapply prefix_trans; [exact (got_prefix t pos n p Hi Hn Hp)|]. exists (units (skipn (taken (sources t pos (feed_of_partition n p))) (made (sources t pos (feed_of_partition n p))))).
    rewrite <- units_app. unfold pulled. now rewrite firstn_skipn.
  - intros He. destruct (broken t) eqn:Eb; [auto|]. destruct (i_end t Hi _ He) as (_ & _ & [Hx|(Hr & _)]); [congruence|].
    destruct (result t) as [| |e|] eqn:Er; [congruence| | |].
    + left. split; [now apply ended_got; auto|]. eapply finished_feeds; eauto.
    + right. right. right. destruct (i_failed t Hi e Er) as (pos' & n' & p' & j' & H1 & H2 & H3). exists e, pos', n', p', j'.
      repeat split; auto. unfold pulled in H3. rewrite <- (firstn_skipn (taken (sources t pos' j'))). apply in_app_iff. now left.
    + right. right. left. exact (q_aborted _ _ _ Hs t Ht Er).
Qed.

(** ** C39: a failing work unit feed fails the query *)

(** If the result stream ended without an error, then no feed of the query handed out an error. *)
Theorem C39_feed_error_fails_query : forall metrics l (q : query unit_) t pos j e,
  steps qstep (start_query metrics l) q -> (forall ns, In ns l -> NoDup (map nid ns)) ->
  In t (tasks q) -> In (Bad e) (pulled (sources t pos j)) -> outcome q <> Some (Ok tt).
Proof.
  intros metrics l q t pos j e Hs Hown Ht Hb Ho. apply reachable_qinv in Hs. destruct (q_ok _ _ _ Hs Ho t Ht) as [Hr _].
  assert (Hi : inv t) by (apply (q_inv _ _ _ Hs t Ht); apply Hown; rewrite <- (q_nodes _ _ _ Hs); now apply in_map).
  destruct (i_sent t Hi pos j) as (_ & _ & Hc & _). refine (Hc _ e Hb). intros (e' & E). congruence.
Qed.

(** If it ended with an error, then that is the error of a feed, or a connection to a worker broke. *)
Theorem C39_errors_have_a_cause : forall metrics l (q : query unit_) e,
  steps qstep (start_query metrics l) q -> (forall ns, In ns l -> NoDup (map nid ns)) -> outcome q = Some (Err e) ->
  exists t, In t (tasks q) /\
    (broken t = true \/ exists pos n p j, nth_error (nodes t) pos = Some n /\ In (p, j) (feed_calls n) /\ In (Bad e) (pulled (sources t pos j))).
Proof.
  intros metrics l q e Hs Hown Ho. apply reachable_qinv in Hs. destruct (q_err _ _ _ Hs e Ho) as (t & Ht & Hcase). exists t. split; [exact Ht|].
  assert (Hi : inv t) by (apply (q_inv _ _ _ Hs t Ht); apply Hown; rewrite <- (q_nodes _ _ _ Hs); now apply in_map).
  destruct Hcase as [Hf|Hl]; [right; exact (i_failed t Hi e Hf)|left]. destruct (broken t) eqn:Eb; [reflexivity|].
  exfalso. exact (proj1 (i_answers t Hi) Eb Hl).
Qed.

(** ** C40: receiving a work unit never fails because of clocks *)

(** Holds if the worker's clock is not behind the coordinator's reading at the creation of the unit. Missing:
    all other readings, see the refutation. *)
Theorem C40_clocks_agree_partial : forall checks created sent_at received processed (u : unit_),
  (created <= sent_at)%N -> (created <= received)%N -> (created <= processed)%N ->
  receive_unit checks created sent_at received processed u = Ok u /\
  latencies checks created sent_at received processed = Ok (sent_at - created, received - created, processed - created)%N.
Proof.
  intros checks c s r p u Hs Hr Hp. unfold receive_unit, latencies, usize_sub.
  rewrite (proj2 (N.leb_le c s)), (proj2 (N.leb_le c r)), (proj2 (N.leb_le c p)) by assumption. auto.
Qed.

(** A worker whose clock is behind panics where overflow checks are on; elsewhere it records a latency
    that is off by 2^64 ns. *)
Theorem C40_clock_skew_refuted : forall created sent_at received processed (u : unit_),
  (created <= sent_at)%N -> (received < created)%N -> (created < 2 ^ 64)%N ->
  (exists e, receive_unit true created sent_at received processed u = Panic e) /\
  exists a b c, latencies false created sent_at received processed = Ok (a, b, c) /\ (b = 2 ^ 64 - (created - received))%N.
Proof.
  intros cr s r p u Hs Hr Hlt.
  assert (E1 : forall b, usize_sub b s cr = Ok (s - cr)%N) by (intros b; unfold usize_sub; now rewrite (proj2 (N.leb_le cr s))).
  assert (E2 : forall b, usize_sub b r cr = if b then Panic "attempt to subtract with overflow" else Ok (r + 2 ^ 64 - cr)%N).
  { intros b. unfold usize_sub. now rewrite (proj2 (N.leb_gt cr r)). }
  assert (E3 : exists c, usize_sub false p cr = Ok c) by (unfold usize_sub; destruct (cr <=? p)%N; eauto).
  destruct E3 as (c & E3). unfold receive_unit, latencies. rewrite !E1, !E2, E3. cbn [bind]. split; [eauto|]. do 3 eexists. split; [reflexivity|]. lia.
Qed.

(** ** C55: a satisfied query does not wait for its feeds *)

(** The opposite holds: when the result stream ended, every feed of every task had ended, failed, or lost
    its connection, whether or not a leaf still wanted its units. *)
Theorem C55_ended_queries_waited : forall metrics l (q : query unit_) t pos n p j,
  steps qstep (start_query metrics l) q -> In t (tasks q) -> NoDup (map nid (nodes t)) ->
  nth_error (nodes t) pos = Some n -> In (p, j) (feed_calls n) -> outcome q <> None -> dropped q = false ->
  ended (sources t pos j) = true \/ broken t = true \/ exists e, result t = Failed e.
Proof.
  intros metrics l q t pos n p j Hs Ht Hown Hn Hin Ho Hd. apply reachable_qinv in Hs.
  pose proof (q_inv _ _ _ Hs t Ht Hown) as Hi. destruct (broken t) eqn:Eb; [auto|].
  destruct (q_ended _ _ _ Hs Ho t Ht) as [Hr _]. destruct (result t) as [| |e|] eqn:Er; [congruence| |eauto|].
  - left. eapply finished_feeds; eauto.
  - rewrite (q_aborted _ _ _ Hs t Ht Er) in Hd. discriminate.
Qed.

(** ** C56: a query that ended without error read complete feeds *)

(** Holds with metrics collection on (the default): all feeds of all tasks were read to their end without an
    error, and every leaf that saw the end of a feed got all its units. Missing: metrics collection off. *)
Theorem C56_complete_feeds_partial : forall l (q : query unit_) t pos n p j,
  steps qstep (start_query true l) q -> In t (tasks q) -> NoDup (map nid (nodes t)) ->
  nth_error (nodes t) pos = Some n -> In (p, j) (feed_calls n) -> outcome q = Some (Ok tt) ->
  ended (sources t pos j) = true /\ (forall e, ~ In (Bad e) (made (sources t pos j))) /\
  (saw_end t (nid n, p) = true -> got t (nid n, p) = units (made (sources t pos j))).
Proof.
  intros l q t pos n p j Hs Ht Hown Hn Hin Ho. apply reachable_qinv in Hs. pose proof (q_inv _ _ _ Hs t Ht Hown) as Hi.
  destruct (q_ok _ _ _ Hs Ho t Ht) as [Hr Ha]. pose proof (q_collect _ _ _ Hs t Ht) as Hc.
  assert (Hb : broken t = false \/ (collect t = true /\ answers t = Ended_)) by auto.
  destruct (finished_feeds t pos n p j Hi Hr Hb Hn Hin) as (H1 & _ & H3 & _). split; [exact H1|]. split; [exact H3|].
  intros He. apply feed_calls_in in Hin as [Hp ->]. now apply ended_got.
Qed.
End Props.

(** ** Concrete executions *)
Module FeedEx.

Lemma go {S} (step : S -> S -> Prop) (P : S -> Prop) a b :
  step a b -> (exists c, steps step b c /\ P c) -> exists c, steps step a c /\ P c.
Proof. intros H (c & Hc & HP). exists c. split; [|exact HP]. eapply steps_trans; [|exact Hc]. now apply steps_one. Qed.
Lemma stop {S} (step : S -> S -> Prop) (P : S -> Prop) a : P a -> exists c, steps step a c /\ P c.
Proof. intros H. exists a. split; [apply steps_refl|exact H]. Qed.
Lemma one (t t' : task nat) r o d : tstep t t' -> qstep (mkQuery [t] r o d) (mkQuery [t'] r o d).
Proof. intros H. exact (q_task (mkQuery [t] r o d) [] t t' [] eq_refl H). Qed.

Ltac task1 rule := eapply go; [apply one; rule|cbn].
Ltac chunk l := eapply (@t_chunk nat) with (pos := 0) (chunk := l);
  [reflexivity|reflexivity|reflexivity| |discriminate|cbn; unfold WORK_UNIT_FEED_CHUNK_SIZE; lia|reflexivity];
  repeat (eapply takes_cons; [cbn; tauto|reflexivity|cbn]); apply takes_nil.
Ltac all_ended := eapply (@t_future nat) with (pos := 0);
  [reflexivity|reflexivity|intros p j; cbn; intros H; repeat (destruct H as [[= <- <-]|H]; [split; reflexivity|]); destruct H].
Ltac joined := apply (@t_joined nat); [reflexivity|cbn; intros pos Hpos; destruct pos; [reflexivity|lia]].

(** Task 1 of 2 of a stage with a leaf of two partitions: it reads feeds 2 and 3. *)
Definition leaf := mkNode 7 2 (mkCtx 1 2).

(** Both feeds are read to their end, and the query ends without an error. Meets the hypotheses of
    C38_delivery, C56_complete_feeds_partial and C55_ended_queries_waited. *)
Example complete_run : exists q : query nat, steps qstep (start_query true [[leaf]]) q /\
  outcome q = Some (Ok tt) /\ exists t, tasks q = [t] /\
  got t (7, 0) = [20; 21] /\ got t (7, 1) = [30] /\ saw_end t (7, 0) = true /\ saw_end t (7, 1) = true /\
  made (sources t 0 2) = [Unit_ 20; Unit_ 21].
Proof.
  unfold start_query, start. cbn.
  task1 ltac:(apply (@t_make nat) with (n := 0) (j := 2) (x := Unit_ 20); reflexivity).
  task1 ltac:(apply (@t_make nat) with (n := 0) (j := 3) (x := Unit_ 30); reflexivity).
  task1 ltac:(apply (@t_make nat) with (n := 0) (j := 2) (x := Unit_ 21); reflexivity).
  task1 ltac:(chunk [(0, Unit_ 20); (1, Unit_ 30)]).
  task1 ltac:(apply (@t_end nat) with (n := 0) (j := 2)).
  task1 ltac:(apply (@t_end nat) with (n := 0) (j := 3)).
  task1 ltac:(apply (@t_open nat) with (k := (7, 0)); reflexivity).
  task1 ltac:(apply (@t_deliver nat); reflexivity).
  task1 ltac:(apply (@t_read nat) with (k := (7, 0)); reflexivity).
  task1 ltac:(chunk [(0, Unit_ 21)]).
  task1 ltac:(all_ended).
  task1 ltac:(joined).
  task1 ltac:(apply (@t_deliver nat); reflexivity).
  task1 ltac:(apply (@t_deliver nat); reflexivity).
  task1 ltac:(apply (@t_read nat) with (k := (7, 0)); reflexivity).
  task1 ltac:(apply (@t_saw_end nat) with (k := (7, 0)); reflexivity).
  task1 ltac:(apply (@t_open nat) with (k := (7, 1)); reflexivity).
  task1 ltac:(apply (@t_read nat) with (k := (7, 1)); reflexivity).
  task1 ltac:(apply (@t_saw_end nat) with (k := (7, 1)); reflexivity).
  task1 ltac:(apply (@t_answers nat); [reflexivity|right; repeat split; discriminate]).
  eapply go; [apply q_rows|cbn].
  eapply go; [apply q_drain_ok; [reflexivity|reflexivity|reflexivity|intros t [<-|[]]; split; reflexivity]|cbn].
  apply stop. split; [reflexivity|]. eexists. split; [reflexivity|]. repeat split.
Qed.

Example complete_run_hypotheses : NoDup (map nid [leaf]) /\ In (1, 3) (feed_calls leaf) /\ nth_error [leaf] 0 = Some leaf.
Proof. repeat split; [constructor; [intros []|constructor]|cbn; auto]. Qed.

(** A feed yields an error: the unit before it in the same chunk is dropped, the leaf sees a clean end, and
    the result stream ends with the error. *)
Example failing_run : exists q : query nat, steps qstep (start_query true [[leaf]]) q /\
  outcome q = Some (Err "disk"%string) /\ exists t : task nat, tasks q = [t] /\
  got t (7, 0) = [] /\ saw_end t (7, 0) = true /\ In (Bad "disk"%string) (pulled (sources t 0 2)) /\ broken t = false.
Proof.
  unfold start_query, start. cbn.
  task1 ltac:(apply (@t_make nat) with (n := 0) (j := 2) (x := Unit_ 20); reflexivity).
  task1 ltac:(apply (@t_make nat) with (n := 0) (j := 2) (x := Bad "disk"%string); reflexivity).
  eapply go; [apply one; eapply (@t_error nat) with (pos := 0) (chunk := [(0, Unit_ 20); (0, Bad "disk"%string)]);
    [reflexivity|reflexivity|reflexivity| |cbn; unfold WORK_UNIT_FEED_CHUNK_SIZE; lia|reflexivity];
    repeat (eapply takes_cons; [cbn; tauto|reflexivity|cbn]); apply takes_nil|cbn].
  task1 ltac:(apply (@t_deliver nat); reflexivity).
  task1 ltac:(apply (@t_open nat) with (k := (7, 0)); reflexivity).
  task1 ltac:(apply (@t_saw_end nat) with (k := (7, 0)); reflexivity).
  task1 ltac:(apply (@t_answers nat); [reflexivity|right; repeat split; discriminate]).
  eapply go; [apply q_rows|cbn].
  eapply go; [eapply q_drain_error; [reflexivity|reflexivity|reflexivity|intros t [<-|[]]; reflexivity|left; reflexivity|reflexivity]|cbn].
  apply stop. split; [reflexivity|]. eexists. split; [reflexivity|]. repeat split. cbn. auto.
Qed.

(** Two nodes with the same feed id: the leaf that asks first gets the units of both, the other one fails.
    Nothing rejects such a plan, although the comment of [RemoteWorkUnitFeedRegistry::add] says so. *)
Definition twins := [mkNode 7 1 (mkCtx 0 1); mkNode 7 1 (mkCtx 0 1)].
Theorem C38_shared_id_refuted : exists (q : query nat) t, steps qstep (start_query true [twins]) q /\ tasks q = [t] /\
  made (sources t 0 0) = [Unit_ 1] /\ made (sources t 1 0) = [Unit_ 2] /\ got t (7, 0) = [1; 2] /\
  open_feed t (7, 0) = Err "WorkUnit feed was already consumed".
Proof.
  assert (H : exists q : query nat, steps qstep (start_query true [twins]) q /\ exists t, tasks q = [t] /\
    made (sources t 0 0) = [Unit_ 1] /\ made (sources t 1 0) = [Unit_ 2] /\ got t (7, 0) = [1; 2] /\
    open_feed t (7, 0) = Err "WorkUnit feed was already consumed").
  { unfold start_query, start. cbn.
    task1 ltac:(apply (@t_make nat) with (n := 0) (j := 0) (x := Unit_ 1); reflexivity).
    task1 ltac:(apply (@t_make nat) with (n := 1) (j := 0) (x := Unit_ 2); reflexivity).
    task1 ltac:(chunk [(0, Unit_ 1)]).
    eapply go; [apply one; eapply (@t_chunk nat) with (pos := 1) (chunk := [(0, Unit_ 2)]);
      [reflexivity|reflexivity|reflexivity| |discriminate|cbn; unfold WORK_UNIT_FEED_CHUNK_SIZE; lia|reflexivity];
      repeat (eapply takes_cons; [cbn; tauto|reflexivity|cbn]); apply takes_nil|cbn].
    task1 ltac:(apply (@t_deliver nat); reflexivity).
    task1 ltac:(apply (@t_deliver nat); reflexivity).
    task1 ltac:(apply (@t_open nat) with (k := (7, 0)); reflexivity).
    task1 ltac:(apply (@t_read nat) with (k := (7, 0)); reflexivity).
    task1 ltac:(apply (@t_read nat) with (k := (7, 0)); reflexivity).
    apply stop. eexists. split; [reflexivity|]. repeat split. }
  destruct H as (q & Hq & t & Ht). eauto.
Qed.

(** The rows are complete and the leaf dropped its feed, but the provider is still open: as long as it stays
    open and nothing fails, the result stream does not end. *)
Theorem C55_satisfied_query_waits_refuted : exists (q : query nat), steps qstep (start_query true [[leaf]]) q /\
  rows_done q = true /\ (exists t, tasks q = [t] /\ rx t (7, 0) = Released /\ rx t (7, 1) = Released) /\
  forall q', steps qstep q q' -> dropped q' = false ->
    (forall t, In t (tasks q') -> ended (sources t 0 2) = false /\ broken t = false /\ forall e, result t <> Failed e) ->
    outcome q' = None.
Proof.
  assert (H : exists q : query nat, steps qstep (start_query true [[leaf]]) q /\ rows_done q = true /\
    exists t : task nat, tasks q = [t] /\ rx t (7, 0) = Released /\ rx t (7, 1) = Released).
  { unfold start_query, start. cbn.
    task1 ltac:(apply (@t_open nat) with (k := (7, 0)); reflexivity).
    task1 ltac:(apply (@t_open nat) with (k := (7, 1)); reflexivity).
    task1 ltac:(apply (@t_release nat) with (k := (7, 0)); reflexivity).
    task1 ltac:(apply (@t_release nat) with (k := (7, 1)); reflexivity).
    eapply go; [apply q_rows|cbn]. apply stop. split; [reflexivity|]. eexists. repeat split. }
  destruct H as (q & Hq & Hr & Ht). exists q. split; [exact Hq|]. split; [exact Hr|]. split; [exact Ht|].
  intros q' Hs Hd Hopen. destruct (outcome q') as [o|] eqn:Eo; [exfalso|reflexivity].
  assert (Hs' : steps qstep (start_query true [[leaf]]) q') by (eapply steps_trans; eauto).
  pose proof (q_nodes _ _ _ (reachable_qinv _ _ _ Hs')) as Hn. destruct (tasks q') as [|t [|? ?]] eqn:Et; try discriminate.
  injection Hn as Hn. destruct (Hopen t (or_introl eq_refl)) as (H1 & H2 & H3).
  assert (X : ended (sources t 0 2) = true \/ broken t = true \/ exists e, result t = Failed e).
  { refine (C55_ended_queries_waited true [[leaf]] q' t 0 leaf 0 2 Hs' _ _ _ _ _ Hd); rewrite ?Et, ?Hn.
    - now left.
    - constructor; [intros []|constructor].
    - reflexivity.
    - cbn; auto.
    - congruence. }
  destruct X as [X|[X|(e & X)]]; [congruence|congruence|exact (H3 e X)].
Qed.

(** Metrics collection off: the worker's answers end at once. When the connection breaks afterwards nobody
    notices: the leaf sees a clean end of a feed of which it got nothing, and the query ends without an error. *)
Theorem C56_lost_connection_refuted : exists (q : query nat) t, steps qstep (start_query false [[leaf]]) q /\
  tasks q = [t] /\ outcome q = Some (Ok tt) /\ dropped q = false /\
  made (sources t 0 2) = [Unit_ 20] /\ saw_end t (7, 0) = true /\ got t (7, 0) = [].
Proof.
  assert (H : exists q : query nat, steps qstep (start_query false [[leaf]]) q /\ exists t : task nat,
    tasks q = [t] /\ outcome q = Some (Ok tt) /\ dropped q = false /\
    made (sources t 0 2) = [Unit_ 20] /\ saw_end t (7, 0) = true /\ got t (7, 0) = []).
  { unfold start_query, start. cbn.
    task1 ltac:(apply (@t_answers nat); [reflexivity|left; reflexivity]).
    task1 ltac:(apply (@t_make nat) with (n := 0) (j := 2) (x := Unit_ 20); reflexivity).
    task1 ltac:(chunk [(0, Unit_ 20)]).
    task1 ltac:(apply (@t_break nat); reflexivity).
    task1 ltac:(apply (@t_end nat) with (n := 0) (j := 2)).
    task1 ltac:(apply (@t_end nat) with (n := 0) (j := 3)).
    task1 ltac:(all_ended).
    task1 ltac:(joined).
    task1 ltac:(apply (@t_open nat) with (k := (7, 0)); reflexivity).
    task1 ltac:(apply (@t_saw_end nat) with (k := (7, 0)); reflexivity).
    eapply go; [apply q_rows|cbn].
    eapply go; [apply q_drain_ok; [reflexivity|reflexivity|reflexivity|intros t [<-|[]]; split; reflexivity]|cbn].
    apply stop. eexists. split; [reflexivity|]. repeat split. }
  destruct H as (q & Hq & t & Ht). eauto.
Qed.

Example C40_agree : receive_unit true 100 105 110 111 "u"%string = Ok "u"%string.
Proof. reflexivity. Qed.
Example C40_skew : exists e, receive_unit true 100 105 99 111 "u"%string = Panic e.
Proof. eexists. reflexivity. Qed.
Example C38_three_tasks : map (fun i => feed_calls (mkNode 7 2 (mkCtx i 3))) [0; 1; 2] = [[(0, 0); (1, 1)]; [(0, 2); (1, 3)]; [(0, 4); (1, 5)]].
Proof. reflexivity. Qed.
End FeedEx.

Print Assumptions C38_each_feed_once.
Print Assumptions C38_delivery.
Print Assumptions FeedEx.C38_shared_id_refuted.
Print Assumptions C39_feed_error_fails_query.
Print Assumptions C39_errors_have_a_cause.
Print Assumptions C40_clocks_agree_partial.
Print Assumptions C40_clock_skew_refuted.
Print Assumptions C55_ended_queries_waited.
Print Assumptions FeedEx.C55_satisfied_query_waits_refuted.
Print Assumptions C56_complete_feeds_partial.
Print Assumptions FeedEx.C56_lost_connection_refuted.
