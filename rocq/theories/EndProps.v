(** Property C84: however a query ends, its workers are told and its result ends. *)
From Verif Require Import Base CiuModel EndModel EndSpec EndProofs.
From Coq Require Import Lia.

(** While the query runs, a worker gives a task up only if the connection was lost. *)
Theorem C84_kept_while_running s c :
  steps qstep start s -> running s -> In c (chans s) -> at_worker c = WFinished \/ at_worker c = WClosed ->
  local c = false /\ reset c = true.
Proof.
  intros H Hr Hc Hw. pose proof (reachable_ok s H c Hc) as O. pose proof (o_kept _ _ O Hr Hw) as R. split; [|exact R].
  destruct (local c) eqn:L; [|reflexivity]. rewrite (o_local _ _ O L) in R. discriminate.
Qed.
Print Assumptions C84_kept_while_running.

(** After the query ended - by its last row, an error, or the caller dropping the result - everything comes to rest after
    boundedly many steps; if work unit feeds are still running when the last row is read, the same holds once they end. *)
Theorem C84_comes_to_rest s :
  steps qstep start s -> ~ running s -> (stage s = Draining -> forall c, In c (chans s) -> feed_over c = true) ->
  exists bound, forall n s', run n s s' -> n <= bound.
Proof.
  intros H Hr Hf. exists (weight_query s). intros n s'. apply winding_run. split; [exact Hr|]. intros c Hc.
  pose proof (reachable_ok s H c Hc) as O.
  destruct (stage s) eqn:Q; try (exfalso; apply Hr; unfold running; auto; fail); [apply Hf; auto| |]; apply (o_answered _ _ O); unfold answered; eauto.
Qed.
Print Assumptions C84_comes_to_rest.

(** When it came to rest, no worker waits for the query, no task of the coordinator is left, and the caller has an answer. *)
Theorem C84_workers_are_told s :
  steps qstep start s -> ~ running s -> (stage s = Draining -> forall c, In c (chans s) -> feed_over c = true) -> at_rest s ->
  (forall c, In c (chans s) -> worker_free c /\ tasks_over c) /\ answered s.
Proof.
  intros H Hr Hf. apply at_rest_free; [apply reachable_ok; exact H|]. split; [exact Hr|]. intros c Hc.
  pose proof (reachable_ok s H c Hc) as O.
  destruct (stage s) eqn:Q; try (exfalso; apply Hr; unfold running; auto; fail); [apply Hf; auto| |]; apply (o_answered _ _ O); unfold answered; eauto.
Qed.
Print Assumptions C84_workers_are_told.

(** A query that ended well heard all its workers out, and those that collect metrics sent them before. *)
Theorem C84_ended_well s c :
  steps qstep start s -> stage s = Returned true -> In c (chans s) ->
  feed c = FEnded /\ call c = CEnded /\ (collect c = true -> at_worker c = WFinished \/ at_worker c = WClosed).
Proof.
  intros H Hs Hc. pose proof (reachable_ok s H c Hc) as O.
  destruct (o_answered _ _ O (or_introl (ex_intro _ true Hs))) as [F C].
  destruct (o_aborted _ _ O) as [F' C']; [congruence|congruence|]. pose proof (o_good _ _ O Hs) as G.
  unfold feed_over, call_over, failed in *.
  assert (Ef : feed c = FEnded) by (destruct (feed c); congruence).
  assert (Ec : call c = CEnded) by (destruct (feed c), (call c); congruence).
  split; [exact Ef|]. split; [exact Ec|]. exact (o_metrics _ _ O Ec).
Qed.
Print Assumptions C84_ended_well.

(** ** Cases *)
Module EndEx.
Definition here := mkChan true true 0 0 FRunning CStarting WIdle false false.
Definition there := mkChan false false 0 0 FRunning CStarting WIdle false false.
Definition sent : query := mkQuery Preparing 0 [here; there].
Lemma sent_reachable : steps qstep start sent.
Proof.
  eapply steps_next; [eapply steps_next; [apply steps_refl|]|]; [exact (q_send start true true eq_refl)|].
  exact (q_send (mkQuery Preparing 0 [here]) false false eq_refl).
Qed.
Lemma go s0 s i c c' s' : nth_error (chans s) i = Some c -> cstep (notified s) c c' ->
  mkQuery (stage s) (notified s) (upd (chans s) i c') = s' -> steps qstep s0 s -> steps qstep s0 s'.
Proof. intros Hi Hc <- H. exact (steps_next _ _ _ _ H (q_chan s i c c' Hi Hc)). Qed.
(** A query in two tasks, one in the coordinator's process, ends well. *)
Definition last : query := mkQuery (Returned true) 1
  [mkChan true true 0 0 FEnded CEnded WClosed true false; mkChan false false 0 0 FEnded CEnded WClosed true false].
Lemma last_reachable : steps qstep start last.
Proof.
  set (c1 := mkChan true true 0 0 FRunning CCalling WIdle false false).
  set (c2 := mkChan true true 0 0 FRunning CCalling WBuilding false false).
  set (c3 := mkChan true true 0 0 FRunning CCalling WListening false false).
  set (c4 := mkChan true true 0 0 FRunning CReceiving WListening false false).
  set (c5 := mkChan true true 0 1 FEnded CReceiving WListening false false).
  set (c6 := mkChan true true 0 0 FEnded CReceiving WListening false false).
  set (c7 := mkChan true true 0 0 FEnded CReceiving WListening true false).
  set (c8 := mkChan true true 0 0 FEnded CReceiving WFinished true false).
  set (c9 := mkChan true true 0 0 FEnded CEnded WFinished true false).
  set (c10 := mkChan true true 0 0 FEnded CEnded WClosed true false).
  set (d1 := mkChan false false 0 0 FRunning CCalling WIdle false false).
  set (d2 := mkChan false false 0 0 FRunning CCalling WBuilding false false).
  set (d3 := mkChan false false 0 0 FRunning CCalling WListening false false).
  set (d4 := mkChan false false 0 0 FRunning CReceiving WListening false false).
  set (d5 := mkChan false false 0 1 FEnded CReceiving WListening false false).
  set (d6 := mkChan false false 0 0 FEnded CReceiving WListening false false).
  set (d7 := mkChan false false 0 0 FEnded CReceiving WListening true false).
  set (d8 := mkChan false false 0 0 FEnded CEnded WListening true false).
  set (d9 := mkChan false false 0 0 FEnded CEnded WFinished true false).
  set (d10 := mkChan false false 0 0 FEnded CEnded WClosed true false).
  set (P x y := mkQuery Preparing 0 [x; y]). set (D x y := mkQuery Draining 1 [x; y]).
  eapply steps_next; [|refine (q_drained (D c10 d10) eq_refl _); intros c [<-|[<-|[]]]; split; reflexivity].
  apply (go start (D c9 d10) 0 c9 c10); [reflexivity|exact (w_close 1 c9 eq_refl)|reflexivity|].
  apply (go start (D c9 d9) 1 d9 d10); [reflexivity|exact (w_close 1 d9 eq_refl)|reflexivity|].
  apply (go start (D c9 d8) 1 d8 d9); [reflexivity|exact (w_end 1 d8 eq_refl (or_introl eq_refl))|reflexivity|].
  apply (go start (D c8 d8) 0 c8 c9); [reflexivity|exact (c_end 1 c8 eq_refl eq_refl eq_refl (or_intror (or_introl eq_refl)))|reflexivity|].
  apply (go start (D c7 d8) 0 c7 c8); [reflexivity|exact (w_end 1 c7 eq_refl (or_introl eq_refl))|reflexivity|].
  refine (steps_next _ _ _ _ _ (q_rows_end (mkQuery Streaming 0 [c7; d8]) eq_refl)).
  refine (steps_next _ _ _ _ _ (q_prepared (P c7 d8) eq_refl)).
  apply (go start (P c7 d7) 1 d7 d8); [reflexivity|exact (c_end 0 d7 eq_refl eq_refl eq_refl (or_introl eq_refl))|reflexivity|].
  apply (go start (P c7 d6) 1 d6 d7); [reflexivity|exact (w_loads 0 d6 eq_refl I)|reflexivity|].
  apply (go start (P c7 d5) 1 d5 d6); [reflexivity|exact (w_read 0 d5 0 eq_refl eq_refl)|reflexivity|].
  apply (go start (P c7 d4) 1 d4 d5); [reflexivity|exact (f_end 0 d4 eq_refl)|reflexivity|].
  apply (go start (P c7 d3) 1 d3 d4); [reflexivity|exact (c_answer 0 d3 eq_refl eq_refl I)|reflexivity|].
  apply (go start (P c7 d2) 1 d2 d3); [reflexivity|exact (w_register 0 d2 eq_refl)|reflexivity|].
  apply (go start (P c7 d1) 1 d1 d2); [reflexivity|exact (w_arrive 0 d1 eq_refl eq_refl eq_refl)|reflexivity|].
  apply (go start (P c7 there) 1 there d1); [reflexivity|exact (c_connect 0 there eq_refl)|reflexivity|].
  apply (go start (P c6 there) 0 c6 c7); [reflexivity|exact (w_loads 0 c6 eq_refl I)|reflexivity|].
  apply (go start (P c5 there) 0 c5 c6); [reflexivity|exact (w_read 0 c5 0 eq_refl eq_refl)|reflexivity|].
  apply (go start (P c4 there) 0 c4 c5); [reflexivity|exact (f_end 0 c4 eq_refl)|reflexivity|].
  apply (go start (P c3 there) 0 c3 c4); [reflexivity|exact (c_answer 0 c3 eq_refl eq_refl I)|reflexivity|].
  apply (go start (P c2 there) 0 c2 c3); [reflexivity|exact (w_register 0 c2 eq_refl)|reflexivity|].
  apply (go start (P c1 there) 0 c1 c2); [reflexivity|exact (w_arrive 0 c1 eq_refl eq_refl eq_refl)|reflexivity|].
  apply (go start (P here there) 0 here c1); [reflexivity|exact (c_connect 0 here eq_refl)|reflexivity|].
  exact sent_reachable.
Qed.
Example last_at_rest : at_rest last.
Proof.
  intros s' H. inversion H as [s i c c' Hi Hc| | | | | |s Hs]; subst; cbn in *; try discriminate; [|intuition discriminate].
  right. cbn. destruct i as [|[|i]]; cbn in Hi; [| |destruct i; discriminate]; injection Hi as <-;
    inversion Hc; subst; cbn in *; try discriminate; try contradiction; try (intuition discriminate).
Qed.
(** The result is dropped while the local worker builds its plan and the other has not been reached: no worker
    waits. *)
Definition cut : query := mkQuery Dropped 1
  [mkChan true true 0 1 FAborted CAborted WCancelled false false; mkChan false false 0 1 FAborted CAborted WIdle false false].
Example cut_reachable : steps qstep start cut /\ ~ running cut.
Proof.
  split; [|unfold running; cbn; intuition discriminate].
  set (c1 := mkChan true true 0 0 FRunning CCalling WIdle false false).
  set (c2 := mkChan true true 0 0 FRunning CCalling WBuilding false false).
  refine (steps_next _ _ _ _ _ (q_drop (mkQuery Preparing 0 [c2; there]) (or_introl eq_refl))).
  apply (go start (mkQuery Preparing 0 [c1; there]) 0 c1 c2); [reflexivity|exact (w_arrive 0 c1 eq_refl eq_refl eq_refl)|reflexivity|].
  apply (go start (mkQuery Preparing 0 [here; there]) 0 here c1); [reflexivity|exact (c_connect 0 here eq_refl)|reflexivity|].
  exact sent_reachable.
Qed.
End EndEx.

(** The result need not end when its rows do: the feeds of work units are awaited first, even if no worker reads them. *)
Module EndFeed.
Definition fed (n : nat) : query := mkQuery Draining 1 [mkChan true true 0 n FRunning CReceiving WListening true false].
Lemma fed_reachable : steps qstep start (fed 0).
Proof.
  set (c0 := mkChan true true 0 0 FRunning CStarting WIdle false false).
  set (c1 := mkChan true true 0 0 FRunning CCalling WIdle false false).
  set (c2 := mkChan true true 0 0 FRunning CCalling WBuilding false false).
  set (c3 := mkChan true true 0 0 FRunning CCalling WListening false false).
  set (c4 := mkChan true true 0 0 FRunning CReceiving WListening false false).
  set (c5 := mkChan true true 0 0 FRunning CReceiving WListening true false).
  set (P x := mkQuery Preparing 0 [x]).
  refine (steps_next _ _ _ _ _ (q_rows_end (mkQuery Streaming 0 [c5]) eq_refl)).
  refine (steps_next _ _ _ _ _ (q_prepared (P c5) eq_refl)).
  apply (EndEx.go start (P c4) 0 c4 c5); [reflexivity|exact (w_loads 0 c4 eq_refl I)|reflexivity|].
  apply (EndEx.go start (P c3) 0 c3 c4); [reflexivity|exact (c_answer 0 c3 eq_refl eq_refl I)|reflexivity|].
  apply (EndEx.go start (P c2) 0 c2 c3); [reflexivity|exact (w_register 0 c2 eq_refl)|reflexivity|].
  apply (EndEx.go start (P c1) 0 c1 c2); [reflexivity|exact (w_arrive 0 c1 eq_refl eq_refl eq_refl)|reflexivity|].
  apply (EndEx.go start (P c0) 0 c0 c1); [reflexivity|exact (c_connect 0 c0 eq_refl)|reflexivity|].
  refine (steps_next _ _ _ _ (steps_refl _ _) (q_send start true true eq_refl)).
Qed.
Lemma fed_run n m : run n (fed m) (fed (n + m)).
Proof.
  revert m. induction n as [|n IH]; intro m; [apply run_nil|].
  apply (run_cons n _ (fed (S m))); [|replace (S n + m) with (n + S m) by lia; apply IH].
  exact (q_chan (fed m) 0 _ _ eq_refl (f_send 1 (mkChan true true 0 m FRunning CReceiving WListening true false) eq_refl)).
Qed.
End EndFeed.
Theorem C84_feeds_awaited_refuted :
  exists s, steps qstep start s /\ stage s = Draining /\ forall n, exists s', run n s s' /\ ~ answered s'.
Proof.
  exists (EndFeed.fed 0). split; [exact EndFeed.fed_reachable|]. split; [reflexivity|]. intro n. exists (EndFeed.fed (n + 0)).
  split; [apply EndFeed.fed_run|]. intros [[ok H]|H]; discriminate H.
Qed.
Print Assumptions C84_feeds_awaited_refuted.
