(** Proofs about the end of a query. *)
From Verif Require Import Base CiuModel EndModel EndSpec.
From Coq Require Import Lia.

Lemma upd_in {A} (l : list A) i v x : In x (upd l i v) -> x = v \/ In x l.
Proof. revert i. induction l as [|y l IH]; intros [|i]; cbn; intuition. destruct (IH _ H0); auto. Qed.
Lemma upd_map {A B} (f : A -> B) l i v : map f (upd l i v) = upd (map f l) i (f v).
Proof. revert i. induction l as [|y l IH]; intros [|i]; cbn; congruence. Qed.
Lemma upd_same {A} (l : list A) i v : nth_error l i = Some v -> upd l i v = l.
Proof. revert i. induction l as [|y l IH]; intros [|i] H; cbn in *; try congruence. f_equal. auto. Qed.

Definition listening (c : chan) : Prop := match at_worker c with WListening | WFinished | WClosed => True | _ => False end.
Definition done_ (c : chan) : Prop := at_worker c = WFinished \/ at_worker c = WClosed.

Record ok (s : query) (c : chan) : Prop := mkOk {
  o_before : running s -> created c = notified s;
  o_after : ~ running s -> created c < notified s;
  o_recv : call c = CReceiving -> listening c;
  o_cancelled : call c = CCalling -> at_worker c = WCancelled -> reset c = true;
  o_local : local c = true -> reset c = false;
  o_kept : running s -> done_ c -> reset c = true;
  o_answered : answered s -> feed_over c = true /\ call_over c = true;
  o_aborted : stage s <> Dropped -> stage s <> Returned false -> feed c <> FAborted /\ call c <> CAborted;
  o_good : stage s = Returned true -> failed c = false;
  o_metrics : call c = CEnded -> collect c = true -> done_ c;
  o_ended : call c = CEnded -> listening c;
  o_starting : call c = CStarting -> at_worker c = WIdle
}.

Lemma cstep_stable calls c c' : cstep calls c c' ->
  created c' = created c /\ local c' = local c /\ collect c' = collect c /\
  (feed_over c = true -> feed c' = feed c) /\ (call_over c = true -> call c' = call c) /\
  (reset c = true -> reset c' = true) /\ (listening c -> listening c') /\ (done_ c -> done_ c').
Proof.
  intros H. unfold listening, done_.
  destruct H; unfold set_feed, set_call, set_worker, set_reset, set_loads, feed_over, call_over; cbn;
    repeat match goal with E : feed c = _ |- _ => rewrite E | E : call c = _ |- _ => rewrite E end;
    repeat match goal with E : at_worker c = _ |- _ => rewrite E end;
    intuition (try discriminate; try congruence; auto).
  all: rewrite H1 in H; discriminate.
Qed.

Lemma cstep_ok s c c' cs : ok s c -> cstep (notified s) c c' -> ok (mkQuery (stage s) (notified s) cs) c'.
Proof.
  intros O H. destruct (cstep_stable _ _ _ H) as (E1 & E2 & E3 & Ef & Ec & Er & El & Ed). destruct O as [A B C D E F G I J K L M].
  constructor; unfold running, answered in *; cbn [stage notified] in *.
  - rewrite E1. exact A.
  - rewrite E1. exact B.
  - intros X. destruct H; unfold listening in *; cbn in *; try discriminate; try (apply C; assumption);
      try (specialize (C X); match goal with W : at_worker c = _ |- _ => rewrite W in C; first [exact C|destruct C|exact Logic.I] end); auto.
  - intros X Y. destruct H; cbn in *; try discriminate; auto; try (apply D; assumption); try congruence.
    specialize (M H). congruence.
  - rewrite E2. intros X. specialize (E X). destruct H; cbn; auto. congruence.
  - intros X Y. destruct H; unfold done_ in *; cbn in *; try (apply F; assumption); try (intuition discriminate); try (apply (F X); auto; fail).
    destruct H0 as [H0|H0]; [|exact H0]. unfold stream_ended in H0. apply andb_true_iff in H0 as [_ H0]. apply Nat.ltb_lt in H0.
      rewrite (A X) in H0. lia.
  - intros X. destruct (G X) as [G1 G2]. unfold feed_over, call_over in *. now rewrite (Ef G1), (Ec G2).
  - intros X Y. destruct (I X Y) as [I1 I2]. split; destruct H; cbn; auto; congruence.
  - intros X. destruct (G (or_introl (ex_intro _ true X))) as [G1 G2]. unfold failed in *. rewrite (Ef G1), (Ec G2). auto.
  - rewrite E3. intros X Y. destruct (call c) eqn:Q; try (apply Ed, K; auto; fail);
      (destruct H; unfold done_ in *; cbn in *; try congruence; try discriminate; auto).
    all: try (intuition congruence).
  - intros X. destruct (call c) eqn:Q; try (apply El, L; auto; fail);
      (destruct H; cbn in *; try congruence; try discriminate; auto).
    all: apply C; reflexivity.
  - intros X. destruct H; cbn in *; try discriminate; auto; try (specialize (M X); congruence).
Qed.

Lemma abort_facts c : created (abort c) = created c /\ local (abort c) = local c /\ collect (abort c) = collect c /\
  feed_over (abort c) = true /\ call_over (abort c) = true /\ (local c = true -> reset (abort c) = reset c) /\
  call (abort c) <> CReceiving /\ call (abort c) <> CCalling /\ call (abort c) <> CStarting /\
  (call (abort c) = CEnded -> call c = CEnded /\ at_worker (abort c) = at_worker c) /\
  (listening c -> at_worker (abort c) = at_worker c).
Proof.
  unfold abort, set_feed, set_call, set_worker, set_reset, feed_over, call_over, listening.
  destruct c as [lo co cr p f k w l r]; cbn. destruct f, k, lo, w; cbn; intuition discriminate.
Qed.

Lemma abort_ok s c st n cs : ok s c -> notified s <= n -> (running s -> notified s < n) ->
  (st = Dropped \/ st = Returned false) -> ok (mkQuery st n cs) (abort c).
Proof.
  intros [A B C D E F G I J K L M] Hn Hr Hst. destruct (abort_facts c) as (E1 & E2 & E3 & E4 & E5 & E6 & E7 & E8 & E8' & E9 & E10).
  assert (NR : ~ running (mkQuery st n cs)) by (unfold running; cbn; destruct Hst; subst; intuition discriminate).
  constructor; unfold answered; cbn [stage notified]; try (intros X; contradiction); try (intros X; congruence); auto.
  - intros _. rewrite E1. destruct (stage s) eqn:Q.
    + rewrite A by now left. apply Hr. now left.
    + rewrite A by now right. apply Hr. now right.
    + assert (created c < notified s) by (apply B; unfold running; rewrite Q; intuition discriminate). lia.
    + assert (created c < notified s) by (apply B; unfold running; rewrite Q; intuition discriminate). lia.
    + assert (created c < notified s) by (apply B; unfold running; rewrite Q; intuition discriminate). lia.
  - intros X. rewrite E2 in X. rewrite (E6 X). auto.
  - intros X Y. destruct Hst; congruence.
  - intros X. destruct Hst; congruence.
  - intros X Y. destruct (E9 X) as [X1 X2]. unfold done_. rewrite X2. apply K; congruence.
  - intros X. destruct (E9 X) as [X1 X2]. unfold listening. rewrite X2. apply L. exact X1.
Qed.

Definition all_ok (s : query) : Prop := forall c, In c (chans s) -> ok s c.

Lemma all_ok_step s s' : all_ok s -> qstep s s' -> all_ok s'.
Proof.
  intros O H. destruct H as [s i c c' Hi Hc|s here metrics Hs|s Hs|s Hs|s Hs|s Hs Hall|s Hs]; intros x Hx; cbn [chans] in Hx.
  - assert (Hin : In c (chans s)) by (eapply nth_error_In; exact Hi).
    apply upd_in in Hx as [->|Hx]; [eapply cstep_ok; [apply O; exact Hin|exact Hc]|].
    destruct (O x Hx) as [A B C D E F G I J K L M]. constructor; auto.
  - apply in_app_iff in Hx as [Hx|[<-|[]]].
    + destruct (O x Hx) as [A B C D E F G I J K L M]. unfold running, answered in *. rewrite Hs in *. constructor; auto.
    + constructor; unfold running, answered, done_, listening; cbn; intuition (try discriminate).
      all: destruct H0; discriminate.
  - apply in_map_iff in Hx as (c & <- & Hc). apply (abort_ok s); [apply O; exact Hc| | |now right]; unfold notify_waiters; lia.
  - destruct (O x Hx) as [A B C D E F G I J K L M]. unfold running, answered in *. rewrite Hs in *.
    constructor; unfold running, answered; cbn [stage notified]; auto; try discriminate; try (intros [[? X]|X]; discriminate); try (intros [X|X]; discriminate); try (intros _ _; apply I; discriminate); try (intros X; exfalso; apply X; auto; fail).
  - destruct (O x Hx) as [A B C D E F G I J K L M]. unfold running, answered in *. rewrite Hs in *.
    constructor; unfold running, answered; cbn [stage notified]; auto; try discriminate; try (intros [[? X]|X]; discriminate); try (intros [X|X]; discriminate); try (intros _ _; apply I; discriminate); try (intros X; exfalso; apply X; auto; fail).
    intros _. rewrite A by auto. unfold notify_waiters. lia.
  - destruct (O x Hx) as [A B C D E F G I J K L M]. unfold running, answered in *. rewrite Hs in *.
    constructor; unfold running, answered; cbn [stage notified]; auto; try discriminate; try (intros [[? X]|X]; discriminate); try (intros [X|X]; discriminate); try (intros _ _; apply I; discriminate); try (intros X; exfalso; apply X; auto; fail).
    + intros _. apply B. intuition discriminate.
    + intros X. injection X as X. apply negb_true_iff in X. destruct (failed x) eqn:Q; [|reflexivity].
      assert (existsb failed (chans s) = true) by (apply existsb_exists; eauto). congruence.
  - apply in_map_iff in Hx as (c & <- & Hc). apply (abort_ok s); [apply O; exact Hc| | |now left];
      unfold notify_waiters, running; destruct (stage s); try lia; intuition discriminate.
Qed.

Lemma reachable_ok s : steps qstep start s -> all_ok s.
Proof.
  intros H. refine (steps_invariant qstep all_ok start s _ _ H); [intros c []|]. intros a b A B. eapply all_ok_step; eauto.
Qed.

(** ** The runs after the end are finite *)

Definition weight_call (k : call_state) : nat := match k with CStarting => 3 | CCalling => 2 | CReceiving => 1 | _ => 0 end.
Definition weight_worker (w : worker_state) : nat :=
  match w with WIdle => 4 | WBuilding => 3 | WListening => 2 | WFinished => 1 | _ => 0 end.
Definition weight (c : chan) : nat :=
  pending c + weight_call (call c) + weight_worker (at_worker c) + (if loads c then 0 else 1) + (if reset c then 0 else 1).
Definition sum_weight (l : list chan) : nat := fold_right (fun c n => weight c + n) 0 l.
Definition weight_query (s : query) : nat := (match stage s with Draining => 1 | _ => 0 end) + sum_weight (chans s).

Lemma cstep_weight calls c c' : feed_over c = true -> cstep calls c c' -> weight c' < weight c.
Proof.
  unfold feed_over. intros Hf H. destruct H; unfold weight, set_feed, set_call, set_worker, set_reset, set_loads; cbn;
    repeat match goal with E : feed c = _ |- _ => rewrite E in * end; try discriminate;
    repeat match goal with E : call c = _ |- _ => rewrite E | E : at_worker c = _ |- _ => rewrite E | E : pending c = _ |- _ => rewrite E
      | E : loads c = _ |- _ => rewrite E | E : reset c = _ |- _ => rewrite E end; cbn; try lia.
  destruct H as [E|E]; rewrite E; cbn; lia.
Qed.
Lemma abort_weight c : feed_over c = true -> weight (abort c) <= weight c.
Proof.
  unfold feed_over, abort, weight. intros Hf. destruct (feed c) eqn:E; [discriminate| | |];
    (destruct (call c) eqn:Ec; cbn; rewrite ?Ec; try lia; destruct (local c); cbn; try lia; destruct (at_worker c) eqn:Ew; cbn; rewrite ?Ew; cbn; try lia; destruct (reset c); cbn; lia).
Qed.
Lemma sum_upd l i c c' : nth_error l i = Some c -> weight c' < weight c -> sum_weight (upd l i c') < sum_weight l.
Proof.
  revert i. induction l as [|x l IH]; intros [|i] H; cbn in *; try discriminate.
  - injection H as ->. lia.
  - intros Hw. specialize (IH i H Hw). unfold sum_weight in IH. lia.
Qed.
Lemma sum_abort l : (forall c, In c l -> feed_over c = true) -> sum_weight (map abort l) <= sum_weight l.
Proof.
  induction l as [|c l IH]; cbn; intros H; [lia|]. pose proof (abort_weight c (H c (or_introl eq_refl))).
  specialize (IH (fun x Hx => H x (or_intror Hx))). unfold sum_weight in IH. lia.
Qed.

Definition winding (s : query) : Prop := ~ running s /\ forall c, In c (chans s) -> feed_over c = true.

Lemma winding_step s s' : winding s -> qstep s s' -> winding s' /\ weight_query s' < weight_query s.
Proof.
  intros [Hr Hf] H. unfold running in Hr.
  destruct H as [s i c c' Hi Hc|s here metrics Hs|s Hs|s Hs|s Hs|s Hs Hall|s Hs]; try (exfalso; apply Hr; rewrite Hs; auto; fail).
  - assert (Hin : In c (chans s)) by (eapply nth_error_In; exact Hi). split.
    + split; [exact Hr|]. cbn. intros x Hx. apply upd_in in Hx as [->|Hx]; [|auto].
      destruct (cstep_stable _ _ _ Hc) as (_ & _ & _ & E & _). unfold feed_over. rewrite (E (Hf c Hin)). exact (Hf c Hin).
    + unfold weight_query. cbn [stage chans]. pose proof (sum_upd _ _ _ c' Hi (cstep_weight _ _ _ (Hf c Hin) Hc)). lia.
  - split; [split; [unfold running; cbn; intuition discriminate|exact Hf]|]. unfold weight_query. cbn [stage chans]. rewrite Hs. lia.
  - destruct Hs as [Hs|[Hs|Hs]]; [exfalso; apply Hr; auto|exfalso; apply Hr; auto|]. split.
    + split; [unfold running; cbn; intuition discriminate|]. cbn. intros x Hx. apply in_map_iff in Hx as (c & <- & _). apply abort_facts.
    + unfold weight_query. cbn [stage chans]. rewrite Hs. pose proof (sum_abort _ Hf). lia.
Qed.

Lemma winding_run n s s' : winding s -> run n s s' -> n <= weight_query s.
Proof.
  intros H R. revert H. induction R as [s|n s s1 s2 Hs R IH]; intros H; [lia|].
  destruct (winding_step _ _ H Hs) as [H1 H2]. specialize (IH H1). lia.
Qed.

(** ** At rest *)

Lemma rest_chan s c c' : at_rest s -> In c (chans s) -> cstep (notified s) c c' -> reset c' = reset c -> False.
Proof.
  intros Hr Hc Hst E. apply In_nth_error in Hc as (i & Hi). destruct (Hr _ (q_chan s i c c' Hi Hst)) as [[A B]|A]; cbn in A; [congruence|].
  apply A. rewrite upd_map, E. apply upd_same. now apply map_nth_error.
Qed.

Lemma at_rest_free s : all_ok s -> winding s -> at_rest s -> (forall c, In c (chans s) -> worker_free c /\ tasks_over c) /\ answered s.
Proof.
  intros O [Hrun Hf] Hr.
  assert (F : forall c, In c (chans s) -> worker_free c /\ tasks_over c).
  { intros c Hc. pose proof (O c Hc) as Oc. pose proof (fun c' => rest_chan s c c' Hr Hc) as N. pose proof (Hf c Hc) as Hfc.
    assert (Hce : at_worker c = WListening -> False).
    { intros W. destruct (pending c) as [|n] eqn:P.
      - refine (N _ (w_end _ c W _) eq_refl). left. unfold stream_ended. rewrite P.
        pose proof (o_after _ _ Oc Hrun). apply Nat.ltb_lt in H. rewrite H. unfold feed_over in Hfc. destruct (feed c); [discriminate| | |]; reflexivity.
      - exact (N _ (w_read _ c n W P) eq_refl). }
    assert (Hfin : at_worker c = WFinished -> False) by (intros W; exact (N _ (w_close _ c W) eq_refl)).
    assert (Hb : at_worker c = WBuilding -> False) by (intros W; exact (N _ (w_fail _ c W) eq_refl)).
    split.
    - unfold worker_free. destruct (at_worker c); auto; exfalso; auto.
    - split; [exact Hfc|]. unfold call_over. destruct (call c) eqn:Q; try reflexivity; exfalso.
      + exact (N _ (c_connect _ c Q) eq_refl).
      + destruct (reset c) eqn:R; [exact (N _ (c_lost _ c (or_introl Q) R) R)|].
        destruct (at_worker c) eqn:W; auto.
        * exact (N _ (w_arrive _ c Q W R) R).
        * pose proof (o_cancelled _ _ Oc Q W). congruence.
        * exact (N _ (c_refused _ c Q R W) R).
        * refine (N _ (c_answer _ c Q R _) R). rewrite W. exact Logic.I.
      + destruct (reset c) eqn:R; [exact (N _ (c_lost _ c (or_intror Q) R) R)|].
        pose proof (o_recv _ _ Oc Q) as L. unfold listening in L. destruct (at_worker c) eqn:W; try destruct L; auto.
        destruct (loads c) eqn:Ld.
        * refine (N _ (c_end _ c Q R Ld _) R). auto.
        * refine (N _ (w_loads _ c Ld _) R). rewrite W. exact Logic.I. }
  split; [exact F|]. unfold answered. destruct (stage s) eqn:Q; try (exfalso; apply Hrun; unfold running; auto; fail); eauto.
  exfalso. destruct (Hr _ (q_drained s Q (fun c Hc => proj2 (F c Hc)))) as [[A _]|A]; cbn in A; [discriminate|congruence].
Qed.
