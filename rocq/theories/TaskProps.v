(** Properties of the write-once slot (C33), the worker's task registry (C34) and waiting for metrics (C35). *)
From Verif Require Import Base CiuModel CiuProofs PoolProofs TaskModel TaskSpec TaskProofs.

(** * C33 *)
Section C33.
Context {T : Type}.
Variable s : swmr T.
Hypothesis Hreach : swmr_reachable s.

(** A write is accepted iff it is the first one, and the slot holds the value of the first write. *)
Theorem C33_first_write_wins :
  (forall i v b, nth_error (sw_writes s) i = Some (v, b) -> (b = true <-> i = 0)) /\ swmr_read_now s = first_write s.
Proof using Hreach. split; [exact (so_writes _ (swmr_ok_reachable _ Hreach))|exact (so_value _ (swmr_ok_reachable _ Hreach))]. Qed.

(** A read that returns a value returns that of the first write. *)
Theorem C33_reads_return_first_write i d v :
  nth_error (sw_readers s) i = Some (mkReader d (Some (Some v))) -> first_write s = Some v.
Proof using Hreach. intros H. destruct (so_readers _ (swmr_ok_reachable _ Hreach) _ _ _ H) as [E|E]; congruence. Qed.

(** A read fails only if its deadline passed and nothing was written by then. *)
Theorem C33_timeout_only_if_unwritten s' i d :
  swmr_step s s' -> nth_error (sw_readers s) i = Some (mkReader d None) ->
  nth_error (sw_readers s') i = Some (mkReader d (Some None)) -> sw_writes s = [] /\ d <= sw_now s.
Proof using Hreach.
  intros Hst Hi Hi'. pose proof (so_value _ (swmr_ok_reachable _ Hreach)) as V.
  destruct Hst as [s v|s d'|s|s j d' Hj].
  - unfold swmr_write in Hi'. destruct (sw_value s); cbn in Hi'; congruence.
  - cbn in Hi'. rewrite (nth_snoc_old _ _ _ _ Hi) in Hi'. congruence.
  - cbn in Hi'. congruence.
  - cbn in Hi'. apply upd_nth_cases in Hi'. destruct Hi' as [[-> E]|[_ Hi']]; [|congruence].
    injection E as <- E. unfold read_poll in E. destruct (sw_value s) eqn:Ev; [discriminate|].
    destruct (Nat.leb_spec d (sw_now s)); [|discriminate]. split; [|assumption].
    unfold first_write in V. destruct (sw_writes s) as [|[? ?] ?]; [reflexivity|congruence].
Qed.

(** Once something is written, every read not finished yet, and every read started later, returns it whenever it
    returns, even after its deadline. *)
Theorem C33_written_is_read v s' i d r :
  first_write s = Some v -> steps swmr_step s s' ->
  (forall x, nth_error (sw_readers s) i = Some x -> rd_result x = None) ->
  nth_error (sw_readers s') i = Some (mkReader d (Some r)) -> r = Some v.
Proof using Hreach.
  intros Hv H Hun Hr.
  assert (Hv' : sw_value s = Some v) by (rewrite (so_value _ (swmr_ok_reachable _ Hreach)); exact Hv).
  cut (sw_value s' = Some v /\ forall x, nth_error (sw_readers s') i = Some x -> rd_result x = None \/ rd_result x = Some (Some v)).
  { intros [_ H1]. destruct (H1 _ Hr) as [E|E]; cbn in E; congruence. }
  clear Hr. revert s' H. refine (steps_ind_fwd _ s _ _ _).
  - split; [assumption|]. intros x Hx. left. auto.
  - intros a b _ [IH1 IH2] Hst. destruct Hst as [a w|a d'|a|a j d' Hj].
    + unfold swmr_write. rewrite IH1. cbn. auto.
    + cbn. split; [assumption|]. intros x Hx. apply nth_snoc in Hx. destruct Hx as [[_ Hx]|[_ ->]]; [auto|]. left. reflexivity.
    + cbn. auto.
    + cbn. split; [assumption|]. intros x Hx. apply upd_nth_cases in Hx. destruct Hx as [[_ ->]|[_ Hx]]; [|auto].
      cbn. unfold read_poll. rewrite IH1. now right.
Qed.

(** No read waits beyond its deadline or a write: its next poll ends it. *)
Theorem C33_reads_end i d :
  nth_error (sw_readers s) i = Some (mkReader d None) -> first_write s <> None \/ d <= sw_now s ->
  exists s' r, swmr_step s s' /\ nth_error (sw_readers s') i = Some (mkReader d (Some r)).
Proof using Hreach.
  intros Hi Hd. pose proof (so_value _ (swmr_ok_reachable _ Hreach)) as V.
  assert (E : exists r, read_poll s d = Some r).
  { unfold read_poll. destruct (sw_value s) eqn:Ev; [eauto|]. destruct Hd as [Hd|Hd]; [congruence|].
    destruct (Nat.leb_spec d (sw_now s)); [eauto|lia]. }
  destruct E as [r E]. eexists. exists r. split; [apply poll_step; exact Hi|]. cbn. rewrite E. eapply upd_nth_same; eauto.
Qed.
End C33.

(** Two writes, one read finished before the first and one after it. *)
Example C33_hypotheses_met : exists s : swmr nat, swmr_reachable s /\
  sw_writes s = [(7, true); (8, false)] /\ map rd_result (sw_readers s) = [Some None; Some (Some 7); None].
Proof.
  eexists. split; [|split].
  - eapply steps_trans; [apply steps_one; apply (read_step _ 0)|cbn].
    eapply steps_trans; [apply steps_one; eapply (poll_step _ 0); reflexivity|cbn].
    eapply steps_trans; [apply steps_one; apply (read_step _ 1)|cbn].
    eapply steps_trans; [apply steps_one; apply tick_step|cbn].
    eapply steps_trans; [apply steps_one; apply tick_step|cbn].
    eapply steps_trans; [apply steps_one; apply (write_step _ 7)|cbn].
    eapply steps_trans; [apply steps_one; apply (write_step _ 8)|cbn].
    eapply steps_trans; [apply steps_one; eapply (poll_step _ 1); reflexivity|cbn].
    eapply steps_trans; [apply steps_one; apply (read_step _ 3)|cbn]. apply steps_refl.
  - reflexivity.
  - reflexivity.
Qed.

(** * C34 *)
Section C34.
Context {plan head err : Type}.
Variable insert : head -> plan -> plan + err.
Notation worker := (worker plan head err).
Variable w : worker.
Hypothesis Hreach : worker_reachable insert w.

(** A data request that gets a plan gets the plan set for that very task, below the head of a request for that
    task. *)
Theorem C34_plan_of_that_task i k h p :
  answered w i k h (Plan p) ->
  exists j base i' h' a, set_plan_made w j k (inl base) /\ answered w i' k h' a /\ insert h' base = inl p.
Proof using Hreach.
  intros [e H]. destruct (wk_ok_reachable _ _ Hreach) as [keys I].
  destruct (wo_rq _ _ _ I _ _ H) as [Hk (en & b & Hn & Hv & Hf)]. cbn in Hk, Hn.
  destruct (wo_en _ _ _ I _ _ Hn) as [H1 H2].
  destruct (H1 _ Hv) as (j & ch & Hj & He & Hb & _). destruct (H2 _ Hf) as (b' & i' & r & Hv' & Hi' & Her & Ha & Ef).
  exists j, b, i', (dr_head r). destruct (dr_answer r) as [a|] eqn:Ea; [|congruence]. exists a.
  destruct (wo_ch _ _ _ I _ _ Hj) as [Hk1 _]. destruct (wo_rq _ _ _ I _ _ Hi') as [Hk2 _].
  split; [|split].
  - exists (ch_entry ch), (ch_collect ch), (ch_phase ch). rewrite Hj. destruct ch; cbn in *. subst. do 2 f_equal. congruence.
  - exists (dr_entry r). rewrite Hi'. destruct r; cbn in *. subst. do 2 f_equal. congruence.
  - rewrite Hv in Hv'. injection Hv' as <-. now symmetry.
Qed.

(** If the requests for a task agree on the head, that is the plan set for the task below the requested head. *)
Corollary C34_plan_below_own_head i k h p :
  (forall i' h' a, answered w i' k h' a -> h' = h) -> answered w i k h (Plan p) ->
  exists j base, set_plan_made w j k (inl base) /\ insert h base = inl p.
Proof using Hreach.
  intros Hh Ha. destruct (C34_plan_of_that_task _ _ _ _ Ha) as (j & base & i' & h' & a & H1 & H2 & H3).
  exists j, base. split; [assumption|]. now rewrite <- (Hh _ _ _ H2).
Qed.

(** A failed request failed because the plan set for that task could not be built, or because the head of a
    request for that task could not be put on top. *)
Theorem C34_errors_are_of_that_task i k h e :
  answered w i k h (Failed e) ->
  exists j, set_plan_made w j k (inr e) \/
    exists base i' h' a, set_plan_made w j k (inl base) /\ answered w i' k h' a /\ insert h' base = inr e.
Proof using Hreach.
  intros [x H]. destruct (wk_ok_reachable _ _ Hreach) as [keys I].
  destruct (wo_rq _ _ _ I _ _ H) as [Hk (en & Hn & Hor)]. cbn in Hk, Hn.
  destruct (wo_en _ _ _ I _ _ Hn) as [H1 H2].
  assert (Hset : forall v, en_value en = Some v -> exists j, set_plan_made w j k v).
  { intros v Hv. destruct (H1 _ Hv) as (j & ch & Hj & He & Hb & _). destruct (wo_ch _ _ _ I _ _ Hj) as [Hk1 _].
    exists j, (ch_entry ch), (ch_collect ch), (ch_phase ch). rewrite Hj. destruct ch; cbn in *. subst. do 2 f_equal. congruence. }
  destruct Hor as [Hv|(b & Hv & Hf)].
  - destruct (Hset _ Hv) as [j Hj]. exists j. now left.
  - destruct (Hset _ Hv) as [j Hj]. destruct (H2 _ Hf) as (b' & i' & r & Hv' & Hi' & Her & Ha & Ef).
    destruct (dr_answer r) as [a|] eqn:Ea; [|congruence]. destruct (wo_rq _ _ _ I _ _ Hi') as [Hk2 _].
    exists j. right. exists b, i', (dr_head r), a. split; [assumption|]. split.
    + exists (dr_entry r). rewrite Hi'. destruct r; cbn in *. subst. do 2 f_equal. congruence.
    + rewrite Hv in Hv'. injection Hv' as <-. now symmetry.
Qed.

(** Requests that share an entry share the plan or the error; only waiting too long may differ. *)
Theorem C34_same_answer i i' k k' h h' e a a' :
  nth_error (wk_requests w) i = Some (mkDrequest k h e (Some a)) ->
  nth_error (wk_requests w) i' = Some (mkDrequest k' h' e (Some a')) ->
  a <> TimedOut -> a' <> TimedOut -> a = a'.
Proof using Hreach.
  intros H H' Ha Ha'. destruct (wk_ok_reachable _ _ Hreach) as [keys I].
  destruct (wo_rq _ _ _ I _ _ H) as [_ A], (wo_rq _ _ _ I _ _ H') as [_ A']. cbn in A, A'.
  destruct a as [p|x|]; [| |congruence]; (destruct a' as [p'|x'|]; [| |congruence]); f_equal.
  - destruct A as (en & b & Hn & Hv & Hf), A' as (en' & b' & Hn' & Hv' & Hf'). congruence.
  - exfalso. destruct A as (en & b & Hn & Hv & Hf), A' as (en' & Hn' & [Hv'|(b' & Hv' & Hf')]); congruence.
  - exfalso. destruct A as (en & Hn & [Hv|(b & Hv & Hf)]), A' as (en' & b' & Hn' & Hv' & Hf'); congruence.
  - destruct A as (en & Hn & [Hv|(b & Hv & Hf)]), A' as (en' & Hn' & [Hv'|(b' & Hv' & Hf')]); congruence.
Qed.

(** A second plan for a task that already has one is rejected: at most one channel per entry goes on. *)
Theorem C34_one_plan_per_entry j j' ch ch' :
  nth_error (wk_channels w) j = Some ch -> nth_error (wk_channels w) j' = Some ch' -> ch_entry ch = ch_entry ch' ->
  ch_phase ch <> Building -> ch_phase ch <> Rejected -> ch_phase ch' <> Building -> ch_phase ch' <> Rejected -> j = j'.
Proof using Hreach.
  intros H H' He A B C D. destruct (wk_ok_reachable _ _ Hreach) as [keys I].
  refine (wo_uniq _ _ _ I _ _ _ _ H H' He _ _); [destruct (ch_phase ch)|destruct (ch_phase ch')]; cbn; solve [exact Logic.I | congruence].
Qed.

(** Cleaning up: when a channel of a task closes, the task is forgotten, and stays so until a plan or a request
    for it arrives. *)
Theorem C34_closing_forgets_partial i ch sent w1 w2 :
  nth_error (wk_channels w) i = Some ch -> ch_phase ch = Finished sent ->
  worker_step insert w w1 -> (exists ch1, nth_error (wk_channels w1) i = Some ch1 /\ ch_phase ch1 = Closed sent) ->
  steps (worker_step insert) w1 w2 -> arrivals w2 (ch_key ch) = arrivals w1 (ch_key ch) ->
  cached w2 (ch_key ch) = None.
Proof using Hreach.
  intros Hi Hph Hst (ch1 & Hi1 & Hph1) Hsteps Harr. eapply (stays_uncached insert w1 w2); eauto.
  clear Hsteps Harr.
  destruct Hst as [w k build collect|w j c en Hj Hp Hen|w j c en Hj Hp Hen|w j c s Hj Hp|w k h
    |w j r en base Hj Ha Hen Hv|w j r en e Hj Ha Hen Hv|w j r en Hj Ha Hen Hv|w k].
  - destruct (get_with w k) as [[es c] e]. cbn in Hi1. rewrite (nth_snoc_old _ _ _ _ Hi) in Hi1. congruence.
  - destruct (en_value en); cbn in Hi1; apply upd_nth_cases in Hi1; destruct Hi1 as [[-> ->]|[_ Hi1]]; cbn in *;
      try congruence; destruct (ch_build c); discriminate.
  - cbn in Hi1. apply upd_nth_cases in Hi1. destruct Hi1 as [[-> ->]|[_ Hi1]]; cbn in *; congruence.
  - cbn in Hi1. apply upd_nth_cases in Hi1. destruct Hi1 as [[-> ->]|[_ Hi1]]; [|congruence].
    rewrite Hi in Hj. injection Hj as <-. rewrite cached_uncache, Nat.eqb_refl. reflexivity.
  - destruct (get_with w k) as [[es c] e]. cbn in Hi1. congruence.
  - cbn in Hi1. congruence.
  - cbn in Hi1. congruence.
  - cbn in Hi1. congruence.
  - cbn in Hi1. congruence.
Qed.

(** What is left when nothing is going on any more is removed only by eviction for idleness. *)
Theorem C34_leftovers_wait_for_eviction k w' :
  quiet w k -> worker_step insert w w' -> arrivals w' k = arrivals w k -> cached w' k <> cached w k ->
  exists k', w' = mkWorker (wk_entries w) (uncache (wk_cache w) k') (wk_channels w) (wk_requests w).
Proof using Hreach.
  intros Q Hst Ha Hc. destruct (step_cache _ _ _ k Hst) as (_ & _ & H). destruct (H Ha) as [_ H1]. destruct (H1 Q); [contradiction|assumption].
Qed.
End C34.

(** The property 'nothing is kept after the query' fails: after a plan that cannot be built, and after a data
    request that arrives when its channel was closed, the task stays registered. *)
Theorem C34_refuted {plan head err : Type} (insert : head -> plan -> plan + err) (base : plan) (h : head) (e : err) :
  exists w : worker plan head err, worker_reachable insert w /\
    (* task 0: its plan cannot be built; task 1: built, executed, closed, then asked again *)
    set_plan_made w 0 0 (inr e) /\ set_plan_made w 1 1 (inl base) /\
    quiet w 0 /\ quiet w 1 /\ cached w 0 <> None /\ cached w 1 <> None.
Proof.
  eexists. split; [|repeat split].
  - eapply steps_trans; [apply steps_one; apply (set_plan _ _ 0 (inr e) true)|cbn].
    eapply steps_trans; [apply steps_one; eapply (publish _ _ 0); reflexivity|cbn].
    eapply steps_trans; [apply steps_one; apply (set_plan _ _ 1 (inl base) true)|cbn].
    eapply steps_trans; [apply steps_one; eapply (publish _ _ 1); reflexivity|cbn].
    eapply steps_trans; [apply steps_one; eapply (end_of_stream _ _ 1); reflexivity|cbn].
    eapply steps_trans; [apply steps_one; eapply (invalidate _ _ 1); reflexivity|cbn].
    eapply steps_trans; [apply steps_one; apply (data_request _ _ 1 h)|cbn].
    eapply steps_trans; [apply steps_one; eapply (time_out _ _ 0); reflexivity|cbn]. apply steps_refl.
  - do 3 eexists. reflexivity.
  - do 3 eexists. reflexivity.
  - intros ch [<-|[<-|[]]]; cbn; auto.
  - intros r [<-|[]]; cbn; discriminate.
  - intros ch [<-|[<-|[]]]; cbn; auto.
  - intros r [<-|[]]; cbn; discriminate.
  - discriminate.
  - discriminate.
Qed.

(** * C35 *)
Section C35.
Context {plan head err : Type}.
Variable insert : head -> plan -> plan + err.

(** Waiting, once over, stays over. *)
Theorem C35_wait_is_stable expected (m m' : monitored plan head err) :
  wait_returns expected m = true -> steps (monitored_step insert) m m' -> wait_returns expected m' = true.
Proof.
  intros H Hst. revert m' Hst. refine (steps_ind_fwd _ m _ _ _); [assumption|].
  intros a b _ IH Hst. destruct Hst; [assumption|]. unfold wait_returns in *. cbn in *.
  rewrite forallb_forall in *. intros k Hk. rewrite (IH k Hk), orb_true_r. reflexivity.
Qed.

(** Waiting ends if every expected task was executed before its channel was closed: suppose that in [m] each
    expected task has a collecting channel still listening and an answered data request on the same entry. In
    any later [m'] in which these channels reached the end of their stream, delivering what was sent ends the
    wait. *)
Theorem C35_executed_tasks_partial expected (m m' : monitored plan head err) :
  monitored_reachable insert m ->
  (forall k, In k expected -> exists i j ch h p,
     nth_error (wk_channels (mo_worker m)) i = Some ch /\ ch_key ch = k /\ ch_collect ch = true /\ ch_phase ch = Listening /\
     nth_error (wk_requests (mo_worker m)) j = Some (mkDrequest k h (ch_entry ch) (Some (Plan p))) /\
     exists ch' sent, nth_error (wk_channels (mo_worker m')) i = Some ch' /\ (ch_phase ch' = Finished sent \/ ch_phase ch' = Closed sent)) ->
  steps (monitored_step insert) m m' ->
  exists m'', steps (monitored_step insert) m' m'' /\ mo_worker m'' = mo_worker m' /\ wait_returns expected m'' = true.
Proof.
  intros Hreach Hexp Hsteps.
  assert (Hw : worker_reachable insert (mo_worker m)) by (apply (monitored_worker insert _ _ Hreach)).
  destruct (wk_ok_reachable _ _ Hw) as [keys I].
  assert (Hsent : forall k, In k expected -> exists i ch p, nth_error (wk_channels (mo_worker m')) i = Some ch /\ ch_key ch = k /\
     (ch_phase ch = Finished (Some p) \/ ch_phase ch = Closed (Some p))).
  { intros k Hk. destruct (Hexp k Hk) as (i & j & ch & h & p & Hi & Hkk & Hc & Hl & Hj & ch' & sent & Hi' & Hph).
    destruct (wo_rq _ _ _ I _ _ Hj) as [_ (en & b & Hn & Hv & Hf)]. cbn in Hn.
    destruct (will_send insert _ (mo_worker m') i ch en p Hw) as (ch2 & H1 & H2 & H3); auto.
    - now apply (monitored_worker insert).
    - rewrite Hl. discriminate.
    - rewrite Hi' in H1. injection H1 as <-. exists i, ch', p. split; [assumption|]. split; [congruence|].
      destruct Hph as [E|E]; rewrite E in *; cbn in H3; rewrite (H3 _ eq_refl); auto. }
  clear Hexp Hsteps Hreach Hw I keys. destruct m' as [w store]. cbn in *.
  cut (exists store', steps (monitored_step insert) (mkMonitored w store) (mkMonitored w store') /\ wait_returns expected (mkMonitored w store') = true).
  { intros (store' & H1 & H2). exists (mkMonitored w store'). auto. }
  induction expected as [|k ks IH].
  - exists store. split; [apply steps_refl|reflexivity].
  - destruct IH as (store' & H1 & H2); [intros; apply Hsent; now right|].
    destruct (Hsent k) as (i & ch & p & Hi & Hk & Hph); [now left|].
    exists ((ch_key ch, p) :: store'). split.
    + eapply steps_next; [exact H1|]. eapply deliver; eauto.
    + unfold wait_returns in *. cbn. rewrite Hk, Nat.eqb_refl. cbn.
      rewrite forallb_forall in *. intros x Hx. specialize (H2 x Hx). cbn in H2. rewrite H2, orb_true_r. reflexivity.
Qed.

(** Otherwise it may wait forever: a task whose channel reached the end of its stream before a data request
    produced its final plan never reports. *)
Theorem C35_stuck (m : monitored plan head err) i ch k expected :
  monitored_reachable insert m -> nth_error (wk_channels (mo_worker m)) i = Some ch -> ch_key ch = k ->
  (ch_phase ch = Finished None \/ ch_phase ch = Closed None) -> plans_set (mo_worker m) k = 1 -> In k expected ->
  forall m', steps (monitored_step insert) m m' -> plans_set (mo_worker m') k = 1 -> wait_returns expected m' = false.
Proof.
  intros Hreach Hi Hk Hph H1 Hin m' Hsteps H1'.
  assert (Hi' : exists ch', nth_error (wk_channels (mo_worker m')) i = Some ch' /\ ch_key ch' = k /\ sent_of (ch_phase ch') = Some None).
  { pose proof (monitored_worker insert _ _ Hsteps) as Hw. clear H1' Hsteps. revert Hw. generalize (mo_worker m'). intros w' Hw.
    revert w' Hw. refine (steps_ind_fwd _ (mo_worker m) _ _ _).
    - exists ch. split; [assumption|]. split; [assumption|]. destruct Hph as [-> | ->]; reflexivity.
    - intros a b _ (c & Hc & Hkc & Hs) Hst. destruct (step_channel _ _ _ _ _ Hst Hc) as (c' & G1 & G2 & _ & _ & _ & G5 & _).
      exists c'. split; [assumption|]. split; [congruence|auto]. }
  destruct Hi' as (ch' & Hi' & Hk' & Hs').
  destruct (wait_returns expected m') eqn:E; [|reflexivity]. exfalso.
  unfold wait_returns in E. rewrite forallb_forall in E. specialize (E k Hin). apply existsb_exists in E.
  destruct E as ([k2 p] & Hin2 & E). cbn in E. apply Nat.eqb_eq in E. subst k2.
  destruct (store_sent insert m' (steps_trans _ _ _ _ Hreach Hsteps) _ _ Hin2) as (j & c & Hj & Hkj & Hsj).
  assert (Hij : i <> j) by (intros <-; rewrite Hi' in Hj; injection Hj as <-; congruence).
  unfold plans_set in H1'. clear - H1' Hi' Hj Hk' Hkj Hij.
  revert i j Hi' Hj Hij H1'. induction (wk_channels (mo_worker m')) as [|a l IH]; intros [|i] [|j] Hi Hj Hij H; cbn in *; try discriminate.
  - congruence.
  - injection Hi as ->. rewrite Hk', Nat.eqb_refl in H. cbn in H.
    assert (Hin : In c (filter (fun ch => ch_key ch =? k) l)).
    { apply filter_In. split; [eapply nth_error_In; eauto|]. now apply Nat.eqb_eq. }
    destruct (filter _ l); [destruct Hin|discriminate].
  - injection Hj as ->. rewrite Hkj, Nat.eqb_refl in H. cbn in H.
    assert (Hin : In ch' (filter (fun ch => ch_key ch =? k) l)).
    { apply filter_In. split; [eapply nth_error_In; eauto|]. now apply Nat.eqb_eq. }
    destruct (filter _ l); [destruct Hin|discriminate].
  - destruct (ch_key a =? k); cbn in H.
    + assert (Hin : In c (filter (fun ch => ch_key ch =? k) l)).
      { apply filter_In. split; [eapply nth_error_In; eauto|]. now apply Nat.eqb_eq. }
      destruct (filter _ l); [destruct Hin|discriminate].
    + eapply (IH i j); eauto.
Qed.

(** Such a history exists, with a data request that is served: it was made while the channel was open, but
    handled after the end of the coordinator's stream. *)
Theorem C35_refuted (base final : plan) (h : head) : insert h base = inl final ->
  exists m : monitored plan head err, monitored_reachable insert m /\
    answered (mo_worker m) 0 3 h (Plan final) /\ quiet (mo_worker m) 3 /\ plans_set (mo_worker m) 3 = 1 /\
    forall m', steps (monitored_step insert) m m' -> plans_set (mo_worker m') 3 = 1 -> wait_returns [3] m' = false.
Proof.
  intros Hf.
  assert (Hrun : exists m : monitored plan head err, monitored_reachable insert m /\
    answered (mo_worker m) 0 3 h (Plan final) /\ quiet (mo_worker m) 3 /\ plans_set (mo_worker m) 3 = 1 /\
    exists ch, nth_error (wk_channels (mo_worker m)) 0 = Some ch /\ ch_key ch = 3 /\ ch_phase ch = Closed None).
  { eexists. split; [|repeat split].
    - unfold monitored_reachable, monitored_new.
      eapply steps_trans; [apply steps_one; apply worker_moves; apply (set_plan _ _ 3 (inl base) true)|cbn].
      eapply steps_trans; [apply steps_one; apply worker_moves; eapply (publish _ _ 0); reflexivity|cbn].
      eapply steps_trans; [apply steps_one; apply worker_moves; apply (data_request _ _ 3 h)|cbn].
      eapply steps_trans; [apply steps_one; apply worker_moves; eapply (end_of_stream _ _ 0); reflexivity|cbn].
      eapply steps_trans; [apply steps_one; apply worker_moves; eapply (answer_request _ _ 0); reflexivity|cbn].
      eapply steps_trans; [apply steps_one; apply worker_moves; eapply (invalidate _ _ 0); reflexivity|cbn].
      apply steps_refl.
    - eexists. cbn. rewrite Hf. reflexivity.
    - intros ch [<-|[]]; cbn; auto.
    - intros r [<-|[]]; cbn; discriminate.
    - reflexivity.
    - eexists. split; [reflexivity|]. split; reflexivity. }
  destruct Hrun as (m & H1 & H2 & H3 & H4 & ch & H5 & H6 & H7). exists m. do 4 (split; [assumption|]).
  intros m' Hsteps Hp. eapply (C35_stuck m 0 ch 3); eauto. now left.
Qed.
End C35.

(** * A history meeting the hypotheses of C34 and C35: a request before its plan, another after it, then the end
    of the coordinator's stream; the metrics are delivered. *)
Example C34_C35_hypotheses_met :
  let insert (h : nat) (p : list nat) : list nat + string := inl (h :: p) in
  exists m : monitored (list nat) nat string, monitored_reachable insert m /\
    answered (mo_worker m) 0 5 1 (Plan [1; 10]) /\ answered (mo_worker m) 1 5 1 (Plan [1; 10]) /\
    set_plan_made (mo_worker m) 0 5 (inl [10]) /\ cached (mo_worker m) 5 = None /\ wait_returns [5] m = true.
Proof.
  intros insert. eexists. split; [|split; [|split; [|split; [|split]]]].
  - unfold monitored_reachable, monitored_new.
    eapply steps_trans; [apply steps_one; apply worker_moves; apply (data_request _ _ 5 1)|cbn].
    eapply steps_trans; [apply steps_one; apply worker_moves; apply (set_plan _ _ 5 (inl [10]) true)|cbn].
    eapply steps_trans; [apply steps_one; apply worker_moves; eapply (publish _ _ 0); reflexivity|cbn].
    eapply steps_trans; [apply steps_one; apply worker_moves; eapply (answer_request _ _ 0); reflexivity|cbn].
    eapply steps_trans; [apply steps_one; apply worker_moves; apply (data_request _ _ 5 1)|cbn].
    eapply steps_trans; [apply steps_one; apply worker_moves; eapply (answer_request _ _ 1); reflexivity|cbn].
    eapply steps_trans; [apply steps_one; apply worker_moves; eapply (end_of_stream _ _ 0); reflexivity|cbn].
    eapply steps_trans; [apply steps_one; apply worker_moves; eapply (invalidate _ _ 0); reflexivity|cbn].
    eapply steps_trans; [apply steps_one; eapply (deliver _ _ _ 0); [reflexivity|right; reflexivity]|cbn].
    apply steps_refl.
  - eexists. reflexivity.
  - eexists. reflexivity.
  - do 3 eexists. reflexivity.
  - reflexivity.
  - reflexivity.
Qed.

Print Assumptions C33_first_write_wins.
Print Assumptions C33_reads_return_first_write.
Print Assumptions C33_timeout_only_if_unwritten.
Print Assumptions C33_written_is_read.
Print Assumptions C33_reads_end.
Print Assumptions C34_plan_of_that_task.
Print Assumptions C34_plan_below_own_head.
Print Assumptions C34_errors_are_of_that_task.
Print Assumptions C34_same_answer.
Print Assumptions C34_one_plan_per_entry.
Print Assumptions C34_closing_forgets_partial.
Print Assumptions C34_leftovers_wait_for_eviction.
Print Assumptions C34_refuted.
Print Assumptions C35_wait_is_stable.
Print Assumptions C35_executed_tasks_partial.
Print Assumptions C35_stuck.
Print Assumptions C35_refuted.
