(** Properties of the connection pool (C29). *)
From Verif Require Import Base CiuModel CiuProofs NetModel PoolModel PoolSpec PoolProofs.

Section Props.
Context {row stream err : Type}.
Variables (workers n : nat) (pl : pool row stream err).
Hypothesis Hreach : pool_reachable workers n pl.

(** At most one request is sent to each producer task, however many calls are made. *)
Theorem C29_one_request_per_task : NoDup (map rq_task (pl_issued pl)).
Proof using Hreach. exact (ok_issued _ _ (pool_ok_reachable _ _ _ Hreach)). Qed.

(** ... and each request sent is answered at most once, so 'the' answer of a task is well defined. *)
Theorem C29_one_answer_per_task t a b : In (t, a) (pl_answers pl) -> In (t, b) (pl_answers pl) -> a = b.
Proof using Hreach.
  pose proof (ok_answers _ _ (pool_ok_reachable _ _ _ Hreach)) as H. intros Ha Hb.
  induction (pl_answers pl) as [|[t' x] l IH]; [destruct Ha|]. cbn in H. apply NoDup_cons_iff in H. destruct H as [Hn H].
  destruct Ha as [Ha|Ha], Hb as [Hb|Hb].
  - congruence.
  - injection Ha as -> ->. destruct Hn. apply (in_map fst) in Hb. exact Hb.
  - injection Hb as -> ->. destruct Hn. apply (in_map fst) in Ha. exact Ha.
  - auto.
Qed.

(** A caller that gets a stream gets the one at the position of its partition in its range, of the producer
    task it asked for. *)
Theorem C29_right_stream c r t i s :
  outcome_of pl c r (Got t i s) ->
  t = rq_task r /\ rq_start r <= rq_target r /\ i = rq_target r - rq_start r /\
  exists l, In (t, inl l) (pl_answers pl) /\ nth_error l i = Some s.
Proof using Hreach. intros H. exact (ok_outcomes _ _ (pool_ok_reachable _ _ _ Hreach) _ _ _ H). Qed.

(** No stream is handed to two callers. *)
Theorem C29_streams_handed_out_once c c' r r' t i s s' :
  outcome_of pl c r (Got t i s) -> outcome_of pl c' r' (Got t i s') -> c = c'.
Proof using Hreach.
  intros H H'. eapply (ok_unique _ _ (pool_ok_reachable _ _ _ Hreach)); [exists r, s; exact H|exists r', s'; exact H'].
Qed.

(** Once the connection of its producer task is up, polling a call whose stream is gone yields an error, and
    an error of this kind is only given if another caller has the stream. *)
Theorem C29_second_caller_fails c r :
  (outcome_of pl c r Consumed ->
     exists c' r' s, c' <> c /\ outcome_of pl c' r' (Got (rq_task r) (rq_target r - rq_start r) s)) /\
  (forall c' r' s o pl',
     outcome_of pl c' r' (Got (rq_task r) (rq_target r - rq_start r) s) -> rq_start r <= rq_target r ->
     nth_error (pl_calls pl) c = Some (r, None) ->
     pool_step workers pl pl' -> outcome_of pl' c r o -> o = Consumed).
Proof using Hreach.
  pose proof (pool_ok_reachable _ _ _ Hreach) as I. split.
  - intros H. destruct (ok_outcomes _ _ I _ _ _ H) as (_ & c' & Hc & (r' & s & Ht)). exists c', r', s. auto.
  - intros c' r' s o pl' Hgot Hle Hpend Hst Ho.
    assert (Hnew : forall x, nth_error (pl_calls pl ++ [x]) c = Some (r, None)) by (intros; now apply nth_snoc_old).
    unfold outcome_of in Ho. destruct Hst as [pl r0|pl t r0 result Hslot|pl c0 r0 g result Hc Hslot Hres]; cbn in Ho.
    + unfold pool_call in Ho. destruct (workers <=? rq_task r0); cbn in Ho; [rewrite Hnew in Ho; congruence|].
      destruct (nth_error (pl_slots pl) (rq_task r0)) as [[g|]|]; cbn in Ho; rewrite Hnew in Ho; congruence.
    + congruence.
    + apply upd_nth_cases in Ho. destruct Ho as [[-> Ho]|[_ Ho]]; [|congruence].
      rewrite Hc in Hpend. injection Hpend as <-. injection Ho as ->.
      destruct (ok_outcomes _ _ I _ _ _ Hgot) as (Et & _ & _ & l & Hl & Hn).
      destruct (ok_groups _ _ I _ _ (slot_intro _ _ _ Hslot)) as (_ & _ & G). rewrite Hres in G.
      destruct result as [streams|e].
      * destruct G as (l2 & Hl2 & Hlen & HG).
        assert (E : l2 = l).
        { assert (E : @inl (list stream) err l2 = inl l).
          { pose proof (ok_answers _ _ I) as HA. revert HA Hl Hl2. clear. induction (pl_answers pl) as [|[t x] m IH]; [intros _ []|].
            cbn. intros HA Ha Hb. apply NoDup_cons_iff in HA. destruct HA as [Hn HA]. destruct Ha as [Ha|Ha], Hb as [Hb|Hb].
            - congruence.
            - injection Ha as -> ->. destruct Hn. apply (in_map fst) in Hb. exact Hb.
            - injection Hb as -> ->. destruct Hn. apply (in_map fst) in Ha. exact Ha.
            - auto. }
          congruence. }
        subst l2. destruct (HG _ _ Hn) as [[_ H2]|[H1 _]]; [destruct (H2 c'); exists r', s; exact Hgot|].
        unfold first_item. destruct (Nat.ltb_spec (rq_target r0) (rq_start r0)); [lia|]. now rewrite H1.
      * pose proof (ok_answers _ _ I) as HA. exfalso. revert HA Hl G. clear. induction (pl_answers pl) as [|[t x] m IH]; [intros _ []|].
        cbn. intros HA Ha Hb. apply NoDup_cons_iff in HA. destruct HA as [Hn HA]. destruct Ha as [Ha|Ha], Hb as [Hb|Hb].
        -- congruence.
        -- injection Ha as -> ->. destruct Hn. apply (in_map fst) in Hb. exact Hb.
        -- injection Hb as -> ->. destruct Hn. apply (in_map fst) in Ha. exact Ha.
        -- auto.
Qed.

(** If the request to a producer task failed, every caller asking that task gets the error: nobody gets a
    stream, and nobody gets an error only by chance. *)
Theorem C29_failure_reaches_everyone c r o e :
  In (rq_task r, inr e) (pl_answers pl) -> rq_task r < workers -> rq_task r < n ->
  rq_start r <= rq_target r -> outcome_of pl c r o -> o = ConnectionFailed e.
Proof using Hreach.
  intros Hin Hw Hn Hle Ho. destruct (checks_ok_reachable _ _ _ Hreach) as (_ & C1 & C2 & _). pose proof (pool_ok_reachable _ _ _ Hreach) as I.
  pose proof (ok_outcomes _ _ I _ _ _ Ho) as H. destruct o; cbn in H.
  - apply C1 in Ho. lia.
  - apply C2 in Ho. lia.
  - destruct H as (-> & _ & _ & l & Hl & _). pose proof (C29_one_answer_per_task _ _ _ Hin Hl). discriminate.
  - pose proof (C29_one_answer_per_task _ _ _ Hin H). congruence.
  - destruct H as (_ & l & Hl & _). pose proof (C29_one_answer_per_task _ _ _ Hin Hl). discriminate.
  - destruct H as (_ & c' & _ & (r' & s & Hc)). destruct (ok_outcomes _ _ I _ _ _ Hc) as (_ & _ & _ & l & Hl & _).
    pose proof (C29_one_answer_per_task _ _ _ Hin Hl). discriminate.
  - lia.
Qed.

(** Calls that fit together, of producer tasks that exist and answer with as many streams as asked for: every caller gets the stream of its partition, or the error of the
    connection; no call fails because of another call. *)
Theorem C29_fitting_calls_succeed c r o :
  fitting (map fst (pl_calls pl)) ->
  (forall t l, In (t, inl l) (pl_answers pl) -> exists q, In q (pl_issued pl) /\ rq_task q = t /\ List.length l = rq_end q - rq_start q) ->
  rq_task r < workers -> rq_task r < n -> outcome_of pl c r o ->
  (exists l s, In (rq_task r, inl l) (pl_answers pl) /\ nth_error l (rq_target r - rq_start r) = Some s /\
               o = Got (rq_task r) (rq_target r - rq_start r) s) \/
  (exists e, In (rq_task r, inr e) (pl_answers pl) /\ o = ConnectionFailed e).
Proof using Hreach.
  intros (F1 & F2 & F3) Hlen Hw Hn Ho. destruct (checks_ok_reachable _ _ _ Hreach) as (_ & C1 & C2 & Hsub). pose proof (pool_ok_reachable _ _ _ Hreach) as I.
  assert (Hr : In r (map fst (pl_calls pl))).
  { apply nth_error_In in Ho. apply (in_map fst) in Ho. exact Ho. }
  pose proof (F2 _ Hr) as HR.
  pose proof (ok_outcomes _ _ I _ _ _ Ho) as H. destruct o; cbn in H.
  - apply C1 in Ho. lia.
  - apply C2 in Ho. lia.
  - destruct H as (-> & _ & -> & l & Hl & Hn'). left. eauto 10.
  - right. eauto.
  - destruct H as (_ & l & Hl & Hle). destruct (Hlen _ _ Hl) as (q & Hq & Ht & E).
    destruct (F1 q r (Hsub _ Hq) Hr Ht) as (E1 & E2 & _). lia.
  - destruct H as (_ & c' & Hc & (r' & s & Hc')).
    destruct (ok_outcomes _ _ I _ _ _ Hc') as (Et & Hle & Ei & _).
    assert (Hr' : In r' (map fst (pl_calls pl))).
    { apply nth_error_In in Hc'. apply (in_map fst) in Hc'. exact Hc'. }
    destruct (F1 r r' Hr Hr' Et) as (E1 & _).
    exfalso. apply Hc.
    rewrite NoDup_nth_error in F3. apply F3.
    + rewrite !map_length. apply nth_error_Some. congruence.
    + rewrite !nth_error_map, Hc', Ho. cbn. do 2 f_equal; [congruence|lia].
  - lia.
Qed.

(** A call never waits forever: when the connection of its producer task is up, it can be polled. *)
Theorem C29_calls_can_be_polled c r :
  nth_error (pl_calls pl) c = Some (r, None) ->
  exists g, nth_error (pl_slots pl) (rq_task r) = Some (Some g) /\ In (g_request g) (pl_issued pl) /\
    rq_task (g_request g) = rq_task r /\
    (g_result g <> None -> exists pl' o, pool_step workers pl pl' /\ outcome_of pl' c r o).
Proof using Hreach.
  intros H. pose proof (pool_ok_reachable _ _ _ Hreach) as I. destruct (ok_pending _ _ I _ _ H) as [g Hg].
  destruct (ok_groups _ _ I _ _ Hg) as (G1 & G2 & _). exists g. split; [now apply slot_inv|]. split; [assumption|]. split; [assumption|].
  intros Hres. destruct (g_result g) as [result|] eqn:E; [|congruence]. do 2 eexists. split.
  - eapply poll_step; [exact H|apply slot_inv; exact Hg|exact E].
  - unfold outcome_of. cbn. eapply upd_nth_same; eauto.
Qed.
End Props.

(** * The calls of the network boundaries fit together *)
Section Boundaries.
Context {row : Type}.

Lemma fitting_shape (calls : list (request row)) (start len : nat) (h : head row) :
  (forall a, In a calls -> rq_start a = start /\ rq_end a = start + len /\ rq_head a = h /\ start <= rq_target a < start + len) ->
  NoDup (map (fun a => (rq_task a, rq_target a)) calls) -> fitting calls.
Proof.
  intros H Hn. split; [|split; [|assumption]].
  - intros a b Ha Hb _. destruct (H _ Ha) as (-> & -> & -> & _), (H _ Hb) as (-> & -> & -> & _). auto.
  - intros a Ha. destruct (H _ Ha) as (-> & -> & _ & ?). assumption.
Qed.


Lemma NoDup_product (f : nat -> nat) tasks ps :
  NoDup tasks -> NoDup ps -> (forall a b, f a = f b -> a = b) ->
  NoDup (flat_map (fun p => map (fun t => (t, f p)) tasks) ps : list (nat * nat)).
Proof.
  intros Ht Hp Hf. induction Hp as [|p ps Hnp Hp IH]; [constructor|]. cbn. apply NoDup_app_disjoint; [|assumption|].
  - clear - Ht. induction Ht as [|t ts Hn Ht IH]; cbn; constructor; auto. intros Hin. apply in_map_iff in Hin.
    destruct Hin as (t' & E & Hin). injection E as ->. contradiction.
  - intros x Hx Hy. apply in_map_iff in Hx. destruct Hx as (t & <- & _). apply in_flat_map in Hy.
    destruct Hy as (p' & Hp' & Hy). apply in_map_iff in Hy. destruct Hy as (t' & E & _). injection E as _ E.
    apply Hf in E. subst. contradiction.
Qed.

(** Executing each output partition of a shuffle at most once. *)
Theorem C29_shuffle_calls_fit (s : shuffle row) workers ctx ps calls :
  NoDup ps -> (forall p, In p ps -> p < partition_count (sh_part s)) ->
  mapM (shuffle_requests s workers ctx) ps = Ok calls -> fitting (List.concat calls).
Proof.
  intros Hnd Hps H. unfold shuffle_requests in H. set (P := partition_count (sh_part s)) in *.
  destruct (shuffle_producer_head s (task_count ctx)) as [h|e|e] eqn:Hh.
  - assert (E : mapM (fun p => mapM (fun i => let* h0 := Ok h in
        Ok (mkReq (P * task_index ctx) (P * task_index ctx + P) i (P * task_index ctx + p) h0)) (seq 0 workers)) ps =
      Ok (map (fun p => map (fun i => mkReq (P * task_index ctx) (P * task_index ctx + P) i (P * task_index ctx + p) h) (seq 0 workers)) ps)).
    { apply mapM_ok_intro. intros p Hp. apply mapM_ok_intro. reflexivity. }
    cbn zeta in H. rewrite E in H. injection H as <-.
    rewrite <- flat_map_concat_map. apply fitting_shape with (start := P * task_index ctx) (len := P) (h := h).
    + intros a Ha. apply in_flat_map in Ha. destruct Ha as (p & Hp & Ha). apply in_map_iff in Ha. destruct Ha as (i & <- & _). cbn.
      specialize (Hps _ Hp). do 3 (split; [reflexivity|]). lia.
    + rewrite map_flat_map.
      erewrite flat_map_ext; [apply (NoDup_product (fun p => P * task_index ctx + p) (seq 0 workers) ps)|]; auto using seq_NoDup; [lia|].
      intros p. rewrite map_map. reflexivity.
  - destruct ps as [|p ps]; [cbn in H; injection H as <-; cbn; split; [intros ? ? []|split; [intros ? []|constructor]]|].
    destruct workers as [|w]; [|cbn in H; discriminate].
    assert (E : calls = map (fun _ => []) (p :: ps)).
    { clear - H. cbn [seq] in H. revert calls H. induction (p :: ps) as [|q qs IH]; intros calls H; cbn in H; [cbn; congruence|].
      destruct (mapM _ qs) as [ys| |]; cbn in H; try discriminate. injection H as <-. cbn. f_equal. auto. }
    subst. replace (List.concat (map (fun _ : nat => @nil (request row)) (p :: ps))) with (@nil (request row)).
    + split; [intros ? ? []|split; [intros ? []|constructor]].
    + symmetry. generalize (p :: ps). clear. intros l. induction l; cbn; auto.
  - destruct ps as [|p ps]; [cbn in H; injection H as <-; cbn; split; [intros ? ? []|split; [intros ? []|constructor]]|].
    destruct workers as [|w]; [|cbn in H; discriminate].
    assert (E : calls = map (fun _ => []) (p :: ps)).
    { clear - H. cbn [seq] in H. revert calls H. induction (p :: ps) as [|q qs IH]; intros calls H; cbn in H; [cbn; congruence|].
      destruct (mapM _ qs) as [ys| |]; cbn in H; try discriminate. injection H as <-. cbn. f_equal. auto. }
    subst. replace (List.concat (map (fun _ : nat => @nil (request row)) (p :: ps))) with (@nil (request row)).
    + split; [intros ? ? []|split; [intros ? []|constructor]].
    + symmetry. generalize (p :: ps). clear. intros l. induction l; cbn; auto.
Qed.

(** The same for a broadcast. *)
Theorem C29_broadcast_calls_fit (b : broadcast row) workers ctx ps :
  NoDup ps -> (forall p, In p ps -> p < br_parts b) ->
  fitting (flat_map (broadcast_requests b workers ctx) ps).
Proof.
  intros Hnd Hps. apply fitting_shape with (start := br_parts b * task_index ctx) (len := br_parts b) (h := broadcast_producer_head b (task_count ctx)).
  - intros a Ha. apply in_flat_map in Ha. destruct Ha as (p & Hp & Ha). apply in_map_iff in Ha. destruct Ha as (i & <- & _). cbn.
    specialize (Hps _ Hp). do 3 (split; [reflexivity|]). lia.
  - rewrite map_flat_map. unfold broadcast_requests.
    erewrite flat_map_ext; [apply (NoDup_product (fun p => br_parts b * task_index ctx + p) (seq 0 workers) ps)|]; auto using seq_NoDup; [lia|].
    intros p. rewrite map_map. reflexivity.
Qed.

(** The same for a coalesce. *)
Theorem C29_coalesce_calls_fit (c : coalesce row) ctx ps calls :
  NoDup ps -> mapM (coalesce_request c ctx) ps = Ok calls ->
  fitting (flat_map (fun o => match o with Some r => [r] | None => [] end) calls).
Proof.
  intros Hnd H. unfold coalesce_request in H.
  destruct (task_count ctx <=? task_index ctx).
  { destruct ps; [|discriminate]. cbn in H. injection H as <-. cbn. split; [intros ? ? []|split; [intros ? []|constructor]]. }
  cbn zeta in H. set (ppt := _ / Nat.max _ 1) in H. set (grp := task_group _ _ _) in H.
  destruct (ppt =? 0) eqn:E0.
  { destruct ps; [|discriminate]. cbn in H. injection H as <-. cbn. split; [intros ? ? []|split; [intros ? []|constructor]]. }
  apply Nat.eqb_neq in E0. clearbody ppt grp. apply mapM_ok_inv in H.
  set (R := fun p => mkReq 0 ppt (start_task grp + p / ppt) (p mod ppt) (coalesce_producer_head c (task_count ctx))).
  assert (HR : exists qs, NoDup qs /\ (forall q, In q qs -> In q ps) /\
     flat_map (fun o => match o with Some r => [r] | None => [] end) calls = map R qs).
  { clear - H Hnd. induction H as [|p o ps calls Hp H IH]; [exists []; split; [constructor|]; split; [intros ? []|reflexivity]|].
    apply NoDup_cons_iff in Hnd. destruct Hnd as [Hn Hnd]. destruct (IH Hnd) as (qs & Q1 & Q2 & Q3). clear IH.
    destruct (group_len grp <=? p / ppt).
    - injection Hp as <-. exists qs. split; [assumption|]. split; [intros; right; auto|]. cbn. assumption.
    - destruct (max_len grp <=? p / ppt); [discriminate|]. injection Hp as <-. exists (p :: qs).
      split; [constructor; [intros Hq; apply Q2 in Hq; contradiction|assumption]|].
      split; [intros q [->|Hq]; [now left|right; auto]|]. cbn. f_equal. assumption. }
  destruct HR as (qs & Q1 & _ & ->). apply fitting_shape with (start := 0) (len := ppt) (h := coalesce_producer_head c (task_count ctx)).
  - intros a Ha. apply in_map_iff in Ha. destruct Ha as (p & <- & _). cbn. pose proof (Nat.mod_upper_bound p ppt E0). do 3 (split; [reflexivity|]). lia.
  - rewrite map_map. cbn. clear - Q1 E0. induction Q1 as [|p qs Hn Q1 IH]; cbn; constructor; auto.
    intros Hin. apply in_map_iff in Hin. destruct Hin as (q & E & Hq). injection E as E1 E2. apply Hn.
    replace p with q; [assumption|]. rewrite (Nat.div_mod q ppt E0), (Nat.div_mod p ppt E0). rewrite E2. do 2 f_equal. lia.
Qed.
End Boundaries.

(** * A history meeting the hypotheses: a pool for two producer tasks; partition 4 and 5 of task 0 are asked
    for, partition 5 twice; the request to task 1 fails. *)
Definition ex_req (task target : nat) : request nat := mkReq 4 6 task target HNone.

Example C29_hypotheses_met : exists pl : pool nat string string,
  pool_reachable 2 2 pl /\
  map snd (pl_calls pl) = [Some (Got 0 1 "b"); Some (Got 0 0 "a"); Some Consumed; Some (ConnectionFailed "down"); Some NoWorker]%string /\
  map rq_task (pl_issued pl) = [0; 1].
Proof.
  eexists. split; [|split].
  - unfold pool_reachable, pool_new. cbn [repeat].
    eapply steps_trans; [apply steps_one; apply (call_step 2 _ (ex_req 0 5))|cbn].
    eapply steps_trans; [apply steps_one; apply (call_step 2 _ (ex_req 0 4))|cbn].
    eapply steps_trans; [apply steps_one; apply (call_step 2 _ (ex_req 0 5))|cbn].
    eapply steps_trans; [apply steps_one; apply (call_step 2 _ (ex_req 1 4))|cbn].
    eapply steps_trans; [apply steps_one; apply (call_step 2 _ (ex_req 2 4))|cbn].
    eapply steps_trans; [apply steps_one; apply (resolve_step 2 _ 0 (ex_req 0 5) (inl ["a"%string; "b"%string])); reflexivity|cbn].
    eapply steps_trans; [apply steps_one; apply (resolve_step 2 _ 1 (ex_req 1 4) (inr "down"%string)); reflexivity|cbn].
    eapply steps_trans; [apply steps_one; eapply (poll_step 2 _ 0); reflexivity|cbn].
    eapply steps_trans; [apply steps_one; eapply (poll_step 2 _ 1); reflexivity|cbn].
    eapply steps_trans; [apply steps_one; eapply (poll_step 2 _ 2); reflexivity|cbn].
    eapply steps_trans; [apply steps_one; eapply (poll_step 2 _ 3); reflexivity|cbn].
    apply steps_refl.
  - reflexivity.
  - reflexivity.
Qed.

Print Assumptions C29_one_request_per_task.
Print Assumptions C29_one_answer_per_task.
Print Assumptions C29_right_stream.
Print Assumptions C29_streams_handed_out_once.
Print Assumptions C29_second_caller_fails.
Print Assumptions C29_failure_reaches_everyone.
Print Assumptions C29_fitting_calls_succeed.
Print Assumptions C29_calls_can_be_polled.
Print Assumptions C29_shuffle_calls_fit.
Print Assumptions C29_broadcast_calls_fit.
Print Assumptions C29_coalesce_calls_fit.
