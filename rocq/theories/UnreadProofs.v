(** Proofs about connections with streams that nobody reads. *)
From Verif Require Import Base CiuModel CiuProofs DemuxModel DemuxSpec DemuxProofs UnreadSpec.

Section Run.
Context {data err : Type}.
Notation source_item := (@item data + err)%type.
Notation conn := (@conn data err).
Notation part := (@part data err).
Implicit Types (k : conn) (p : part).
Variables (start budget capacity : nat) (bad : nat -> err) (unread : nat -> bool).
Notation step := (conn_step start budget capacity bad).
Notation inv := (inv budget).

Ltac simp := cbn [set_parts set_phase fanout k_parts k_phase k_reserved k_permit k_first k_cancelled k_leaked k_failed
   k_crashed k_sizes p_src p_buf p_lost p_queue p_live p_polled p_got p_ended] in *.
Ltac recv_case k i p Hp :=
  assert (Hi : i < List.length (k_parts k)) by (apply nth_error_Some; congruence);
  rewrite sender_of_tag in * by assumption; simp.
Ltac calm_tac k i p v Hp :=
  destruct (calm_upd k i p v Hp eq_refl eq_refl) as [? ?]; unfold calm; simp; auto 10.

Lemma search_at {A} (f : nat -> A -> bool) (l : list A) :
  (exists i a, nth_error l i = Some a /\ f i a = true) \/ (forall i a, nth_error l i = Some a -> f i a = false).
Proof.
  revert f. induction l as [|x l IH]; intros f.
  - right. intros [|i] a; discriminate.
  - destruct (IH (fun i => f (S i))) as [(i & a & H)|H].
    + left. exists (S i), a. exact H.
    + destruct (f 0 x) eqn:E; [left; exists 0, x; auto|]. right. intros [|i] a Ha; cbn in Ha; [congruence|]. exact (H i a Ha).
Qed.

Lemma alone_same k k' : k_parts k' = k_parts k -> leaves_alone unread k k'.
Proof. intros E i _. now rewrite E. Qed.

Lemma alone_upd k k' i p v : nth_error (k_parts k) i = Some p -> k_parts k' = upd (k_parts k) i v ->
  unread i = false \/ (p_polled v = p_polled p /\ p_got v = p_got p /\ p_ended v = p_ended p) -> leaves_alone unread k k'.
Proof.
  intros Hp E H j Hj. rewrite E, upd_nth. destruct (Nat.eqb_spec i j) as [->|]; [|reflexivity].
  destruct H as [H|(H1 & H2 & H3)]; [congruence|]. rewrite Hp. cbn. congruence.
Qed.

Lemma alone_fanout k k1 e : leaves_alone unread k k1 -> leaves_alone unread k (fanout k1 e).
Proof.
  intros H i Hi. rewrite <- (H i Hi). cbn [fanout k_parts]. rewrite nth_error_map.
  destruct (nth_error (k_parts k1) i) as [p|]; [|reflexivity]. cbn. now rewrite send_part_polled, send_part_got, send_part_ended.
Qed.

Lemma bytes_le (a b : list source_item) : bytes a <= bytes (a ++ b).
Proof. rewrite bytes_app. lia. Qed.

(** What is buffered, if it is buffered for the streams in [unread] only. *)
Lemma unread_sum (ps : list part) : forall (sources : list (list source_item)) o,
  List.length ps = List.length sources ->
  (forall i p s, nth_error ps i = Some p -> nth_error sources i = Some s ->
     live_bytes p <= if unread (o + i) then bytes s else 0) ->
  list_sum (map live_bytes ps) <= unread_bytes unread o sources.
Proof.
  induction ps as [|p ps IH]; intros [|s sources] o HL H; cbn in HL; try discriminate; [cbn; lia|].
  cbn [map unread_bytes]. change (list_sum (?a :: ?l)) with (a + list_sum l).
  pose proof (H 0 p s eq_refl eq_refl) as H0. rewrite Nat.add_0_r in H0.
  assert (list_sum (map live_bytes ps) <= unread_bytes unread (S o) sources); [|lia].
  apply IH; [lia|]. intros i q t Hq Ht. rewrite Nat.add_succ_comm. exact (H (S i) q t Hq Ht).
Qed.

Lemma quiet_progress sources k :
  inv sources k -> k_crashed k = false -> k_leaked k + unread_bytes unread 0 sources < budget -> 0 < capacity ->
  (forall i p, nth_error (k_parts k) i = Some p -> unread i = false -> p_live p = true -> p_ended p = true) \/
  exists k', quiet_step unread start budget capacity bad k k'.
Proof.
  intros I C HL Hcap.
  destruct (search_at (fun i p => negb (unread i) && (p_live p && negb (p_polled p))) (k_parts k)) as [(i & p & Hp & Hb)|Hpoll].
  { apply andb_true_iff in Hb as [Hu Hb]. apply negb_true_iff in Hu. apply andb_true_iff in Hb as [Hl Hb]. apply negb_true_iff in Hb.
    right. eexists. split; [split; [eapply first_poll; eauto|]|].
    - calm_tac k i p (mkPart (p_src p) (p_buf p) (p_lost p) (p_queue p) (p_live p) true (p_got p) (p_ended p)) Hp.
    - eapply alone_upd; [exact Hp|reflexivity|now left]. }
  assert (Hpolled : forall i p, nth_error (k_parts k) i = Some p -> unread i = false -> p_live p = true -> p_polled p = true).
  { intros i p Hp Hu Hl. specialize (Hpoll _ _ Hp). cbn beta in Hpoll. rewrite Hl, Hu in Hpoll. now destruct (p_polled p). }
  destruct (search_at (fun i p => negb (unread i) && (p_live p && match p_queue p with [] => false | _ => true end)) (k_parts k)) as [(i & p & Hp & Hb)|Hq].
  { apply andb_true_iff in Hb as [Hu Hb]. apply negb_true_iff in Hu. apply andb_true_iff in Hb as [Hl Hb]. right.
    destruct (p_queue p) as [|[it|e] rest] eqn:Hq; [discriminate| |].
    - eexists. split; [split; [eapply poll_item; eauto|]|].
      + calm_tac k i p (mkPart (p_src p) (p_buf p) (p_lost p) rest (p_live p) true (p_got p ++ [inl it]) (p_ended p)) Hp.
      + eapply alone_upd; [exact Hp|reflexivity|now left].
    - eexists. split; [split; [eapply poll_error; eauto|]|].
      + calm_tac k i p (mkPart (p_src p) (p_buf p) (p_lost p) rest (p_live p) true (p_got p ++ [inr e]) (p_ended p)) Hp.
      + eapply alone_upd; [exact Hp|reflexivity|now left]. }
  assert (Hempty : forall i p, nth_error (k_parts k) i = Some p -> unread i = false -> p_live p = true -> p_queue p = []).
  { intros i p Hp Hu Hl. specialize (Hq _ _ Hp). cbn beta in Hq. rewrite Hl, Hu in Hq. now destruct (p_queue p). }
  destruct (search_at (fun i p => negb (unread i) && (p_live p && negb (p_ended p))) (k_parts k)) as [(i & p & Hp & Hb)|He].
  2: { left. intros i p Hp Hu Hl. specialize (He _ _ Hp). cbn beta in He. rewrite Hl, Hu in He. now destruct (p_ended p). }
  right. apply andb_true_iff in Hb as [Hu Hb]. apply negb_true_iff in Hu. apply andb_true_iff in Hb as [Hl Hb]. apply negb_true_iff in Hb.
  assert (K : k_cancelled k = false).
  { destruct (k_cancelled k) eqn:E; [|reflexivity]. rewrite (inv_cancelled _ _ _ I E _ _ Hp) in Hl. discriminate. }
  destruct (k_phase k) eqn:Hph.
  - (* WaitPoll *)
    assert (k_first k = true).
    { destruct (inv_polled _ _ _ I) as [H|[H|[H|H]]]; [congruence|assumption|congruence|].
      specialize (H _ _ Hp). rewrite (Hpolled _ _ Hp Hu Hl) in H. discriminate. }
    eexists. split; [split; [apply demux_connect; auto|unfold calm; simp; auto 10]|apply alone_same; reflexivity].
  - (* Gate *)
    destruct (Nat.lt_ge_cases (k_reserved k) budget).
    + eexists. split; [split; [apply demux_gate_open; auto|unfold calm; simp; auto 10]|apply alone_same; reflexivity].
    + eexists. split; [split; [apply demux_gate_closed; auto|unfold calm; simp; auto 10]|apply alone_same; reflexivity].
  - (* Blocked *)
    destruct (k_permit k) eqn:Hpe.
    + eexists. split; [split; [apply demux_notified; auto|unfold calm; simp; auto 10]|apply alone_same; reflexivity].
    + pose proof (inv_blocked _ _ _ I Hph Hpe) as HB. rewrite (inv_bytes _ _ _ I C), buffered_eq in HB.
      unfold flight in HB. rewrite Hph in HB.
      assert (HZ : list_sum (map live_bytes (k_parts k)) <= unread_bytes unread 0 sources).
      { apply unread_sum; [exact (inv_len _ _ _ I)|]. intros j q s Hj Hs. cbn [plus].
        unfold live_bytes. destruct (p_live q) eqn:Lq; [|lia]. destruct (unread j) eqn:Uj; [|now rewrite (Hempty _ _ Hj Uj Lq)].
        assert (F : k_failed k = None) by (apply (running_clean _ _ _ I); congruence).
        destruct (inv_part _ _ _ I _ _ _ Hs Hj) as (P1 & _). destruct (P1 F) as (A & T & -> & _ & -> & _).
        rewrite !bytes_app. lia. }
      lia.
  - (* Recv *)
    destruct (search (fun p => match p_buf p with [] => false | _ => true end) (k_parts k)) as [(j & q & Hj & Hq2)|Hbuf].
    + destruct (p_buf q) as [|[it|e] rest] eqn:Hbq; [discriminate| |].
      * eexists. split; [split; [eapply demux_recv; eauto|]|]; cbv zeta; recv_case k j q Hj.
        -- calm_tac k j q (mkPart (p_src q) rest (p_lost q) (p_queue q) (p_live q) (p_polled q) (p_got q) (p_ended q)) Hj.
        -- eapply alone_upd; [exact Hj|reflexivity|right; auto].
      * eexists. split; [split; [eapply demux_recv_error; eauto|]|].
        -- destruct (calm_upd k j q (mkPart (p_src q) rest (p_lost q) (p_queue q) (p_live q) (p_polled q) (p_got q) (p_ended q)) Hj eq_refl eq_refl) as [H1 H2].
           unfold calm. simp. destruct (fanout_calm (upd (k_parts k) j (mkPart (p_src q) rest (p_lost q) (p_queue q) (p_live q) (p_polled q) (p_got q) (p_ended q))) e) as [H3 H4].
           rewrite H3, H4. do 4 (split; [assumption || reflexivity|]). right. exists q, e. split; [now apply nth_error_In in Hj|].
           rewrite Hbq. split; [now left|reflexivity].
        -- apply alone_fanout. eapply alone_upd; [exact Hj|reflexivity|right; auto].
    + destruct (search (fun p => match p_src p with [] => false | _ => true end) (k_parts k)) as [(j & q & Hj & Hq2)|Hsrc].
      * destruct (p_src q) as [|m rest] eqn:Hsq; [discriminate|].
        assert (Hbq : p_buf q = []) by (specialize (Hbuf _ _ Hj); now destruct (p_buf q)).
        eexists. split; [split; [eapply worker_pull; eauto; rewrite Hbq; assumption|]|].
        -- calm_tac k j q (mkPart rest (p_buf q ++ [m]) (p_lost q) (p_queue q) (p_live q) (p_polled q) (p_got q) (p_ended q)) Hj.
        -- eapply alone_upd; [exact Hj|reflexivity|right; auto].
      * eexists. split; [split; [apply demux_exhausted; auto|unfold calm; simp; auto 10]|apply alone_same; reflexivity].
        apply Forall_forall. intros x Hx. apply In_nth_error in Hx. destruct Hx as [j Hj].
        specialize (Hsrc _ _ Hj). specialize (Hbuf _ _ Hj). destruct (p_src x), (p_buf x); try discriminate; auto.
  - (* Sending *)
    pose proof (inv_sending _ _ _ I _ _ Hph) as Hi. destruct (nth_error (k_parts k) i0) as [q|] eqn:Hj; [|apply nth_error_None in Hj; lia].
    eexists. split; [split; [eapply demux_send; eauto|]|].
    + destruct (calm_upd k i0 q (send_part q (inl it)) Hj (send_part_live _ _) (send_part_lost _ _)) as [? ?].
      unfold calm; simp; auto 10.
    + eapply alone_upd; [exact Hj|reflexivity|right]. now rewrite send_part_polled, send_part_got, send_part_ended.
  - (* Done *)
    eexists. split; [split; [eapply (poll_end _ _ _ _ k i p); eauto|]|].
    + calm_tac k i p (mkPart (p_src p) (p_buf p) (p_lost p) [] (p_live p) true (p_got p) true) Hp.
    + eapply alone_upd; [exact Hp|reflexivity|now left].
Qed.

Lemma quiet_drains sources k :
  inv sources k -> k_crashed k = false -> k_leaked k + unread_bytes unread 0 sources < budget -> 0 < capacity ->
  exists k', steps (quiet_step unread start budget capacity bad) k k' /\
    forall i p, nth_error (k_parts k') i = Some p -> unread i = false -> p_live p = true -> p_ended p = true.
Proof.
  remember (conn_weight k) as w. revert k Heqw. induction w as [w IH] using lt_wf_ind.
  intros k -> I C HL Hcap. destruct (quiet_progress sources k I C HL Hcap) as [H|(k1 & Hst)].
  - exists k. split; [constructor|assumption].
  - pose proof (calm_leaked _ _ _ _ _ _ (proj1 Hst)) as HL1. pose proof Hst as [[Hs Hc] _].
    destruct (IH (conn_weight k1)) with (k := k1) as (k2 & Hr & H2); auto.
    + eapply step_weight. exact Hs.
    + eapply inv_step; eauto.
    + destruct Hc as (_ & _ & -> & _). assumption.
    + lia.
    + exists k2. split; [|assumption]. eapply steps_trans; [eapply steps_one; exact Hst|eassumption].
Qed.

(** What a quiet run keeps. *)
Lemma quiet_keeps sources k k' : conn_reachable start budget capacity bad sources k -> k_crashed k = false ->
  (forall q, In q (k_parts k) -> p_lost q = []) -> (forall j s, nth_error sources j = Some s -> error_free s) -> k_failed k = None ->
  steps (quiet_step unread start budget capacity bad) k k' ->
  conn_reachable start budget capacity bad sources k' /\ k_crashed k' = false /\
  (forall q, In q (k_parts k') -> p_lost q = []) /\ k_failed k' = None.
Proof.
  intros H C Hlost Hef F Hk. induction Hk as [|a b c Hk IH Hst]; [auto|]. destruct (IH H C Hlost F) as (R1 & C1 & L1 & F1).
  pose proof (inv_reachable _ _ _ _ _ _ R1) as I1. destruct Hst as [[Hst (_ & Hlo & Hcr & _ & Hfa)] _].
  split; [eapply steps_next; eauto|]. split; [congruence|]. split.
  - intros q Hq. assert (Hin : In (p_lost q) (map p_lost (k_parts b))) by (rewrite <- Hlo; now apply in_map).
    apply in_map_iff in Hin. destruct Hin as (q' & <- & Hq'). auto.
  - destruct Hfa as [Hfa|(q & e & Hq & He & _)]; [congruence|]. exfalso.
    apply In_nth_error in Hq. destruct Hq as [j Hq].
    assert (HS : exists s, nth_error sources j = Some s).
    { destruct (nth_error sources j) eqn:E; [eauto|]. apply nth_error_None in E. rewrite <- (inv_len _ _ _ I1) in E.
      assert (j < List.length (k_parts b)) by (apply nth_error_Some; congruence). lia. }
    destruct HS as [s HS]. destruct (inv_part _ _ _ I1 _ _ _ HS Hq) as (P1 & _). destruct (P1 F1) as (A & T & HSA & _).
    apply (Hef _ _ HS e). rewrite HSA. apply in_or_app. right. apply in_or_app. now left.
Qed.
End Run.
