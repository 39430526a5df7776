(** Properties C27 and (broadcast part) C28. *)
From Verif Require Import Base CiuModel CiuProofs BcastModel BcastSpec BcastProofs.

(** * C27: broadcast consumers *)

(** In every reachable state every handed out stream has yielded a prefix of the input's messages (up to
    and including its first error), and all of them if it ended and the input did not crash. *)
Theorem C27_every_consumer_sees_everything : forall (batch err : Type) (nd : @node batch err) st h r c input,
  steps (node_step nd) (init_state nd) st ->
  stream_at st h = Some (r, c) -> nth_error (n_input nd) (fst h) = Some (inl input) ->
  prefix (c_got c) (until_error input) /\
  (c_ended c = true -> r_crashed r = false -> c_got c = until_error input).
Proof.
  intros batch err nd st h r c input Hst Hs Hi. apply node_ok_reachable in Hst.
  destruct (stream_ok _ _ _ _ _ _ Hst Hs Hi) as (todo & E & Hp & Hc). injection E as <-.
  destruct Hc as (Hg & Hix & Hl & Hcl & Hse & Hw & He). split.
  - destruct (producer_ok_prefix _ _ _ _ Hp) as [rest ->]. rewrite Hg.
    exists (skipn (c_index c) (q_entries (r_queue r)) ++ rest). now rewrite app_assoc, firstn_skipn.
  - intros Hen Hcr. destruct (He Hen) as [H1 H2]. destruct (Hcl H1) as [H3 H4].
    destruct (producer_ok_closed _ _ _ _ Hp H3) as (H5 & H6 & _). rewrite Hg, H2, H4, H5, firstn_all. auto.
Qed.

Print Assumptions C27_every_consumer_sees_everything.

(** Every call of [execute]: the [i]-th call for an input partition gets the [i]-th consumer of that
    partition, calls beyond the declared consumers fail; if the input could not be executed, all fail. *)
Theorem C27_answers : forall (batch err : Type) (nd : @node batch err) st real inp,
  steps (node_step nd) (init_state nd) st -> nth_error (n_input nd) real = Some inp ->
  map snd (filter (fun '(p, _) => p mod List.length (n_input nd) =? real) (st_answers st)) =
  map (fun i => match inp with
                | inr e => inr (InputError e)
                | inl _ => if i <? n_consumers nd then inl (real, i) else inr (TooManyConsumers real)
                end) (seq 0 (calls nd st real)).
Proof.
  intros batch err nd st real inp Hst Hi. apply node_ok_reachable in Hst. destruct Hst as (L1 & L2 & H).
  destruct (nth_error (st_slots st) real) as [s|] eqn:Es.
  - destruct (H _ _ _ Es Hi) as (_ & _ & Ha). exact Ha.
  - exfalso. apply nth_error_None in Es. assert (real < List.length (n_input nd)) by (apply nth_error_Some; congruence). lia.
Qed.

Print Assumptions C27_answers.

(** Every input partition is executed at most once, namely once as soon as it was asked for. *)
Theorem C27_input_executed_once : forall (batch err : Type) (nd : @node batch err) st real inp,
  steps (node_step nd) (init_state nd) st -> nth_error (n_input nd) real = Some inp ->
  nth_error (st_executed st) real = Some (if calls nd st real =? 0 then 0 else 1).
Proof.
  intros batch err nd st real inp Hst Hi. apply node_ok_reachable in Hst. destruct Hst as (L1 & L2 & H).
  destruct (nth_error (st_slots st) real) as [s|] eqn:Es.
  - destruct (H _ _ _ Es Hi) as (Hok & He & _). rewrite He. destruct s as [|e|r]; cbn in Hok.
    + now rewrite Hok.
    + destruct (Nat.eqb_spec (calls nd st real) 0); [lia|reflexivity].
    + destruct Hok as (_ & _ & Hn & _). destruct (Nat.eqb_spec (calls nd st real) 0); [lia|reflexivity].
  - exfalso. apply nth_error_None in Es. assert (real < List.length (n_input nd)) by (apply nth_error_Some; congruence). lia.
Qed.

Print Assumptions C27_input_executed_once.

(** No lost wake-up: a poll finds nothing to do only if the stream has been given everything announced
    so far, the queue is open, and the version it waits to change is the current one. *)
Theorem C27_pending_only_when_caught_up : forall (batch err : Type) (nd : @node batch err) st h r c,
  steps (node_step nd) (init_state nd) st -> stream_at st h = Some (r, c) ->
  c_pc c = AtWatch -> c_pc (consumer_next (r_queue r) c) = Outside ->
  c_got c = firstn (q_len (r_queue r)) (q_entries (r_queue r)) /\ q_closed (r_queue r) = false /\
  c_seen c = Some (q_version (r_queue r)).
Proof.
  intros batch err nd st h r c Hst Hs Hpc Hn. apply node_ok_reachable in Hst.
  destruct (stream_input _ _ _ _ _ Hst Hs) as [inp Hi].
  destruct (stream_ok _ _ _ _ _ _ Hst Hs Hi) as (todo & E & Hp & Hc).
  destruct Hc as (Hg & Hix & Hl & Hcl & Hse & Hw & He). destruct (Hw Hpc) as [Hw1 Hw2].
  unfold consumer_next in Hn. rewrite Hpc in Hn. unfold at_watch, watch_ready in Hn.
  destruct (c_seen c) as [v|]; [|discriminate]. destruct (Nat.eqb_spec v (q_version (r_queue r))) as [Ev|Ev]; [|discriminate].
  destruct (Hse _ eq_refl) as [_ Hv]. destruct (Hv Ev) as [H1 H2]. split; [|split; [|now rewrite Ev]].
  - rewrite Hg. f_equal. congruence.
  - destruct (q_closed (r_queue r)); [|reflexivity]. rewrite H2 in Hw2 by reflexivity. discriminate.
Qed.

Print Assumptions C27_pending_only_when_caught_up.

(** Every announcement and the close change the version waited for. *)
Theorem C27_announcements_wake : forall (batch err : Type) (q : @queue batch err) p c q' p' c',
  producer_step (q, p, c) (q', p', c') ->
  q_len q' <> q_len q \/ q_closed q' <> q_closed q -> q_version q' <> q_version q.
Proof. intros batch err q p c q' p' c' H. inversion H; subst; cbn; lia || (intros [X|X]; congruence). Qed.

Print Assumptions C27_announcements_wake.

(** Once the producer is done, polling a stream alone brings it to its end. *)
Theorem C27_polling_ends : forall (batch err : Type) (nd : @node batch err) st h r c,
  steps (node_step nd) (init_state nd) st -> stream_at st h = Some (r, c) -> r_producer r = Finished ->
  exists st' r' c', steps (polls_of nd h) st st' /\ stream_at st' h = Some (r', c') /\ c_ended c' = true.
Proof.
  intros batch err nd st h r c Hst Hs Hf. apply node_ok_reachable in Hst.
  destruct (stream_input _ _ _ _ _ Hst Hs) as [inp Hi].
  destruct (stream_ok _ _ _ _ _ _ Hst Hs Hi) as (todo & E & Hp & Hc). rewrite Hf in Hp.
  destruct (drain_any _ _ _ _ Hp Hc) as [n Hn].
  do 3 eexists. split; [apply (polls_iter nd st h r n c Hs)|]. split; [apply (stream_set _ _ _ _ _ Hs)|]. exact Hn.
Qed.

Print Assumptions C27_polling_ends.

(** From every reachable state every stream can still be brought to its end with everything delivered,
    unless the input crashed before: nothing deadlocks. *)
Theorem C27_no_deadlock : forall (batch err : Type) (nd : @node batch err) st h r c input,
  steps (node_step nd) (init_state nd) st -> stream_at st h = Some (r, c) -> snd h < r_popped r ->
  nth_error (n_input nd) (fst h) = Some (inl input) -> r_crashed r = false ->
  exists st' r' c', steps (node_step nd) st st' /\ stream_at st' h = Some (r', c') /\
    c_ended c' = true /\ c_got c' = until_error input.
Proof.
  intros batch err nd st h r c input Hst Hs Hpop Hi Hcr.
  destruct (producer_finishes (r_queue r) (r_producer r)) as (q' & _ & _ & Hf).
  assert (Hslot : nth_error (st_slots st) (fst h) = Some (Live r) /\ nth_error (r_consumers r) (snd h) = Some c).
  { unfold stream_at in Hs. destruct (nth_error (st_slots st) (fst h)) as [[|e|r']|] eqn:Es; try discriminate.
    destruct (nth_error (r_consumers r') (snd h)) as [x|] eqn:Ec; [|discriminate]. cbn in Hs. injection Hs as -> ->. auto. }
  destruct Hslot as [Hsl Hc].
  pose proof (producer_lift nd (fst h) _ _ (Hf (r_crashed r)) st r Hsl eq_refl) as H1.
  set (st1 := set_producer st (fst h) r q' Finished (r_crashed r)) in *.
  pose proof (steps_trans _ _ _ _ Hst H1) as Hst1.
  set (r1 := mkRunning q' Finished (r_consumers r) (r_popped r) (r_crashed r)).
  assert (Hs1 : stream_at st1 h = Some (r1, c)).
  { unfold stream_at, st1, set_producer. cbn. rewrite upd_nth, Nat.eqb_refl, Hsl. cbn. now rewrite Hc. }
  destruct (C27_polling_ends _ _ nd st1 h r1 c Hst1 Hs1 eq_refl) as (st2 & r2 & c2 & H2 & Hs2 & He).
  assert (H2' : steps (node_step nd) st1 st2 /\ exists r3 c3, stream_at st2 h = Some (r3, c3) /\
      snd h < r_popped r3 /\ r_crashed r3 = false).
  { clear Hs2 He. assert (P1 : exists r3 c3, stream_at st1 h = Some (r3, c3) /\ snd h < r_popped r3 /\ r_crashed r3 = false)
      by (exists r1, c; auto).
    clear -H2 P1. induction H2 as [s|s1 s2 s3 H IH Hp]; [split; [constructor|assumption]|].
    destruct (IH P1) as [IH1 (r3 & c3 & Hs & Hpop & Hcr)].
    destruct Hp as (r4 & c4 & Hs4 & ->). rewrite Hs in Hs4. injection Hs4 as <- <-. split.
    - eapply steps_next; [exact IH1|]. unfold stream_at in Hs.
      destruct (nth_error (st_slots s2) (fst h)) as [[|e|r']|] eqn:Es; try discriminate.
      destruct (nth_error (r_consumers r') (snd h)) as [x|] eqn:Ec; [|discriminate]. cbn in Hs. injection Hs as -> ->.
      now apply consumer_moves.
    - do 2 eexists. split; [apply (stream_set _ _ _ _ _ Hs)|]. cbn. auto. }
  destruct H2' as [H2' (r3 & c3 & Hs3 & _ & Hcr3)]. rewrite Hs2 in Hs3. injection Hs3 as <- <-.
  exists st2, r2, c2. split; [eapply steps_trans; eassumption|]. split; [assumption|]. split; [assumption|].
  assert (Hst2 : steps (node_step nd) (init_state nd) st2) by (eapply steps_trans; eassumption).
  destruct (C27_every_consumer_sees_everything _ _ _ _ _ _ _ _ Hst2 Hs2 Hi) as [_ H]. auto.
Qed.

Print Assumptions C27_no_deadlock.

(** Two consumers of a partition with a batch and an error: partition 2 of the output is partition 0 of
    the input again; both are handed out, a third call fails. *)
Definition ex_node : @node nat string := mkNode 2 [inl [inl 7; inr "disk"%string; inl 8]; inr "cannot open"%string].

Lemma exec_step (nd : @node nat string) st p s inp :
  n_input nd <> [] -> nth_error (st_slots st) (p mod List.length (n_input nd)) = Some s ->
  nth_error (n_input nd) (p mod List.length (n_input nd)) = Some inp ->
  node_step nd st (let real := p mod List.length (n_input nd) in
      let r := pop_consumer real (match s with Unused => init_slot nd inp | _ => s end) in
      mkState (upd (st_slots st) real (fst r))
               (match s, nth_error (st_executed st) real with
                | Unused, Some k => upd (st_executed st) real (k + 1)
                | _, _ => st_executed st end)
               (st_answers st ++ [(p, snd r)])).
Proof. intros H1 H2 H3. cbn zeta. eapply call_execute; eauto. apply surjective_pairing. Qed.

Example C27_hypotheses_met : exists st r c,
  steps (node_step ex_node) (init_state ex_node) st /\ stream_at st (0, 1) = Some (r, c) /\ snd (0, 1) < r_popped r /\
  map snd (st_answers st) = [inl (0, 0); inr (InputError "cannot open"); inl (0, 1); inr (TooManyConsumers 0)]%string /\
  calls ex_node st 0 = 3 /\ r_crashed r = false.
Proof.
  do 3 eexists. split; [|split; [|split; [|split; [|split]]]].
  - eapply steps_next; [eapply steps_next; [eapply steps_next; [eapply steps_next; [apply steps_refl|]|]|]|].
    + apply (exec_step ex_node _ 0 Unused (inl [inl 7; inr "disk"%string; inl 8])); [discriminate|reflexivity|reflexivity].
    + apply (exec_step ex_node _ 1 Unused (inr "cannot open"%string)); [discriminate|reflexivity|reflexivity].
    + eapply (exec_step ex_node _ 2); [discriminate|reflexivity|reflexivity].
    + eapply (exec_step ex_node _ 4); [discriminate|reflexivity|reflexivity].
  - reflexivity.
  - cbn. lia.
  - reflexivity.
  - reflexivity.
  - reflexivity.
Qed.

(** * C28: crashes of the producing side *)

(** The claim is false for broadcasts: if the input panics, the queue is closed like after a normal end,
    and every consumer sees a normal end of stream without an error although data is missing. *)
Theorem C28_broadcast_refuted : exists (nd : @node nat string) st h r c input,
  steps (node_step nd) (init_state nd) st /\ stream_at st h = Some (r, c) /\
  nth_error (n_input nd) (fst h) = Some (inl input) /\
  r_crashed r = true /\ c_ended c = true /\
  (forall e, ~ In (inr e) (c_got c)) /\ c_got c <> until_error input.
Proof.
  pose (nd := mkNode 1 [inl [inl 7; inl 8]] : @node nat string).
  assert (H : exists st, steps (node_step nd) (init_state nd) st /\
     st = mkState [Live (mkRunning (mkQueue [inl 7] 1 true 2 true) SenderDrop
            [mkConsumer 1 1 true (Some 2) Outside [inl 7] true] 1 true)] [1] [(0, inl (0, 0))]).
  { eexists. split; [|reflexivity].
    eapply steps_trans with (b := mkState [Live (mkRunning queue_new (Running [inl 7; inl 8]) [new_consumer queue_new] 1 false)] [1] [(0, inl (0, 0))]).
    { apply steps_one. apply (exec_step nd (init_state nd) 0 Unused (inl [inl 7; inl 8])); [discriminate|reflexivity|reflexivity]. }
    eapply steps_trans with (b := mkState [Live (mkRunning (mkQueue [inl 7] 1 true 2 true) SenderDrop [new_consumer queue_new] 1 true)] [1] [(0, inl (0, 0))]).
    { pose proof (producer_lift nd 0 (@queue_new nat string, Running [inl 7; inl 8], false) (mkQueue [inl 7] 1 true 2 true, SenderDrop, true)) as HL.
      refine (HL _ (mkState [Live (mkRunning queue_new (Running [inl 7; inl 8]) [new_consumer queue_new] 1 false)] [1] [(0, inl (0, 0))]) _ eq_refl eq_refl).
      eapply steps_next; [eapply steps_next; [eapply steps_next; [eapply steps_next; [apply steps_refl|apply push_batch]|apply publish]|apply crash]|].
      apply close. }
    pose proof (polls_iter nd (mkState [Live (mkRunning (mkQueue [inl 7] 1 true 2 true) SenderDrop [new_consumer queue_new] 1 true)] [1] [(0, inl (0, 0))])
      (0, 0) (mkRunning (mkQueue [inl 7] 1 true 2 true) SenderDrop [new_consumer queue_new] 1 true) 6 (new_consumer queue_new) eq_refl) as HP.
    cbn in HP.
    assert (G : forall a b, steps (polls_of nd (0, 0)) a b -> (exists r c, stream_at a (0, 0) = Some (r, c) /\ 0 < r_popped r) ->
        steps (node_step nd) a b /\ (exists r c, stream_at b (0, 0) = Some (r, c) /\ 0 < r_popped r)).
    { clear. intros a b Hab. induction Hab as [s|s1 s2 s3 H IH Hp]; intros P1; [split; [constructor|assumption]|].
      destruct (IH P1) as [IH1 (r3 & c3 & Hs & Hpop)]. destruct Hp as (r4 & c4 & Hs4 & ->). rewrite Hs in Hs4. injection Hs4 as <- <-. split.
      - eapply steps_next; [exact IH1|]. unfold stream_at in Hs. cbn [fst snd] in *.
        destruct (nth_error (st_slots s2) 0) as [[|e|r']|] eqn:Es; try discriminate.
        destruct (nth_error (r_consumers r') 0) as [x|] eqn:Ec; [|discriminate]. cbn in Hs. injection Hs as -> ->.
        now apply consumer_moves.
      - do 2 eexists. split; [apply (stream_set _ _ _ _ _ Hs)|]. cbn. auto. }
    apply G in HP; [|do 2 eexists; split; [reflexivity|cbn; lia]]. exact (proj1 HP). }
  destruct H as (st & Hst & E). exists nd, st, (0, 0). rewrite E. do 3 eexists.
  split; [rewrite <- E; exact Hst|]. split; [reflexivity|]. split; [reflexivity|]. split; [reflexivity|]. split; [reflexivity|].
  split; [intros e [H|[]]; discriminate|discriminate].
Qed.

Print Assumptions C28_broadcast_refuted.
