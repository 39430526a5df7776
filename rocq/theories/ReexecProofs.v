(** Proofs about executing a plan several times. *)
From Verif Require Import Base CiuModel CiuProofs PoolProofs TaskModel TaskSpec TaskProofs ReexecModel ReexecSpec.

Section Worker.
Context {plan head err : Type}.
Variable insert : head -> plan -> plan + err.
Notation worker := (worker plan head err).
Implicit Types w : worker.

(** Channels and requests stay what they are. *)
Definition rq_le w w' := forall i r, nth_error (wk_requests w) i = Some r ->
  exists r', nth_error (wk_requests w') i = Some r' /\ dr_key r' = dr_key r /\ dr_head r' = dr_head r /\ dr_entry r' = dr_entry r.
Lemma step_request w w' : worker_step insert w w' -> rq_le w w'.
Proof.
  intros Hst i r Hi.
  assert (Hsame : forall rs', nth_error rs' i = Some r -> exists r', nth_error rs' i = Some r' /\ dr_key r' = dr_key r /\ dr_head r' = dr_head r /\ dr_entry r' = dr_entry r)
    by (intros; exists r; auto).
  destruct Hst as [w k build collect|w j c en Hj Hph Hen|w j c en Hj Hph Hen|w j c sent Hj Hph|w k h
    |w j x en base Hj Ha Hen Hv|w j x en e Hj Ha Hen Hv|w j x en Hj Ha Hen Hv|w k]; cbn [wk_requests]; try (apply Hsame; exact Hi).
  - destruct (get_with w k) as [[es c] e]. now apply Hsame.
  - destruct (en_value en); now apply Hsame.
  - destruct (get_with w k) as [[es c] e]. cbn. apply Hsame. now apply nth_snoc_old.
  - destruct (Nat.eq_dec j i) as [<-|Hd]; [|apply Hsame; now rewrite upd_nth_diff].
    rewrite Hj in Hi. injection Hi as ->. eexists. split; [eapply upd_nth_same; eauto|]. auto.
  - destruct (Nat.eq_dec j i) as [<-|Hd]; [|apply Hsame; now rewrite upd_nth_diff].
    rewrite Hj in Hi. injection Hi as ->. eexists. split; [eapply upd_nth_same; eauto|]. auto.
  - destruct (Nat.eq_dec j i) as [<-|Hd]; [|apply Hsame; now rewrite upd_nth_diff].
    rewrite Hj in Hi. injection Hi as ->. eexists. split; [eapply upd_nth_same; eauto|]. auto.
Qed.

Definition ch_le w w' := forall i ch, nth_error (wk_channels w) i = Some ch ->
  exists ch', nth_error (wk_channels w') i = Some ch' /\ ch_key ch' = ch_key ch /\ ch_entry ch' = ch_entry ch /\ ch_build ch' = ch_build ch.
Lemma step_chan w w' : worker_step insert w w' -> ch_le w w'.
Proof.
  intros Hst i ch Hi. destruct (step_channel _ _ _ _ _ Hst Hi) as (ch' & H1 & H2 & H3 & H4 & _). exists ch'. auto.
Qed.

(** The entry of a refused plan is written; the entry of a closed channel is forgotten for good. *)
Record wk_more w : Prop := {
  wm_rej : forall j ch, nth_error (wk_channels w) j = Some ch -> ch_phase ch = Rejected ->
     exists en, nth_error (wk_entries w) (ch_entry ch) = Some en /\ en_value en <> None;
  wm_closed : forall j ch sent, nth_error (wk_channels w) j = Some ch -> ch_phase ch = Closed sent ->
     forall k, ~ In (k, ch_entry ch) (wk_cache w)
}.

Lemma cached_in w k e : cached w k = Some e -> In (k, e) (wk_cache w).
Proof.
  unfold cached. destruct (find _ _) as [[a b]|] eqn:E; intros H; [|discriminate]. injection H as <-.
  apply find_some_key in E. cbn in E. destruct E as [H <-]. exact H.
Qed.
Lemma get_with_cases w k es c e : get_with w k = (es, c, e) ->
  (cached w k = Some e /\ es = wk_entries w /\ c = wk_cache w) \/
  (cached w k = None /\ e = List.length (wk_entries w) /\ es = wk_entries w ++ [mkEntry None None] /\ c = (k, e) :: wk_cache w).
Proof.
  unfold get_with. destruct (cached w k) as [x|]; intros H; injection H as <- <- <-; [left|right]; auto.
Qed.

Lemma wk_more_step w w' : worker_reachable insert w -> wk_more w -> worker_step insert w w' -> wk_more w'.
Proof.
  intros Hr [R C] Hst. destruct (wk_ok_reachable _ _ Hr) as [keys I].
  assert (Hlt : forall j ch, nth_error (wk_channels w) j = Some ch -> ch_entry ch < List.length (wk_entries w)).
  { intros j ch H. destruct (wo_ch _ _ _ I _ _ H) as [Hk _]. rewrite <- (wo_len _ _ _ I). apply nth_error_Some. congruence. }
  destruct (step_le _ _ _ Hst) as (Hes & _ & _).
  assert (Rm : forall ch, (exists en, nth_error (wk_entries w) (ch_entry ch) = Some en /\ en_value en <> None) ->
    exists en, nth_error (wk_entries w') (@ch_entry plan err ch) = Some en /\ en_value en <> None).
  { intros ch (en & H1 & H2). destruct (Hes _ _ H1) as (en' & H3 & H4 & _). exists en'. split; [assumption|].
    destruct (en_value en) as [v|]; [|congruence]. rewrite (H4 v eq_refl). discriminate. }
  destruct Hst as [w k build collect|w j c en Hj Hph Hen|w j c en Hj Hph Hen|w j c sent Hj Hph|w k h
    |w j x en base Hj Ha Hen Hv|w j x en e Hj Ha Hen Hv|w j x en Hj Ha Hen Hv|w k].
  - destruct (get_with w k) as [[es cc] e] eqn:E. cbn in *. split; cbn.
    + intros j ch H Hp. apply nth_snoc in H. destruct H as [[_ H]|[_ ->]]; [|discriminate]. apply Rm. eapply R; eauto.
    + intros j ch sent H Hp. apply nth_snoc in H. destruct H as [[_ H]|[_ ->]]; [|discriminate].
      destruct (get_with_cases _ _ _ _ _ E) as [(_ & -> & ->)|(_ & -> & -> & ->)]; [exact (C _ _ _ H Hp)|].
      intros k0 [Hin|Hin]; [|exact (C _ _ _ H Hp _ Hin)]. injection Hin as _ Hin. specialize (Hlt _ _ H). lia.
  - split.
    + intros i ch H Hp. apply Rm. destruct (en_value en) as [v|] eqn:Ev; cbn in H; apply upd_nth_cases in H; destruct H as [[-> ->]|[_ H]]; cbn in *.
      * exists en. split; [assumption|]. congruence.
      * eapply R; eauto.
      * destruct (ch_build c); discriminate.
      * eapply R; eauto.
    + intros i ch sent H Hp. destruct (en_value en) as [v|] eqn:Ev; cbn in *; apply upd_nth_cases in H; destruct H as [[-> ->]|[_ H]]; cbn in *;
        try discriminate; try exact (C _ _ _ H Hp). destruct (ch_build c); discriminate.
  - split; cbn.
    + intros i ch H Hp. apply upd_nth_cases in H. destruct H as [[-> ->]|[_ H]]; [discriminate|]. eapply R; eauto.
    + intros i ch sent H Hp. apply upd_nth_cases in H. destruct H as [[-> ->]|[_ H]]; [discriminate|]. exact (C _ _ _ H Hp).
  - split; cbn.
    + intros i ch H Hp. apply upd_nth_cases in H. destruct H as [[-> ->]|[_ H]]; [discriminate|]. eapply R; eauto.
    + intros i ch s H Hp k Hin. pose proof (uncache_in _ _ _ Hin) as Hin'.
      apply upd_nth_cases in H. destruct H as [[-> ->]|[_ H]]; [|exact (C _ _ _ H Hp _ Hin')]. cbn in *.
      pose proof (wo_cache _ _ _ I _ _ Hin') as H1. destruct (wo_ch _ _ _ I _ _ Hj) as [H2 _].
      assert (k = ch_key c) by congruence. subst k. unfold uncache in Hin. apply filter_In in Hin. cbn in Hin.
      rewrite Nat.eqb_refl in Hin. destruct Hin as [_ Hin]. discriminate.
  - destruct (get_with w k) as [[es cc] e] eqn:E. cbn in *. split; cbn.
    + intros j ch H Hp. apply Rm. eapply R; eauto.
    + intros j ch sent H Hp.
      destruct (get_with_cases _ _ _ _ _ E) as [(_ & -> & ->)|(_ & -> & -> & ->)]; [exact (C _ _ _ H Hp)|].
      intros k0 [Hin|Hin]; [|exact (C _ _ _ H Hp _ Hin)]. injection Hin as _ Hin. specialize (Hlt _ _ H). lia.
  - split; cbn; [|exact C]. intros i ch H Hp. apply Rm. eapply R; eauto.
  - split; cbn; [|exact C]. exact R.
  - split; cbn; [|exact C]. exact R.
  - split; cbn; [exact R|]. intros i ch s H Hp k0 Hin. apply uncache_in in Hin. exact (C _ _ _ H Hp _ Hin).
Qed.

Lemma wk_more_reachable w : worker_reachable insert w -> wk_more w.
Proof.
  intros H. refine (steps_ind_fwd _ worker_new (fun w => wk_more w) _ _ _ H).
  - split; cbn; intros j ch; destruct j; discriminate.
  - intros a b Ha IH Hst. eapply wk_more_step; eauto.
Qed.

(** The plan that stands in the way of a refused one. *)
Lemma refused w j ch : worker_reachable insert w -> nth_error (wk_channels w) j = Some ch -> ch_phase ch = Rejected ->
  exists j' ch', nth_error (wk_channels w) j' = Some ch' /\ j' <> j /\ ch_entry ch' = ch_entry ch /\ ch_key ch' = ch_key ch /\ published (ch_phase ch').
Proof.
  intros Hr Hj Hp. destruct (wm_rej _ (wk_more_reachable _ Hr) _ _ Hj Hp) as (en & Hen & Hv).
  destruct (wk_ok_reachable _ _ Hr) as [keys I]. destruct (wo_en _ _ _ I _ _ Hen) as [H1 _].
  destruct (en_value en) as [v|]; [|congruence]. destruct (H1 v eq_refl) as (j' & ch' & Hj' & He & _ & Hpub).
  exists j', ch'. split; [assumption|]. split; [intros ->; rewrite Hj in Hj'; injection Hj' as <-; rewrite Hp in Hpub; exact Hpub|].
  split; [assumption|]. split; [|assumption].
  destruct (wo_ch _ _ _ I _ _ Hj) as [K1 _], (wo_ch _ _ _ I _ _ Hj') as [K2 _]. congruence.
Qed.
End Worker.

Section Site.
Context {plan head err : Type}.
Variable insert : head -> plan -> plan + err.
Variable dynamic : bool.
Variable planned : list nat.
Variable task_plan : nat -> nat -> plan.
Variable collects : bool.
Notation site := (site plan head err).
Notation step := (site_step insert dynamic planned task_plan collects).
Implicit Types s : site.

Definition built_ok (c : call) (ch : channel plan err) : Prop :=
  ch_key ch = ca_key c /\ (ch_build ch = inl (task_plan (ca_run c) (ca_key c)) \/ exists e, ch_build ch = inr e).

Record site_ok s : Prop := {
  so_reach : forall u w, nth_error (si_workers s) u = Some w -> worker_reachable insert w;
  so_call : forall i c j, nth_error (si_calls s) i = Some c -> ca_chan c = Some j ->
    exists w ch, nth_error (si_workers s) (ca_url c) = Some w /\ nth_error (wk_channels w) j = Some ch /\ built_ok c ch;
  so_chan : forall u w j ch, nth_error (si_workers s) u = Some w -> nth_error (wk_channels w) j = Some ch ->
    exists i c, nth_error (si_calls s) i = Some c /\ ca_url c = u /\ ca_chan c = Some j;
  so_run : forall i c, nth_error (si_calls s) i = Some c -> task_of s (ca_run c) (ca_key c);
  so_once : dynamic = true -> forall i i' c c', nth_error (si_calls s) i = Some c -> nth_error (si_calls s) i' = Some c' ->
    ca_run c = ca_run c' -> ca_key c = ca_key c' -> i = i';
  so_ask : forall q, In q (si_asks s) -> exists w rq, nth_error (si_workers s) (as_url q) = Some w /\
    nth_error (wk_requests w) (as_req q) = Some rq /\ task_of s (as_run q) (dr_key rq);
  so_req : forall u w i rq, nth_error (si_workers s) u = Some w -> nth_error (wk_requests w) i = Some rq ->
    exists q, In q (si_asks s) /\ as_url q = u /\ as_req q = i;
  so_fresh : dynamic = true -> forall x y k, task_of s x k -> task_of s y k -> x = y;
  so_metrics : forall k x, In (k, x) (si_metrics s) -> task_of s x k
}.

Lemma site_new_ok n : site_ok (site_new n).
Proof.
  assert (Hw : forall u w, nth_error (repeat worker_new n) u = Some w -> w = @worker_new plan head err).
  { intros u w H. apply nth_error_In, repeat_spec in H. exact H. }
  split; cbn; try contradiction; try discriminate; try (intros i; destruct i; discriminate).
  - intros u w H. rewrite (Hw _ _ H). apply steps_refl.
  - intros u w j ch H. rewrite (Hw _ _ H). destruct j; discriminate.
  - intros _ i; destruct i; discriminate.
  - intros u w j ch H. rewrite (Hw _ _ H). destruct j; discriminate.
  - intros _ x y k (r & H & _). destruct x; discriminate.
Qed.

(** Moving one worker along, with new channels only for the calls that name them. *)
Lemma workers_move s u w w' cs asks' ms :
  site_ok s -> nth_error (si_workers s) u = Some w -> worker_step insert w w' ->
  (* the calls *)
  (forall i c, nth_error cs i = Some c -> exists c0, nth_error (si_calls s) i = Some c0 /\ ca_run c = ca_run c0 /\ ca_key c = ca_key c0 /\ ca_url c = ca_url c0 /\
     (ca_chan c = ca_chan c0 \/ ca_chan c0 = None /\ exists ch, ca_chan c = Some (List.length (wk_channels w)) /\ ca_url c = u /\
        nth_error (wk_channels w') (List.length (wk_channels w)) = Some ch /\ built_ok c ch)) ->
  (forall i c, nth_error (si_calls s) i = Some c -> exists c', nth_error cs i = Some c' /\ ca_url c' = ca_url c /\
     (ca_chan c <> None -> ca_chan c' = ca_chan c)) ->
  (forall j ch, nth_error (wk_channels w') j = Some ch -> j < List.length (wk_channels w) \/
     exists i c, nth_error cs i = Some c /\ ca_url c = u /\ ca_chan c = Some j) ->
  (* the asks *)
  (forall q, In q (si_asks s) -> In q asks') ->
  (forall q, In q asks' -> In q (si_asks s) \/ exists rq, as_url q = u /\ nth_error (wk_requests w') (as_req q) = Some rq /\ task_of s (as_run q) (dr_key rq)) ->
  (forall j rq, nth_error (wk_requests w') j = Some rq -> j < List.length (wk_requests w) \/ exists q, In q asks' /\ as_url q = u /\ as_req q = j) ->
  (forall k x, In (k, x) ms -> task_of s x k) ->
  site_ok (mkSite (upd (si_workers s) u w') (si_runs s) cs asks' ms).
Proof.
  intros I Hu Hst Hc1 Hc2 Hch Ha1 Ha2 Hrq Hm.
  assert (Ht : forall x k, task_of s x k -> task_of (mkSite (upd (si_workers s) u w') (si_runs s) cs asks' ms) x k) by (intros x k H; exact H).
  assert (Hwk : forall v a, nth_error (si_workers s) v = Some a -> exists a', nth_error (upd (si_workers s) u w') v = Some a' /\ ch_le a a' /\ rq_le a a').
  { intros v a Hv. destruct (Nat.eq_dec u v) as [<-|Hd].
    - rewrite Hu in Hv. injection Hv as <-. exists w'. split; [eapply upd_nth_same; eauto|]. split; [eapply step_chan; eauto|eapply step_request; eauto].
    - exists a. rewrite upd_nth_diff by assumption. split; [assumption|]. split; intros i x Hx; exists x; auto. }
  split; cbn.
  - intros v a H. apply upd_nth_cases in H. destruct H as [[-> ->]|[_ H]]; [|eapply so_reach; eauto].
    eapply steps_next; [eapply so_reach; eauto|eassumption].
  - intros i c j Hi Hj. destruct (Hc1 _ _ Hi) as (c0 & H0 & Er & Ek & Eu & [E|(_ & ch & E & E2 & Hn & Hb)]).
    + rewrite E in Hj. destruct (so_call _ I _ _ _ H0 Hj) as (a & ch & H1 & H2 & H3 & H4). rewrite <- Eu in H1.
      destruct (Hwk _ _ H1) as (a' & G1 & G2 & _). destruct (G2 _ _ H2) as (ch' & K1 & K2 & _ & K3).
      exists a', ch'. split; [assumption|]. split; [assumption|]. split; [congruence|]. rewrite K3, Er, Ek. exact H4.
    + assert (j = List.length (wk_channels w)) by congruence. subst j. exists w', ch. rewrite E2. split; [eapply upd_nth_same; eauto|]. auto.
  - intros v a j ch Hv Hj.
    assert (Hold : forall a0, nth_error (si_workers s) v = Some a0 -> j < List.length (wk_channels a0) ->
      exists i c, nth_error cs i = Some c /\ ca_url c = v /\ ca_chan c = Some j).
    { intros a0 H0 Hlt. destruct (nth_error (wk_channels a0) j) as [ch0|] eqn:E; [|apply nth_error_Some in E; [destruct E|exact Hlt]].
      destruct (so_chan _ I _ _ _ _ H0 E) as (i & c & Hi & Hu' & Hc'). destruct (Hc2 _ _ Hi) as (c' & K1 & K2 & K3).
      exists i, c'. split; [assumption|]. split; [congruence|]. rewrite K3; congruence. }
    apply upd_nth_cases in Hv. destruct Hv as [[<- ->]|[Hd Hv]].
    + destruct (Hch _ _ Hj) as [Hlt|H]; [eapply Hold; eauto|exact H].
    + eapply Hold; [exact Hv|]. apply nth_error_Some. congruence.
  - intros i c Hi. apply Ht. destruct (Hc1 _ _ Hi) as (c0 & H0 & Er & Ek & _). rewrite Er, Ek. eapply so_run; eauto.
  - intros Hdyn i i' c c' Hi Hi' E1 E2. destruct (Hc1 _ _ Hi) as (c0 & H0 & Er & Ek & _). destruct (Hc1 _ _ Hi') as (c0' & H0' & Er' & Ek' & _).
    eapply (so_once _ I Hdyn); eauto; congruence.
  - intros q Hq. destruct (Ha2 _ Hq) as [H|(rq & Eu & H1 & H2)].
    + destruct (so_ask _ I _ H) as (a & rq & H1 & H2 & H3). destruct (Hwk _ _ H1) as (a' & G1 & _ & G2).
      destruct (G2 _ _ H2) as (r' & K1 & K2 & _). exists a', r'. split; [assumption|]. split; [assumption|]. apply Ht. now rewrite K2.
    + exists w', rq. rewrite Eu. split; [eapply upd_nth_same; eauto|]. auto.
  - intros v a j rq Hv Hj.
    assert (Hold : forall a0, nth_error (si_workers s) v = Some a0 -> j < List.length (wk_requests a0) ->
      exists q, In q asks' /\ as_url q = v /\ as_req q = j).
    { intros a0 H0 Hlt. destruct (nth_error (wk_requests a0) j) as [r0|] eqn:E; [|apply nth_error_Some in E; [destruct E|exact Hlt]].
      destruct (so_req _ I _ _ _ _ H0 E) as (q & Hq & K). exists q. auto. }
    apply upd_nth_cases in Hv. destruct Hv as [[<- ->]|[Hd Hv]].
    + destruct (Hrq _ _ Hj) as [Hlt|H]; [eapply Hold; eauto|exact H].
    + eapply Hold; [exact Hv|]. apply nth_error_Some. congruence.
  - exact (so_fresh _ I).
  - exact Hm.
Qed.

(** Steps that touch only calls' outcomes, runs' outcomes and the store. *)
Lemma nothing_moves s rs cs ms :
  site_ok s ->
  (forall x r, nth_error rs x = Some r -> exists r0, nth_error (si_runs s) x = Some r0 /\ ru_keys r = ru_keys r0) ->
  (forall x r, nth_error (si_runs s) x = Some r -> exists r0, nth_error rs x = Some r0 /\ ru_keys r0 = ru_keys r) ->
  (forall i c, nth_error cs i = Some c -> exists c0, nth_error (si_calls s) i = Some c0 /\ ca_run c = ca_run c0 /\ ca_key c = ca_key c0 /\ ca_url c = ca_url c0 /\ ca_chan c = ca_chan c0) ->
  (forall i c, nth_error (si_calls s) i = Some c -> exists c0, nth_error cs i = Some c0 /\ ca_url c0 = ca_url c /\ ca_chan c0 = ca_chan c) ->
  (forall k x, In (k, x) ms -> task_of s x k) ->
  site_ok (mkSite (si_workers s) rs cs (si_asks s) ms).
Proof.
  intros I R1 R2 C1 C2 M.
  assert (Ht : forall x k, task_of s x k -> task_of (mkSite (si_workers s) rs cs (si_asks s) ms) x k).
  { intros x k (r & H1 & H2). destruct (R2 _ _ H1) as (r0 & H3 & H4). exists r0. cbn. rewrite H4. auto. }
  assert (Ht' : forall x k, task_of (mkSite (si_workers s) rs cs (si_asks s) ms) x k -> task_of s x k).
  { intros x k (r & H1 & H2). destruct (R1 _ _ H1) as (r0 & H3 & H4). exists r0. rewrite <- H4. auto. }
  split; cbn.
  - exact (so_reach _ I).
  - intros i c j Hi Hj. destruct (C1 _ _ Hi) as (c0 & H0 & Er & Ek & Eu & Ec). rewrite Ec in Hj.
    destruct (so_call _ I _ _ _ H0 Hj) as (w & ch & H1 & H2 & H3). exists w, ch. rewrite Eu. split; [assumption|]. split; [assumption|].
    unfold built_ok in *. now rewrite Er, Ek.
  - intros u w j ch Hu Hj. destruct (so_chan _ I _ _ _ _ Hu Hj) as (i & c & Hi & E1 & E2). destruct (C2 _ _ Hi) as (c0 & H0 & E3 & E4).
    exists i, c0. split; [assumption|]. split; congruence.
  - intros i c Hi. apply Ht. destruct (C1 _ _ Hi) as (c0 & H0 & Er & Ek & _). rewrite Er, Ek. eapply so_run; eauto.
  - intros Hd i i' c c' Hi Hi' E1 E2. destruct (C1 _ _ Hi) as (c0 & H0 & Er & Ek & _), (C1 _ _ Hi') as (c0' & H0' & Er' & Ek' & _).
    eapply (so_once _ I Hd); eauto; congruence.
  - intros q Hq. destruct (so_ask _ I _ Hq) as (w & rq & H1 & H2 & H3). exists w, rq. auto.
  - exact (so_req _ I).
  - intros Hd x y k H1 H2. eapply (so_fresh _ I Hd); eauto.
  - auto.
Qed.

Lemma take_plan_chans (w : worker plan head err) k b : exists e, wk_channels (take_plan collects w k b) = wk_channels w ++ [mkChannel k e b collects Building] /\
  wk_requests (take_plan collects w k b) = wk_requests w /\ exists es c, get_with w k = (es, c, e).
Proof. unfold take_plan. destruct (get_with w k) as [[es c] e]. exists e. cbn. eauto. Qed.
Lemma take_request_reqs (w : worker plan head err) k (h : head) : exists e, wk_requests (@take_request plan head err w k h) = wk_requests w ++ [mkDrequest k h e None] /\
  wk_channels (take_request w k h) = wk_channels w.
Proof. unfold take_request. destruct (get_with w k) as [[es c] e]. exists e. auto. Qed.

Lemma nth_calls_same {A} (l : list A) (P : A -> A -> Prop) i v x : (forall a, P a a) -> nth_error l i = Some x -> P v x ->
  forall j c, nth_error (upd l i v) j = Some c -> exists c0, nth_error l j = Some c0 /\ P c c0.
Proof.
  intros Hrefl Hi Hp j c Hj. apply upd_nth_cases in Hj. destruct Hj as [[<- ->]|[_ Hj]]; [exists x; auto|exists c; auto].
Qed.
Lemma nth_calls_same' {A} (l : list A) (P : A -> A -> Prop) i v x : (forall a, P a a) -> nth_error l i = Some x -> P v x ->
  forall j c, nth_error l j = Some c -> exists c0, nth_error (upd l i v) j = Some c0 /\ P c0 c.
Proof.
  intros Hrefl Hi Hp j c Hj. destruct (Nat.eq_dec i j) as [<-|Hd].
  - rewrite Hi in Hj. injection Hj as <-. exists v. split; [eapply upd_nth_same; eauto|assumption].
  - exists c. rewrite upd_nth_diff by assumption. auto.
Qed.

Lemma site_ok_step s s' : site_ok s -> step s s' -> site_ok s'.
Proof.
  intros I Hst.
  destruct Hst as [s keys urls Hkeys Hlen Hurls|s i c w build Hi Hc Hu Hb|s u w w' Hu Hw Hl1 Hl2 Hlis|s c w h Hc Hu|s i c w j ch ok Hi Hd Hc Hu Hj Hr
    |s i c Hi Hd|s x r Hx|s x r Hx Ho Hr Hd|s c w j ch p Hc Hch Hu Hj Hm Hd].
  - assert (Ht : forall x k, task_of s x k -> x < List.length (si_runs s)).
    { intros x k (r & H & _). apply nth_error_Some. congruence. }
    set (s' := mkSite _ _ _ _ _).
    assert (Hold : forall x k, task_of s x k -> task_of s' x k).
    { intros x k (r & H1 & H2). exists r. cbn. split; [now apply nth_snoc_old|assumption]. }
    assert (Hnew : forall x k, task_of s' x k -> task_of s x k \/ x = List.length (si_runs s) /\ In k keys).
    { intros x k (r & H1 & H2). cbn in H1. apply nth_snoc in H1. destruct H1 as [[_ H1]|[-> ->]]; [left; exists r; auto|right; auto]. }
    assert (Hcalls : forall i c, nth_error (si_calls s') i = Some c -> nth_error (si_calls s) i = Some c \/
      List.length (si_calls s) <= i /\ ca_run c = List.length (si_runs s) /\ ca_chan c = None /\ nth_error keys (i - List.length (si_calls s)) = Some (ca_key c)).
    { intros i c H. cbn in H. destruct (Nat.lt_ge_cases i (List.length (si_calls s))) as [Hi|Hi].
      - rewrite nth_error_app1 in H by assumption. auto.
      - rewrite nth_error_app2 in H by assumption. right. split; [assumption|]. rewrite nth_error_map in H.
        destruct (nth_error (combine keys urls) _) as [[k u]|] eqn:E; [|discriminate]. injection H as <-. cbn. split; [reflexivity|]. split; [reflexivity|].
        clear - E. revert urls E. generalize (i - List.length (si_calls s)) as m. induction keys as [|a l IH]; intros m urls E.
        + destruct m; discriminate.
        + destruct urls as [|b urls]; [destruct m; discriminate|]. destruct m as [|m]; cbn in *; [congruence|]. eapply IH; eauto. }
    split.
    + exact (so_reach _ I).
    + intros i c j H1 H2. destruct (Hcalls _ _ H1) as [H|(_ & _ & H & _)]; [|congruence]. exact (so_call _ I _ _ _ H H2).
    + intros u w j ch H1 H2. destruct (so_chan _ I _ _ _ _ H1 H2) as (i & c & H3 & H4 & H5). exists i, c. cbn.
      split; [|auto]. rewrite nth_error_app1; [assumption|]. apply nth_error_Some. congruence.
    + intros i c H. destruct (Hcalls _ _ H) as [H1|(_ & H1 & _ & H2)]; [apply Hold; eapply so_run; eauto|].
      rewrite H1. exists (mkRun keys false None). cbn. split; [rewrite nth_error_app2, Nat.sub_diag by lia; reflexivity|]. eapply nth_error_In; eauto.
    + intros Hdyn i i' c c' H H' E1 E2. rewrite Hdyn in Hkeys. destruct Hkeys as [Hnd _].
      destruct (Hcalls _ _ H) as [H1|(L1 & H1 & _ & H2)], (Hcalls _ _ H') as [G1|(L2 & G1 & _ & G2)].
      * eapply (so_once _ I Hdyn); eauto.
      * pose proof (Ht _ _ (so_run _ I _ _ H1)). lia.
      * pose proof (Ht _ _ (so_run _ I _ _ G1)). lia.
      * assert (i - List.length (si_calls s) = i' - List.length (si_calls s)); [|lia].
        eapply NoDup_nth_error; [exact Hnd| |congruence]. apply nth_error_Some. congruence.
    + intros q Hq. destruct (so_ask _ I _ Hq) as (w & rq & H1 & H2 & H3). exists w, rq. auto.
    + exact (so_req _ I).
    + intros Hdyn x y k H1 H2. rewrite Hdyn in Hkeys. destruct Hkeys as [_ Hk].
      destruct (Hnew _ _ H1) as [G1|[-> G1]], (Hnew _ _ H2) as [G2|[-> G2]]; [eapply (so_fresh _ I Hdyn); eauto| | |reflexivity].
      * destruct G1 as (r & K1 & K2). destruct (Hk r k (nth_error_In _ _ K1) G2 K2).
      * destruct G2 as (r & K1 & K2). destruct (Hk r k (nth_error_In _ _ K1) G1 K2).
    + intros k x H. apply Hold. eapply so_metrics; eauto.
  - destruct (take_plan_chans w (ca_key c) build) as (e & E1 & E2 & _).
    eapply workers_move with (w := w); eauto.
    + apply (set_plan insert w (ca_key c) build collects).
    + intros i0 c0 H. apply upd_nth_cases in H. destruct H as [[<- ->]|[_ H]]; cbn; [|exists c0; auto 6].
      exists c. split; [assumption|]. do 3 (split; [reflexivity|]). right. split; [assumption|]. eexists. rewrite E1.
      split; [reflexivity|]. split; [reflexivity|]. split; [rewrite nth_error_app2, Nat.sub_diag by lia; reflexivity|]. split; [reflexivity|assumption].
    + intros i0 c0 H. destruct (Nat.eq_dec i i0) as [<-|Hd].
      * rewrite Hi in H. injection H as <-. eexists. split; [eapply upd_nth_same; eauto|]. cbn. split; [reflexivity|]. congruence.
      * exists c0. rewrite upd_nth_diff by assumption. auto.
    + intros j ch H. rewrite E1 in H. apply nth_snoc in H. destruct H as [[H _]|[-> _]]; [auto|]. right.
      eexists i, _. split; [eapply upd_nth_same; eauto|]. auto.
    + intros j rq H. rewrite E2 in H. left. apply nth_error_Some. congruence.
    + exact (so_metrics _ I).
  - eapply workers_move with (w := w); eauto.
    + intros i c H. exists c. auto 6.
    + intros j ch H. left. rewrite <- Hl1. apply nth_error_Some. congruence.
    + intros j ch H. left. rewrite <- Hl2. apply nth_error_Some. congruence.
    + exact (so_metrics _ I).
  - destruct (In_nth_error _ _ Hc) as [i Hi]. destruct (take_request_reqs w (ca_key c) h) as (e & E1 & E2).
    eapply workers_move with (w := w); eauto.
    + apply (data_request insert w (ca_key c) h).
    + intros i0 c0 H. exists c0. auto 6.
    + intros j ch H. rewrite E2 in H. left. apply nth_error_Some. congruence.
    + intros q H. apply in_or_app. auto.
    + intros q H. apply in_app_or in H. destruct H as [H|[<-|[]]]; [auto|]. right. eexists. cbn. rewrite E1. split; [reflexivity|].
      split; [rewrite nth_error_app2, Nat.sub_diag by lia; reflexivity|]. cbn. eapply so_run; eauto.
    + intros j rq H. rewrite E1 in H. apply nth_snoc in H. destruct H as [[H _]|[-> _]]; [auto|]. right.
      eexists. split; [apply in_or_app; right; left; reflexivity|]. auto.
    + exact (so_metrics _ I).
  - apply nothing_moves; auto; try exact (so_metrics _ I); try (intros x0 r0 H; exists r0; now auto).
    + eapply (nth_calls_same (si_calls s) (fun a b => ca_run a = ca_run b /\ ca_key a = ca_key b /\ ca_url a = ca_url b /\ ca_chan a = ca_chan b)); eauto.
    + eapply (nth_calls_same' (si_calls s) (fun a b => ca_url a = ca_url b /\ ca_chan a = ca_chan b)); eauto.
  - apply nothing_moves; auto; try exact (so_metrics _ I); try (intros x0 r0 H; exists r0; now auto).
    + eapply (nth_calls_same (si_calls s) (fun a b => ca_run a = ca_run b /\ ca_key a = ca_key b /\ ca_url a = ca_url b /\ ca_chan a = ca_chan b)); eauto.
    + eapply (nth_calls_same' (si_calls s) (fun a b => ca_url a = ca_url b /\ ca_chan a = ca_chan b)); eauto.
  - apply nothing_moves; auto; try exact (so_metrics _ I); try (intros i0 c0 H; exists c0; now auto).
    + eapply (nth_calls_same (si_runs s) (fun a b => ru_keys a = ru_keys b)); eauto.
    + eapply (nth_calls_same' (si_runs s) (fun a b => ru_keys a = ru_keys b)); eauto.
  - apply nothing_moves; auto; try exact (so_metrics _ I); try (intros i0 c0 H; exists c0; now auto).
    + eapply (nth_calls_same (si_runs s) (fun a b => ru_keys a = ru_keys b)); eauto.
    + eapply (nth_calls_same' (si_runs s) (fun a b => ru_keys a = ru_keys b)); eauto.
  - apply nothing_moves; auto; try (intros i0 c0 H; exists c0; now auto).
    intros k x [H|H]; [|eapply so_metrics; eauto]. injection H as <- <-. destruct (In_nth_error _ _ Hc) as [i Hi]. eapply so_run; eauto.
Qed.

Lemma site_ok_reachable n s : site_reachable insert dynamic planned task_plan collects n s -> site_ok s.
Proof.
  intros H. refine (steps_invariant _ site_ok _ _ _ _ H); [apply site_new_ok|]. intros a b. apply site_ok_step.
Qed.
End Site.

Section Later.
Context {plan head err : Type}.
Variable insert : head -> plan -> plan + err.
Variable dynamic : bool.
Variable planned : list nat.
Variable task_plan : nat -> nat -> plan.
Variable collects : bool.
Notation site := (site plan head err).
Notation worker := (worker plan head err).
Notation step := (site_step insert dynamic planned task_plan collects).
Implicit Types s : site.

Lemma steps_chan (w w' : worker) : steps (worker_step insert) w w' -> ch_le w w'.
Proof using.
  intros H. refine (steps_ind_fwd _ w (fun w' => ch_le w w') _ _ _ H).
  - intros i ch Hi. exists ch. auto.
  - intros a b _ IH Hst i ch Hi. destruct (IH _ _ Hi) as (c1 & H1 & H2 & H3 & H4).
    destruct (step_chan _ _ _ Hst _ _ H1) as (c2 & G1 & G2 & G3 & G4). exists c2. split; [assumption|]. split; [congruence|]. split; congruence.
Qed.

Lemma rejected_stays (w w' : worker) j ch : steps (worker_step insert) w w' -> nth_error (wk_channels w) j = Some ch -> ch_phase ch = Rejected ->
  exists ch', nth_error (wk_channels w') j = Some ch' /\ ch_phase ch' = Rejected.
Proof using.
  intros H Hj Hp. refine (steps_ind_fwd _ w (fun w' => exists ch', nth_error (wk_channels w') j = Some ch' /\ ch_phase ch' = Rejected) _ _ _ H).
  - eauto.
  - clear. intros a b Hx (ch & Hj & Hp) Hst. clear Hx w.
    destruct Hst as [w k build collect|w i c en Hi Hph Hen|w i c en Hi Hph Hen|w i c sent Hi Hph|w k h
      |w i x en base Hi Ha Hen Hv|w i x en e Hi Ha Hen Hv|w i x en Hi Ha Hen Hv|w k]; try (exists ch; now auto).
    + destruct (get_with w k) as [[es c] e]. cbn. exists ch. split; [now apply nth_snoc_old|assumption].
    + assert (i <> j) by congruence. destruct (en_value en); cbn; exists ch; (split; [now rewrite upd_nth_diff|assumption]).
    + assert (i <> j) by congruence. cbn; exists ch; (split; [now rewrite upd_nth_diff|assumption]).
    + assert (i <> j) by congruence. cbn; exists ch; (split; [now rewrite upd_nth_diff|assumption]).
    + destruct (get_with w k) as [[es c] e]. cbn. exists ch. auto.
Qed.

Lemma site_worker s s' u w : steps step s s' -> nth_error (si_workers s) u = Some w ->
  exists w', nth_error (si_workers s') u = Some w' /\ steps (worker_step insert) w w'.
Proof using.
  intros H Hu. refine (steps_ind_fwd _ s (fun s' => exists w', nth_error (si_workers s') u = Some w' /\ steps (worker_step insert) w w') _ _ _ H).
  - exists w. split; [assumption|apply steps_refl].
  - intros a b _ (w1 & H1 & H2) Hst.
    assert (K : forall v x y, nth_error (si_workers a) v = Some x -> worker_step insert x y ->
      exists w', nth_error (upd (si_workers a) v y) u = Some w' /\ steps (worker_step insert) w w').
    { intros v x y Hv Hxy. destruct (Nat.eq_dec v u) as [->|Hd].
      - rewrite H1 in Hv. injection Hv as <-. exists y. split; [eapply upd_nth_same; eauto|eapply steps_next; eauto].
      - exists w1. rewrite upd_nth_diff by assumption. auto. }
    destruct Hst; cbn; try (exists w1; now auto); eapply K; eauto.
    + apply (set_plan insert w0 (ca_key c) build collects).
    + apply (data_request insert w0 (ca_key c) h).
Qed.

(** A plan that arrives after all earlier ones were cleaned up is not refused on their account. *)
Lemma fresh_not_refused (w : worker) k b (w2 : worker) ch : worker_reachable insert w ->
  (forall j c, nth_error (wk_channels w) j = Some c -> ch_key c = k -> ch_phase c = Rejected \/ exists sent, ch_phase c = Closed sent) ->
  steps (worker_step insert) (take_plan collects w k b) w2 ->
  (forall j c, nth_error (wk_channels w2) j = Some c -> ch_key c = k -> j <= List.length (wk_channels w)) ->
  nth_error (wk_channels w2) (List.length (wk_channels w)) = Some ch -> ch_phase ch <> Rejected.
Proof using.
  intros Hr Hcl Hst Hlast Hch Hp.
  assert (Hr1 : worker_reachable insert (take_plan collects w k b)).
  { eapply steps_next; [exact Hr|]. apply (set_plan insert w k b collects). }
  assert (Hr2 : worker_reachable insert w2) by (eapply steps_trans; eauto).
  destruct (refused insert w2 _ _ Hr2 Hch Hp) as (j' & ch' & Hj' & Hd & He & Hk & Hpub).
  destruct (take_plan_chans collects w k b) as (e & E1 & _ & es & cc & Eg).
  assert (Hnew : nth_error (wk_channels (take_plan collects w k b)) (List.length (wk_channels w)) = Some (mkChannel k e b collects Building)).
  { rewrite E1, nth_error_app2, Nat.sub_diag by lia. reflexivity. }
  destruct (steps_chan _ _ Hst _ _ Hnew) as (x & Hx & Kx & Ex & _). cbn in Kx, Ex. rewrite Hch in Hx. injection Hx as <-.
  assert (Hlt : j' < List.length (wk_channels w)).
  { specialize (Hlast j' ch' Hj' ltac:(congruence)). lia. }
  destruct (nth_error (wk_channels w) j') as [c0|] eqn:E0; [|apply nth_error_Some in E0; [destruct E0|exact Hlt]].
  assert (Hst0 : steps (worker_step insert) w w2).
  { eapply steps_trans; [apply steps_one; apply (set_plan insert w k b collects)|exact Hst]. }
  destruct (steps_chan _ _ Hst0 _ _ E0) as (y & Hy & Ky & Ey & _). rewrite Hj' in Hy. injection Hy as <-.
  destruct (Hcl _ _ E0 ltac:(congruence)) as [Hrej|[sent Hclo]].
  - destruct (rejected_stays _ _ _ _ Hst0 E0 Hrej) as (y & Hy & Hpy). rewrite Hj' in Hy. injection Hy as <-. rewrite Hpy in Hpub. exact Hpub.
  - assert (Ee : ch_entry c0 = e) by congruence.
    destruct (get_with_cases _ _ _ _ _ Eg) as [(Hc & _)|(_ & -> & _)].
    + apply cached_in in Hc. rewrite <- Ee in Hc. exact (wm_closed _ (wk_more_reachable _ _ Hr) _ _ _ E0 Hclo _ Hc).
    + destruct (wk_ok_reachable _ _ Hr) as [keys I]. destruct (wo_ch _ _ _ I _ _ E0) as [Hke _].
      assert (ch_entry c0 < List.length keys) by (apply nth_error_Some; congruence). rewrite (wo_len _ _ _ I) in *. lia.
Qed.
End Later.
