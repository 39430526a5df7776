(** Proofs about boundaries read over the network. *)
From Verif Require Import Base NetModel CiuModel CiuProofs PlannerModel ExecModel OrderModel PoolModel PoolSpec PoolProofs PoolProps
  DemuxModel DemuxSpec DemuxProofs DemuxProps NetRunModel.

Lemma Forall2_nth_error_r {A B} (R : A -> B -> Prop) l l' : Forall2 R l l' ->
  forall i y, nth_error l' i = Some y -> exists x, nth_error l i = Some x /\ R x y.
Proof.
  induction 1 as [|a b l l' Hab H IH]; intros [|i] y Hy; cbn in *; try discriminate; eauto.
  injection Hy as ->. eauto.
Qed.

(** * Merging messages merges their rows *)
Section Merge.
Context {row err : Type}.
Notation message := (@item (list row) + err)%type.

Lemma merge_prepend {A} (d : list A) pre s post out :
  merge_of (pre ++ s :: post) out -> merge_of (pre ++ (d ++ s) :: post) (d ++ out).
Proof. intros H. induction d as [|x d IH]; [exact H|]. cbn. now apply merge_step. Qed.

Lemma merge_rows (gots : list (list message)) out :
  merge_of gots out -> merge_of (map rows_of gots) (rows_of out).
Proof.
  induction 1 as [ss H|pre x s post out H IH].
  - constructor. apply Forall_map. eapply Forall_impl; [|exact H]. now intros a <-.
  - rewrite map_app in *. cbn [map] in *. unfold rows_of at 2 4. cbn [flat_map]. now apply merge_prepend.
Qed.

Lemma merge_error_free (gots : list (list message)) out :
  merge_of gots out -> error_free out -> forall g, In g gots -> error_free g.
Proof.
  intros H He g Hg e Hin. apply (He e). apply (Permutation_in (l := List.concat gots)).
  - symmetry. now apply merge_perm.
  - apply in_concat. eauto.
Qed.
End Merge.

(** * The calls of a boundary fit together *)
Section Calls.
Context {row : Type}.

Lemma boundary_calls_fit b (part : partitioning row) tasks ctx ps calls :
  NoDup ps -> (forall p, In p ps -> p < partition_count part) ->
  mapM (boundary_requests b part tasks ctx) ps = Ok calls -> fitting (List.concat calls).
Proof.
  intros Hn Hp H. destruct b; cbn [boundary_requests] in H.
  - apply (C29_shuffle_calls_fit (mkShuffle part (Remote tasks) tasks) tasks ctx ps calls Hn Hp H).
  - pose (B := mkBroadcast (partition_count part) (Remote tasks) tasks : broadcast row).
    pose proof (mapM_ok_intro (boundary_requests BBroadcast part tasks ctx) (broadcast_requests B tasks ctx) ps (fun _ _ => eq_refl)) as E.
    rewrite E in H. injection H as <-. rewrite <- flat_map_concat_map. apply C29_broadcast_calls_fit; auto.
  - assert (E : exists os, mapM (coalesce_request (mkCoalesce part (Remote tasks) tasks) ctx) ps = Ok os /\
        List.concat calls = flat_map (fun o => match o with Some r => [r] | None => [] end) os).
    { clear - H. revert calls H. induction ps as [|p ps IH]; intros calls H; cbn in H.
      - injection H as <-. exists []. auto.
      - destruct (coalesce_request _ _ p) as [o|e|e] eqn:Eo; cbn in H; try discriminate.
        destruct (mapM _ ps) as [cs|e|e] eqn:Ec; cbn in H; try discriminate. injection H as <-.
        destruct (IH _ eq_refl) as (os & E1 & E2). exists (o :: os). cbn. rewrite Eo, E1, E2. split; [reflexivity|].
        now destruct o. }
    destruct E as (os & E1 & ->). eapply C29_coalesce_calls_fit; eauto.
Qed.

Lemma fitting_perm (a b : list (request row)) : Permutation a b -> fitting b -> fitting a.
Proof.
  intros H (F1 & F2 & F3). split; [|split].
  - intros x y Hx Hy. apply F1; eapply Permutation_in; eauto.
  - intros x Hx. apply F2. eapply Permutation_in; eauto.
  - eapply Permutation_NoDup; [|exact F3]. apply Permutation_map. now symmetry.
Qed.

Lemma boundary_execute_requests b (part : partitioning row) tasks producers ctx p :
  boundary_execute b part tasks producers ctx p =
  let* reqs := boundary_requests b part tasks ctx p in mapM (pool_execute producers tasks tasks) reqs.
Proof.
  destruct b; cbn [boundary_execute boundary_requests]; try reflexivity.
  unfold coalesce_execute. cbn [co_stage co_pool]. destruct (coalesce_request _ _ _) as [[r|]|e|e]; reflexivity.
Qed.
End Calls.

(** * What was read is what the boundary yields *)
Section Sound.
Context {row err : Type}.
Variables (budget capacity : nat) (bad : nat -> err).
Notation node_history := (node_history budget capacity bad).

Lemma read_is_sent b (plan : splan row) P r sources l i got :
  link_reachable budget capacity bad b P plan r sources l -> uncrashed l ->
  link_read l i = Some (got, true) -> error_free got ->
  exists canon' c, worker_execute_task plan (rq_head r) (rq_start r) (rq_end r) = Ok canon' /\
    nth_error canon' i = Some c /\ sent b P c (rows_of got).
Proof.
  intros Hl Hu Hr He. destruct l as [reads|k|e reads]; cbn in Hl, Hu, Hr.
  - destruct Hl as [(canon' & Hw & HF) HR]. destruct (Forall2_nth_error_r _ _ _ HR _ _ Hr) as (s & Hs & rest & E & Hrest).
    cbn in E, Hrest. rewrite (Hrest eq_refl), app_nil_r in E. subst s.
    destruct (Forall2_nth_error_r _ _ _ HF _ _ Hs) as (c & Hc & Hsent). exists canon', c. auto.
  - destruct Hl as [(canon' & Hw & HF) HR]. destruct Hu as [Hcr Hlost].
    destruct (nth_error (k_parts k) i) as [p|] eqn:Hp; [|discriminate]. cbn in Hr. injection Hr as <- Hend.
    assert (HS : exists S, nth_error sources i = Some S).
    { pose proof (inv_len _ _ _ (inv_reachable _ _ _ _ _ _ HR)) as HL. destruct (nth_error sources i) eqn:E; [eauto|].
      apply nth_error_None in E. rewrite <- HL in E. assert (i < List.length (k_parts k)) by (apply nth_error_Some; congruence). lia. }
    destruct HS as [S HS].
    destruct (C30_normal_end_is_complete _ _ _ _ _ _ _ _ _ HR Hcr HS Hp Hend He Hlost) as [E _]. rewrite E in *.
    destruct (Forall2_nth_error_r _ _ _ HF _ _ HS) as (c & Hc & Hsent). exists canon', c. auto.
  - destruct Hl as [_ HF]. rewrite Forall_forall in HF. apply nth_error_In in Hr. destruct (HF _ Hr) as [E|E]; [discriminate|].
    cbn in E. subst got. destruct (He e). now left.
Qed.

Lemma call_yields b (part : partitioning row) tasks P producers ctx ps h r got :
  NoDup ps -> (forall p, In p ps -> p < partition_count part) ->
  node_history b part tasks P producers ctx ps h -> call_read h r got -> error_free got ->
  exists c, pool_execute producers tasks tasks r = Ok c /\ sent b P c (rows_of got).
Proof.
  intros Hn Hps Hh (c & t & i & s & Ho & Hr) He. destruct Hh as [Hpool (calls & Hcalls & Hperm) Hans].
  destruct (C29_right_stream _ _ _ Hpool _ _ _ _ _ Ho) as (-> & Hle & -> & l & Hl & Hs).
  destruct (Hans _ _ Hl) as (q & Hq & Ht & Hlen & -> & Hlink & Hu).
  pose proof (pool_ok_reachable _ _ _ Hpool) as I. destruct (checks_ok_reachable _ _ _ Hpool) as (Hn' & _ & _ & Hsub).
  pose proof (fitting_perm _ _ Hperm (boundary_calls_fit _ _ _ _ _ _ Hn Hps Hcalls)) as (F1 & F2 & _).
  assert (Hrin : In r (map fst (pl_calls (nn_pool h)))) by (apply nth_error_In in Ho; apply (in_map fst) in Ho; exact Ho).
  destruct (F1 q r (Hsub _ Hq) Hrin Ht) as (E1 & E2 & E3).
  assert (Hlt : rq_task r < tasks).
  { destruct (ok_issued_slot _ _ I _ Hq) as (g & Hg & _). apply slot_inv in Hg. rewrite <- Hn', <- Ht. apply nth_error_Some. congruence. }
  assert (Hsi : s = (rq_task r, rq_target r - rq_start r)).
  { rewrite nth_error_map in Hs. destruct (nth_error (seq _ _) _) as [j|] eqn:Ej; [|discriminate]. cbn in Hs.
    assert (Hj : rq_target r - rq_start r < List.length (nn_sources h (rq_task r))).
    { apply (f_equal (fun o => match o with Some _ => true | None => false end)) in Ej.
      destruct (Nat.lt_ge_cases (rq_target r - rq_start r) (List.length (nn_sources h (rq_task r)))) as [|Hge]; [assumption|].
      assert (HN : nth_error (seq 0 (List.length (nn_sources h (rq_task r)))) (rq_target r - rq_start r) = None)
        by (apply nth_error_None; now rewrite seq_length). rewrite HN in Ej. discriminate. }
    rewrite (nth_error_nth' _ 0) in Ej by now rewrite seq_length. rewrite seq_nth in Ej by assumption. cbn in Ej.
    injection Ej as <-. now injection Hs as <-. }
  subst s. cbn [fst snd] in Hr.
  destruct (read_is_sent _ _ _ _ _ _ _ _ Hlink Hu Hr He) as (canon & c0 & Hw & Hc & Hsent).
  exists c0. split; [|exact Hsent]. unfold pool_execute.
  replace (worker_execute_task (producers (rq_task r)) (rq_head r) (rq_start r) (rq_end r)) with (Ok canon) by (rewrite <- E1, <- E2, <- E3; now symmetry).
  destruct (Nat.leb_spec tasks (rq_task r)); [lia|]. cbn [bind].
  destruct (Nat.ltb_spec (rq_target r) (rq_start r)); [lia|]. rewrite Hc. reflexivity.
Qed.

Theorem network_sound b (part : partitioning row) tasks P producers n f :
  net_delivers budget capacity bad b part tasks P producers n f -> boundary_delivers b part tasks P producers n f.
Proof.
  intros H i p Hi Hp. destruct (H i Hi) as (h & Hh & Hread). destruct (Hread p Hp) as (reqs & gots & out & Hreq & HF & Hm & He & ->).
  pose proof (merge_error_free _ _ Hm He) as Hef.
  assert (G : exists canon, mapM (pool_execute producers tasks tasks) reqs = Ok canon /\ Forall2 (sent b P) canon (map rows_of gots)).
  { clear - Hh HF Hef. induction HF as [|r got reqs gots Hr HF IH]; [exists []; split; [reflexivity|constructor]|].
    destruct IH as (canon & E & F); [intros g Hg; apply Hef; now right|].
    destruct (call_yields b part tasks P producers (mkCtx i n) (seq 0 (partition_count part)) h r got) as (c & Ec & Hsent); auto using seq_NoDup.
    - intros q Hq. apply in_seq in Hq. lia.
    - apply Hef. now left.
    - exists (c :: canon). cbn. rewrite Ec, E. split; [reflexivity|]. constructor; assumption. }
  destruct G as (canon & E & F). exists canon, (map rows_of gots). split; [rewrite boundary_execute_requests, Hreq; exact E|].
  split; [exact F|]. now apply merge_rows.
Qed.
End Sound.
