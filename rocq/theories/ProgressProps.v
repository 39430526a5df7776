(** C87: the tasks that a worker lists are the open ones. *)
From Verif Require Import Base CiuModel TaskModel TaskSpec TaskProofs ProgressModel ProgressSpec ProgressProofs.

Section Worker.
Context {plan head err : Type}.
Variable insert : head -> plan -> plan + err.

(** A task that is listed is open, with the plan whose rows are reported, and it is listed once. *)
Theorem C87_listed_is_open (w : worker plan head err) : worker_reachable insert w ->
  NoDup (map fst (progress w)) /\ (forall k p, In (k, p) (progress w) -> task_open w k p).
Proof using.
  intros H. destruct (tidy_reachable insert w H) as [[keys I] T]. split.
  - apply progress_keys; [|apply T]. intro x. destruct (nth_error _ _) as [[[[p|e]|] f]|]; eauto.
  - intros k p Hin. apply in_progress in Hin as (e & f & Hc & He).
    destruct (wo_en _ _ _ I _ _ He) as [V _]. destruct (V _ eq_refl) as (j & ch & Hj & Ee & Eb & P).
    pose proof (wo_cache _ _ _ I _ _ Hc) as K. destruct (wo_ch _ _ _ I _ _ Hj) as [K' F]. rewrite Ee in K'.
    exists ch. split; [exact (nth_error_In _ _ Hj)|]. split; [congruence|]. split; [exact Eb|].
    destruct (ch_phase ch) as [| | | |s|s] eqn:Eph; try (destruct P; fail); eauto.
    + destruct F as (en & x & _ & _ & F). congruence.
    + exfalso. refine (td_closed _ T ch s k (nth_error_In _ _ Hj) Eph _). now rewrite Ee.
Qed.

(** An open task for which one plan was sent, and whose entry was not evicted, is listed. *)
Theorem C87_open_is_listed_partial k p (w : worker plan head err) : reachable_without_evicting insert k w -> plans_set w k <= 1 ->
  task_open w k p -> In (k, p) (progress w).
Proof using.
  intros H L (ch & Hin & Hk & Hb & Hp). destruct (held_reachable insert k w H) as [Rw Hd].
  destruct (tidy_reachable insert w Rw) as [[keys I] T]. apply In_nth_error in Hin as [j Hj].
  assert (Hc : cached w k = Some (ch_entry ch)).
  { apply Hd; [exact L|exact (nth_error_In _ _ Hj)|exact Hk|]. intros s E. destruct Hp as [Hp|[s' Hp]]; congruence. }
  apply cached_in in Hc. destruct (wo_ch _ _ _ I _ _ Hj) as [_ F].
  assert (V : exists en, nth_error (wk_entries w) (ch_entry ch) = Some en /\ en_value en = Some (inl p)).
  { destruct Hp as [Hp|[s' Hp]]; rewrite Hp in F; [destruct F as (en & b & F1 & F2 & F3)|destruct F as (en & b & F1 & F2 & F3 & _)];
      exists en; (split; [exact F1|congruence]). }
  destruct V as ([v f] & V1 & V2). cbn in V2. subst v. apply in_progress. eauto.
Qed.

(** Once the task is closed it is not listed any more, if one plan was sent for it. *)
Theorem C87_closed_is_not_listed (w : worker plan head err) k : worker_reachable insert w ->
  (forall ch, In ch (wk_channels w) -> ch_key ch = k -> exists s, ch_phase ch = Closed s) ->
  ~ In k (map fst (progress w)).
Proof using.
  intros H Hc Hin. apply in_map_iff in Hin as ([k' p] & E & Hin). cbn in E. subst k'.
  destruct (proj2 (C87_listed_is_open w H) _ _ Hin) as (ch & Hch & Hk & _ & Hp). destruct (Hc _ Hch Hk) as [s Hs].
  destruct Hp as [Hp|[s' Hp]]; congruence.
Qed.
End Worker.
Print Assumptions C87_listed_is_open.
Print Assumptions C87_open_is_listed_partial.
Print Assumptions C87_closed_is_not_listed.

Example C87_hypotheses_met :
  let insert (h : nat) (p : list nat) : list nat + string := inl (h :: p) in
  exists w : worker (list nat) nat string, reachable_without_evicting insert 5 w /\ worker_reachable insert w /\
    plans_set w 5 <= 1 /\ task_open w 5 [10] /\ progress w = [(5, [10])] /\
    (forall ch, In ch (wk_channels w) -> ch_key ch = 6 -> exists s, ch_phase ch = Closed s) /\ plans_set w 6 = 1.
Proof.
  intros insert.
  match goal with |- exists w : ?T, _ =>
  enough (exists w : T, reachable_without_evicting insert 5 w /\ plans_set w 5 <= 1 /\ task_open w 5 [10] /\
    progress w = [(5, [10])] /\ (forall ch, In ch (wk_channels w) -> ch_key ch = 6 -> exists s, ch_phase ch = Closed s) /\ plans_set w 6 = 1) as (w & H & X)
  end.
  { exists w. split; [exact H|]. split; [exact (proj1 (held_reachable _ _ _ H))|exact X]. }
  eexists. split; [|split; [|split; [|split; [|split]]]].
  - unfold reachable_without_evicting, worker_new.
    eapply steps_trans; [apply steps_one; split; [apply (data_request _ _ 5 1)|intros (_ & E & _); discriminate E]|cbn].
    eapply steps_trans; [apply steps_one; split; [apply (set_plan _ _ 5 (inl [10]) true)|intros (E & _); discriminate E]|cbn].
    eapply steps_trans; [apply steps_one; split; [apply (set_plan _ _ 6 (inl [11]) true)|intros (E & _); discriminate E]|cbn].
    eapply steps_trans; [apply steps_one; split; [eapply (publish _ _ 0); reflexivity|intros (E & _); discriminate E]|cbn].
    eapply steps_trans; [apply steps_one; split; [eapply (publish _ _ 1); reflexivity|intros (E & _); discriminate E]|cbn].
    eapply steps_trans; [apply steps_one; split; [eapply (end_of_stream _ _ 1); reflexivity|intros (E & _); discriminate E]|cbn].
    eapply steps_trans; [apply steps_one; split; [eapply (invalidate _ _ 1); reflexivity|intros (E & _); discriminate E]|cbn].
    apply steps_refl.
  - cbn. lia.
  - eexists. cbn. split; [left; reflexivity|]. cbn. auto.
  - reflexivity.
  - cbn. intros ch [<-|[<-|[]]]; cbn; [discriminate|eauto].
  - reflexivity.
Qed.

(** A task whose entry was idle for too long (its plan was set but no request came for ten minutes) is open and not listed. *)
Theorem C87_open_is_listed_refuted :
  exists (insert : nat -> nat -> nat + nat) (w : worker nat nat nat), worker_reachable insert w /\ plans_set w 5 = 1 /\
    task_open w 5 10 /\ progress w = [].
Proof.
  exists (fun _ p => inl p). eexists. split; [|split; [|split]].
  - unfold worker_reachable, worker_new.
    eapply steps_trans; [apply steps_one; apply (set_plan _ _ 5 (inl 10) true)|cbn].
    eapply steps_trans; [apply steps_one; eapply (publish _ _ 0); reflexivity|cbn].
    eapply steps_trans; [apply steps_one; apply (evict _ _ 5)|cbn]. apply steps_refl.
  - reflexivity.
  - eexists. cbn. split; [left; reflexivity|]. cbn. auto.
  - reflexivity.
Qed.
Print Assumptions C87_open_is_listed_refuted.
