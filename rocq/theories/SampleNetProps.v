(** Theorems about sampling over a connection: C65. *)
From Verif Require Import Base CiuModel CiuProofs DemuxModel DemuxSpec DemuxProofs SamplerModel GatherModel GatherSpec SampleNetModel SampleNetSpec SampleNetProofs.
From Coq Require Import NArith.

Section Props.
Context {data err : Type}.
Notation source_item := (@item data + err)%type.
Variables (start budget capacity limit : nat) (bad : nat -> err) (report : list source_item -> sample).
Notation step := (sampling_step start budget capacity limit bad report).
Notation reachable sources := (steps step (sampling_init sources)).

(** When it does not end: the connection's budget is used up by messages for partitions that have reported, and too
    few other partitions have something to report. Then there are never enough reports, whatever happens. *)
Theorem C65_stall : forall sources s, sources <> [] -> reachable sources s ->
  k_phase (sp_conn s) = Gate \/ k_phase (sp_conn s) = Blocked -> budget <= kept_bytes s ->
  (N.of_nat (List.length (sp_reported s) + List.length (can_report s)) < a_fifth (N.of_nat (List.length sources)))%N ->
  forall s', steps step s s' -> ~ satisfied (N.of_nat (List.length sources)) (sp_arrivals s').
Proof.
  intros sources s Hne R Ph Kb Few s' H.
  assert (G : stuck start budget capacity bad sources s' /\ List.length (sp_reported s') + List.length (can_report s') <= List.length (sp_reported s) + List.length (can_report s)).
  { refine (steps_invariant step (fun s' => stuck start budget capacity bad sources s' /\ List.length (sp_reported s') + List.length (can_report s') <= List.length (sp_reported s) + List.length (can_report s)) _ _ _ _ H).
    - split; [|lia]. split; [eapply sinv_reachable, R|]. auto.
    - intros a b (St & Le) Hst. destruct (stuck_step _ _ _ _ _ _ _ _ _ St Hst). split; [assumption|lia]. }
  destruct G as ((I & _) & Le). pose proof (si_arrivals _ _ _ _ _ _ I) as La.
  assert (Hpos : (1 <= N.of_nat (List.length sources))%N) by (destruct sources; [congruence|cbn; lia]).
  pose proof (a_fifth_le _ Hpos). intros [(n & F & A)|E].
  - apply found_le in F. lia.
  - lia.
Qed.

Lemma steps_weight (a b : @conn data err) : steps (calm_step start budget capacity bad) a b -> b = a \/ conn_weight b < conn_weight a.
Proof.
  intros H. induction H as [|a b c H IH Hst]; [now left|]. right. destruct Hst as [Hst _]. apply step_weight in Hst.
  destruct IH as [-> |IH]; lia.
Qed.

(** Sampling has no infinite runs. *)
Theorem C65_no_infinite_run : 0 < limit -> well_founded (fun s' s : @sampling data err => step s s').
Proof.
  intros Hlim. apply well_founded_lt_compat with (f := fun s => conn_weight (sp_conn s)).
  intros s' s H. destruct H as [s k' [Hk _] Ht|s i p Hp Hi Hpo Hl Hq|s i p k' Hp Hi Hpo Hl Hq Hd He ->]; cbn [sp_conn].
  - eapply step_weight; eauto.
  - destruct (steps_weight _ _ (take_chunk_calm start budget capacity bad (Nat.min limit (List.length (p_queue p))) _ _ _ Hp Hl Hpo (Nat.le_min_r _ _))) as [E|L]; [|assumption].
    exfalso. apply (f_equal (fun k => nth_error (k_parts k) i)) in E. unfold take_chunk in E. cbn [k_parts] in E.
    rewrite upd_nth, Nat.eqb_refl, Hp in E. injection E as E. apply (f_equal (fun p => List.length (p_queue p))) in E. cbn [p_queue] in E.
    rewrite skipn_length in E. destruct (p_queue p); [congruence|]. cbn [List.length] in E. lia.
  - eapply step_weight. eapply (poll_end start budget capacity bad); eauto.
Qed.

Lemma taken_upd (k : @conn data err) i p v : nth_error (k_parts k) i = Some p -> p_got v = p_got p -> DemuxModel.p_ended v = DemuxModel.p_ended p ->
  map (fun p => (p_got p, DemuxModel.p_ended p)) (upd (k_parts k) i v) = map (fun p => (p_got p, DemuxModel.p_ended p)) (k_parts k).
Proof.
  intros Hp H1 H2. apply nth_ext_error. intros j. rewrite !nth_error_map, upd_nth.
  destruct (Nat.eqb_spec i j) as [<-|]; [|reflexivity]. rewrite Hp. cbn. now rewrite H1, H2.
Qed.

Ltac conn_tac := apply sampling_conn; [split; [|unfold calm; csimp; auto 10]|].

(** While some partition has not reported, there is a step, if all the messages fit in the budget. *)
Lemma sampling_progress sources s : 0 < limit -> 0 < capacity -> list_sum (map bytes sources) < budget ->
  sinv start budget capacity bad sources s ->
  (forall i, i < List.length sources -> In i (sp_reported s)) \/ exists s', step s s'.
Proof.
  intros Hlim Hcap Hb I. destruct (calm_facts _ _ _ _ _ _ (si_conn _ _ _ _ _ _ I)) as (J & C & K & L & Lv).
  pose proof (outstanding_reachable _ _ _ _ _ _ (si_conn _ _ _ _ _ _ I)) as O. unfold outstanding in O.
  destruct (in_dec Nat.eq_dec (List.length sources) (sp_reported s)) as [X|_]; [pose proof (si_range _ _ _ _ _ _ I _ X); lia|].
  destruct (Forall_Exists_dec (fun i => In i (sp_reported s)) (fun i => in_dec Nat.eq_dec i (sp_reported s)) (seq 0 (List.length sources))) as [F|E].
  { left. intros i Hi. rewrite Forall_forall in F. apply F, in_seq. lia. }
  right. apply Exists_exists in E as (i & Hi & Ni). apply in_seq in Hi.
  destruct (nth_error (k_parts (sp_conn s)) i) as [p|] eqn:Hp; [|apply nth_error_None in Hp; rewrite (inv_len _ _ _ J) in Hp; lia].
  pose proof (Lv i p Hp) as Hl. destruct (si_fresh _ _ _ _ _ _ I i p Hp Ni) as [Hg Hen].
  destruct (p_polled p) eqn:Hpo.
  2: { eexists. apply sampling_conn; [split|]; [eapply first_poll; eauto| |].
       - destruct (calm_upd (sp_conn s) i p (DemuxModel.mkPart (DemuxModel.p_src p) (p_buf p) (p_lost p) (p_queue p) (p_live p) true (p_got p) (DemuxModel.p_ended p)) Hp eq_refl eq_refl) as [H1 H2].
         unfold calm. csimp. auto 10.
       - unfold taken. csimp. eapply taken_upd; eauto. }
  assert (Dq : p_queue p = [] \/ p_queue p <> []) by (destruct (p_queue p); [now left|right; discriminate]).
  destruct Dq as [Hq|Hq].
  2: { eexists. eapply sampling_chunk; eauto. }
  destruct (k_phase (sp_conn s)) eqn:Hph.
  - assert (Hf : k_first (sp_conn s) = true).
    { destruct (inv_polled _ _ _ J) as [H|[H|[H|H]]]; [congruence|assumption|congruence|]. specialize (H _ _ Hp). congruence. }
    eexists. apply sampling_conn; [split; [apply demux_connect; auto|unfold calm; csimp; auto 10]|reflexivity].
  - eexists. apply sampling_conn; [split; [apply demux_gate_open; auto; lia|unfold calm; csimp; auto 10]|reflexivity].
  - destruct (k_permit (sp_conn s)) eqn:Hpe.
    + eexists. apply sampling_conn; [split; [apply demux_notified; auto|unfold calm; csimp; auto 10]|reflexivity].
    + pose proof (inv_blocked _ _ _ J Hph Hpe). lia.
  - destruct (search (fun p => match p_buf p with [] => false | _ => true end) (k_parts (sp_conn s))) as [(j & q & Hj & Hq2)|Hbuf].
    + set (v := fun rest => DemuxModel.mkPart (DemuxModel.p_src q) rest (p_lost q) (p_queue q) (p_live q) (p_polled q) (p_got q) (DemuxModel.p_ended q)).
      assert (Hjl : j < List.length (k_parts (sp_conn s))) by (apply nth_error_Some; congruence).
      destruct (p_buf q) as [|[it|e] rest] eqn:Hbq; [discriminate| |]; destruct (calm_upd (sp_conn s) j q (v rest) Hj eq_refl eq_refl) as [H1 H2].
      * eexists. apply sampling_conn; [split; [eapply demux_recv; eauto|]|]; cbv zeta; rewrite sender_of_tag by assumption.
        -- unfold calm. csimp. auto 10.
        -- unfold taken. csimp. eapply taken_upd; eauto.
      * eexists. apply sampling_conn; [split; [eapply demux_recv_error; eauto|]|].
        -- unfold calm. csimp. destruct (fanout_calm (upd (k_parts (sp_conn s)) j (v rest)) e) as [H3 H4]. unfold v in *.
           rewrite H3, H4. do 4 (split; [assumption || reflexivity|]). right. exists q, e. split; [now apply nth_error_In in Hj|].
           rewrite Hbq. split; [now left|reflexivity].
        -- unfold taken. csimp. rewrite map_map. rewrite <- (taken_upd (sp_conn s) j q (v rest) Hj eq_refl eq_refl).
           apply map_ext. intros x. now rewrite send_part_got, send_part_ended.
    + destruct (search (fun p => match DemuxModel.p_src p with [] => false | _ => true end) (k_parts (sp_conn s))) as [(j & q & Hj & Hq2)|Hsrc].
      * destruct (DemuxModel.p_src q) as [|m rest] eqn:Hsq; [discriminate|].
        assert (Hbq : p_buf q = []) by (specialize (Hbuf _ _ Hj); now destruct (p_buf q)).
        eexists. apply sampling_conn; [split; [eapply worker_pull; eauto; rewrite Hbq; assumption|]|].
        -- destruct (calm_upd (sp_conn s) j q (DemuxModel.mkPart rest (p_buf q ++ [m]) (p_lost q) (p_queue q) (p_live q) (p_polled q) (p_got q) (DemuxModel.p_ended q)) Hj eq_refl eq_refl) as [H1 H2].
           unfold calm. csimp. auto 10.
        -- unfold taken. csimp. eapply taken_upd; eauto.
      * eexists. apply sampling_conn; [split; [apply demux_exhausted; auto|unfold calm; csimp; auto 10]|reflexivity].
        apply Forall_forall. intros x Hx. apply In_nth_error in Hx. destruct Hx as [j Hj].
        specialize (Hsrc _ _ Hj). specialize (Hbuf _ _ Hj). destruct (DemuxModel.p_src x), (p_buf x); try discriminate; auto.
  - pose proof (inv_sending _ _ _ J _ _ Hph) as Hi0. destruct (nth_error (k_parts (sp_conn s)) i0) as [q|] eqn:Hj; [|apply nth_error_None in Hj; lia].
    eexists. apply sampling_conn; [split; [eapply demux_send; eauto|]|].
    + destruct (calm_upd (sp_conn s) i0 q (send_part q (inl it)) Hj (send_part_live _ _) (send_part_lost _ _)) as [? ?].
      unfold calm. csimp. auto 10.
    + unfold taken. csimp. eapply taken_upd; [eassumption|apply send_part_got|apply send_part_ended].
  - eexists. eapply sampling_end; eauto.
Qed.

(** When it ends: if all the data of the connection is less than its budget. Every run can only stop when all
    partitions have reported, and runs are finite. Missing: more data than that, see [C65_refuted]. *)
Theorem C65_small_input_partial : forall sources s, 0 < limit -> 0 < capacity -> list_sum (map bytes sources) < budget ->
  reachable sources s ->
  ((forall s', ~ step s s') -> List.length (sp_arrivals s) = List.length sources) /\
  exists s', steps step s s' /\ List.length (sp_arrivals s') = List.length sources /\
    satisfied (N.of_nat (List.length sources)) (sp_arrivals s').
Proof.
  intros sources s Hlim Hcap Hb R. pose proof (sinv_reachable _ _ _ _ _ _ _ _ R) as I.
  assert (All : forall s, sinv start budget capacity bad sources s -> (forall i, i < List.length sources -> In i (sp_reported s)) ->
    List.length (sp_arrivals s) = List.length sources).
  { clear. intros s I H. rewrite (si_arrivals _ _ _ _ _ _ I). apply Nat.le_antisymm.
    - rewrite <- (seq_length (List.length sources) 0). apply NoDup_incl_length; [apply I|]. intros i Hi. apply in_seq. pose proof (si_range _ _ _ _ _ _ I i Hi). lia.
    - rewrite <- (seq_length (List.length sources) 0) at 1. apply NoDup_incl_length; [apply seq_NoDup|]. intros i Hi. apply in_seq in Hi. apply H. lia. }
  split.
  - intros Hno. destruct (sampling_progress sources s Hlim Hcap Hb I) as [H|(s' & Hs)]; [now apply All|]. now apply Hno in Hs.
  - clear R. revert I. induction s as [s IH] using (well_founded_induction (C65_no_infinite_run Hlim)). intros I.
    destruct (sampling_progress sources s Hlim Hcap Hb I) as [H|(s' & Hs)].
    + exists s. split; [apply steps_refl|]. specialize (All s I H). split; [assumption|]. right. now rewrite All.
    + destruct (IH s' Hs) as (s2 & H2 & H3); [eapply sinv_step; eauto|]. exists s2. split; [|assumption].
      eapply steps_trans; [apply steps_one; exact Hs|exact H2].
Qed.
End Props.

(** ** It may not end *)

(** Whatever the budget: eight partitions, all with data, the first with two messages. *)
Definition skewed (budget : nat) : list (list (@item unit + unit)) :=
  [inl (mkItem tt 1); inl (mkItem tt budget)] :: repeat [inl (mkItem tt 1)] 7.

Ltac by_conn tac := eapply steps_trans; [apply steps_one; apply sampling_conn; [split; [tac|]; (do 4 (split; [reflexivity|])); left; reflexivity|reflexivity]|cbn -[Nat.min]].
Ltac by_recv := eapply steps_trans; [apply steps_one; apply sampling_conn;
  [split; [eapply (demux_recv _ _ _ _ _ 0); reflexivity|]; cbv zeta; rewrite sender_of_tag by (cbn; lia); (do 4 (split; [reflexivity|])); left; reflexivity
  |cbv zeta; rewrite sender_of_tag by (cbn; lia); reflexivity]|cbv zeta; rewrite sender_of_tag by (cbn; lia); cbn -[Nat.min]].

Theorem C65_refuted : forall start budget capacity limit (bad : nat -> unit) (report : list (@item unit + unit) -> sample),
  0 < budget -> 0 < capacity -> 0 < limit ->
  exists s, steps (sampling_step start budget capacity limit bad report) (sampling_init (skewed budget)) s /\
    forall s', steps (sampling_step start budget capacity limit bad report) s s' -> ~ satisfied 8 (sp_arrivals s').
Proof.
  intros start budget capacity limit bad report Hb Hc Hl.
  assert (G : exists s, steps (sampling_step start budget capacity limit bad report) (sampling_init (skewed budget)) s /\
     k_phase (sp_conn s) = Gate /\ kept_bytes s = budget /\ sp_reported s = [0] /\ can_report s = []).
  { eexists. split.
    - by_conn ltac:(eapply (first_poll _ _ _ _ _ 0); reflexivity).
      by_conn ltac:(apply demux_connect; reflexivity).
      by_conn ltac:(apply demux_gate_open; [reflexivity|exact Hb]).
      by_conn ltac:(eapply (worker_pull _ _ _ _ _ 0); [reflexivity|reflexivity|exact Hc]).
      by_recv.
      by_conn ltac:(eapply (demux_send _ _ _ _ _ 0); reflexivity).
      eapply steps_trans; [apply steps_one; eapply (sampling_chunk _ _ _ _ _ _ _ 0); [reflexivity|intros []|reflexivity|reflexivity|discriminate]|].
      cbn -[Nat.min]. replace (Nat.min limit 1) with 1 by lia. cbn.
      by_conn ltac:(apply demux_gate_open; [reflexivity|exact Hb]).
      by_conn ltac:(eapply (worker_pull _ _ _ _ _ 0); [reflexivity|reflexivity|exact Hc]).
      by_recv.
      by_conn ltac:(eapply (demux_send _ _ _ _ _ 0); reflexivity).
      apply steps_refl.
    - split; [reflexivity|]. split; [cbn; lia|]. split; reflexivity. }
  destruct G as (s & R & Ph & Kb & Re & Ca). exists s. split; [exact R|]. intros s' H.
  apply (C65_stall start budget capacity limit bad report (skewed budget) s); auto; [discriminate|lia|].
  rewrite Re, Ca. reflexivity.
Qed.

(** Two partitions whose data fits in the budget. *)
Example C65_case : list_sum (map bytes [[inl (mkItem tt 3); inl (mkItem tt 4)]; [inl (mkItem tt 5); inr tt]]) < 20.
Proof. cbn. lia. Qed.

Print Assumptions C65_stall.
Print Assumptions C65_no_infinite_run.
Print Assumptions C65_small_input_partial.
Print Assumptions C65_refuted.
