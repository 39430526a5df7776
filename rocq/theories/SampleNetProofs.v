(** Proofs about sampling over a connection. *)
From Verif Require Import Base CiuModel CiuProofs DemuxModel DemuxSpec DemuxProofs SamplerModel GatherModel GatherSpec SampleNetModel SampleNetSpec.
From Coq Require Import NArith.

Ltac csimp := cbn [set_parts set_phase fanout k_parts k_phase k_reserved k_permit k_first k_cancelled k_leaked k_failed
   k_crashed k_sizes DemuxModel.p_src p_buf p_lost p_queue p_live p_polled p_got DemuxModel.p_ended
   sp_conn sp_reported sp_arrivals take_chunk] in *.

Lemma sub_sum {A} (f : A -> nat) l m : NoDup l -> incl l m -> list_sum (map f l) <= list_sum (map f m).
Proof.
  revert m. induction l as [|a l IH]; intros m Hn Hi; cbn; [lia|].
  inversion Hn as [|? ? Ha Hl]; subst. destruct (in_split a m) as (m1 & m2 & ->); [apply Hi; now left|].
  rewrite map_app, list_sum_app. cbn. fold (list_sum (map f l)). fold (list_sum (map f m2)).
  specialize (IH (m1 ++ m2) Hl). rewrite map_app, list_sum_app in IH.
  enough (list_sum (map f l) <= list_sum (map f m1) + list_sum (map f m2)) by lia. apply IH.
  intros x Hx. assert (x <> a) by (intros ->; contradiction). specialize (Hi x (or_intror Hx)).
  apply in_app_or in Hi as [Hi|[Hi|Hi]]; [apply in_or_app; now left|congruence|apply in_or_app; now right].
Qed.

Lemma sum_seq {A} (f : A -> nat) l : list_sum (map (fun i => match nth_error l i with Some a => f a | None => 0 end) (seq 0 (List.length l))) = list_sum (map f l).
Proof.
  induction l as [|a l IH]; cbn; [reflexivity|]. f_equal. rewrite <- seq_shift, map_map. exact IH.
Qed.

Section Proofs.
Context {data err : Type}.
Notation source_item := (@item data + err)%type.
Notation conn := (@conn data err).
Notation sampling := (@sampling data err).
Variables (start budget capacity limit : nat) (bad : nat -> err) (report : list source_item -> sample).
Notation calm_step := (calm_step start budget capacity bad).
Notation sampling_step := (sampling_step start budget capacity limit bad report).

Lemma poll_calm (k : conn) i p m rest : nth_error (k_parts k) i = Some p -> p_live p = true -> p_polled p = true -> p_queue p = m :: rest ->
  calm_step k (take_chunk k i p 1).
Proof.
  intros Hp Hl Hpo Hq.
  assert (C : calm k (take_chunk k i p 1)).
  { destruct (calm_upd k i p (DemuxModel.mkPart (DemuxModel.p_src p) (p_buf p) (p_lost p) (skipn 1 (p_queue p)) (p_live p) true
       (p_got p ++ firstn 1 (p_queue p)) (DemuxModel.p_ended p)) Hp eq_refl eq_refl) as [H1 H2].
    unfold calm. csimp. auto 10. }
  split; [|exact C]. unfold take_chunk. rewrite Hq. cbn [skipn firstn]. destruct m as [it|e].
  - rewrite bytes_inl. cbn [bytes list_sum map fold_right existsb]. rewrite orb_true_r, Nat.add_0_r.
    eapply poll_item; eauto.
  - rewrite bytes_inr. cbn [bytes list_sum map fold_right existsb]. rewrite orb_false_r, Nat.sub_0_r.
    pose proof (poll_error start budget capacity bad k i p e rest Hp Hl Hpo Hq) as H.
    destruct k. exact H.
Qed.

Lemma take_chunk_calm n : forall (k : conn) i p, nth_error (k_parts k) i = Some p -> p_live p = true -> p_polled p = true ->
  n <= List.length (p_queue p) -> steps calm_step k (take_chunk k i p n).
Proof.
  induction n as [|n IH]; intros k i p Hp Hl Hpo Hn.
  - replace (take_chunk k i p 0) with k; [apply steps_refl|]. unfold take_chunk. cbn [firstn skipn existsb bytes].
    rewrite orb_false_r. cbn [map list_sum fold_right]. rewrite Nat.sub_0_r, app_nil_r.
    replace (upd (k_parts k) i _) with (k_parts k); [now destruct k|].
    apply nth_ext_error. intros j. rewrite upd_nth. destruct (Nat.eqb_spec i j) as [<-|]; [|reflexivity]. rewrite Hp. f_equal.
    destruct p; cbn in *; subst; reflexivity.
  - destruct (p_queue p) as [|m rest] eqn:Hq; [cbn in Hn; lia|]. cbn in Hn.
    pose proof (poll_calm k i p m rest Hp Hl Hpo Hq) as H1.
    set (p1 := DemuxModel.mkPart (DemuxModel.p_src p) (p_buf p) (p_lost p) rest (p_live p) true (p_got p ++ [m]) (DemuxModel.p_ended p)).
    assert (Hp1 : nth_error (k_parts (take_chunk k i p 1)) i = Some p1).
    { csimp. rewrite upd_nth, Nat.eqb_refl, Hp, Hq. reflexivity. }
    pose proof (IH (take_chunk k i p 1) i p1 Hp1 Hl eq_refl ltac:(cbn; lia)) as H2.
    replace (take_chunk k i p (S n)) with (take_chunk (take_chunk k i p 1) i p1 n).
    + eapply steps_trans; [apply steps_one; exact H1|exact H2].
    + unfold take_chunk at 1 3. csimp. unfold p1. csimp. rewrite Hq. cbn [skipn firstn]. f_equal.
      * apply nth_ext_error. intros j. rewrite !upd_nth. destruct (Nat.eqb_spec i j) as [<-|]; [|reflexivity].
        rewrite Nat.eqb_refl, Hp. do 2 f_equal. now rewrite <- app_assoc.
      * change (m :: firstn n rest) with ([m] ++ firstn n rest). rewrite (bytes_app [m]). lia.
      * cbn [existsb]. rewrite orb_false_r. now rewrite orb_assoc.
Qed.

(** What is known while sampling. *)
Record sinv (sources : list (list source_item)) (s : sampling) : Prop := {
  si_conn : steps calm_step (conn_init sources) (sp_conn s);
  si_nodup : NoDup (sp_reported s);
  si_range : forall i, In i (sp_reported s) -> i < List.length sources;
  si_arrivals : List.length (sp_arrivals s) = List.length (sp_reported s);
  si_fresh : forall i p, nth_error (k_parts (sp_conn s)) i = Some p -> ~ In i (sp_reported s) -> p_got p = [] /\ DemuxModel.p_ended p = false
}.

Lemma calm_reachable (sources : list (list source_item)) k : steps calm_step (conn_init sources) k -> conn_reachable start budget capacity bad sources k.
Proof. intros H. unfold conn_reachable. induction H; [apply steps_refl|]. eapply steps_next; [eassumption|]. now destruct H0. Qed.

Lemma calm_facts (sources : list (list source_item)) k : steps calm_step (conn_init sources) k ->
  inv budget sources k /\ k_crashed k = false /\ k_cancelled k = false /\ k_leaked k = 0 /\
  (forall i p, nth_error (k_parts k) i = Some p -> p_live p = true).
Proof.
  intros H. split; [eapply inv_reachable, calm_reachable; exact H|].
  assert (G : k_crashed k = false /\ k_cancelled k = false /\ k_leaked k = 0 /\ Forall (eq true) (map p_live (k_parts k))).
  { refine (steps_invariant _ (fun k => k_crashed k = false /\ k_cancelled k = false /\ k_leaked k = 0 /\ Forall (eq true) (map p_live (k_parts k))) _ _ _ _ H).
    - csimp. cbn. do 3 (split; [reflexivity|]). rewrite map_map. cbn. apply Forall_map, Forall_forall. reflexivity.
    - intros a b (C & K & L & F) Hst. pose proof (calm_leaked _ _ _ _ _ _ Hst) as HL. destruct Hst as [_ (El & _ & Ec & Ek & _)].
      rewrite Ec, Ek, HL, El. auto. }
  destruct G as (C & K & L & F). do 3 (split; [assumption|]). intros i p Hp. rewrite Forall_map, Forall_forall in F. symmetry. apply F. now apply nth_error_In in Hp.
Qed.

Lemma sinv_init sources : sinv sources (sampling_init sources).
Proof.
  constructor; csimp.
  - apply steps_refl.
  - constructor.
  - intros i [].
  - reflexivity.
  - cbn. intros i p Hp _. rewrite nth_error_map in Hp. destruct (nth_error sources i); [|discriminate]. injection Hp as <-. auto.
Qed.

Lemma nodup_snoc (l : list nat) i : NoDup l -> ~ In i l -> NoDup (l ++ [i]).
Proof. intros H Hi. apply Base.NoDup_app_disjoint; [assumption|repeat constructor; auto|]. intros x Hx [<-|[]]. contradiction. Qed.

Lemma sinv_step sources s s' : sinv sources s -> sampling_step s s' -> sinv sources s'.
Proof.
  intros I Hst. pose proof (calm_facts _ _ (si_conn _ _ I)) as (J & _ & _ & _ & _). pose proof (inv_len _ _ _ J) as L.
  destruct Hst as [s k' Hk Ht|s i p Hp Hi Hpo Hl Hq|s i p k' Hp Hi Hpo Hl Hq Hd He ->].
  - constructor; csimp; try apply I.
    + eapply steps_next; [apply I|assumption].
    + intros i p Hp Hi. apply (f_equal (fun l => nth_error l i)) in Ht. unfold taken in Ht. rewrite !nth_error_map, Hp in Ht.
      destruct (nth_error (k_parts (sp_conn s)) i) as [q|] eqn:Eq; [|discriminate Ht]. cbn in Ht. injection Ht as -> ->. exact (si_fresh _ _ I i q Eq Hi).
  - constructor; csimp.
    + eapply steps_trans; [apply I|]. apply take_chunk_calm; auto. apply Nat.le_min_r.
    + apply nodup_snoc; [apply I|assumption].
    + intros j Hj. apply in_app_or in Hj as [Hj|[<-|[]]]; [now apply (si_range _ _ I)|]. rewrite <- L. apply nth_error_Some. congruence.
    + rewrite !app_length. cbn. now rewrite (si_arrivals _ _ I).
    + intros j q Hj Hn. apply upd_nth_inv in Hj. destruct Hj as [[-> ->]|[_ Hj]].
      * exfalso. apply Hn, in_or_app. right. now left.
      * apply (si_fresh _ _ I j q Hj). intros X. apply Hn, in_or_app. now left.
  - constructor; csimp.
    + eapply steps_next; [apply I|]. split; [eapply poll_end; eauto|].
      destruct (calm_upd (sp_conn s) i p (DemuxModel.mkPart (DemuxModel.p_src p) (p_buf p) (p_lost p) [] (p_live p) true (p_got p) true) Hp eq_refl eq_refl) as [H1 H2].
      unfold calm. csimp. auto 10.
    + apply nodup_snoc; [apply I|assumption].
    + intros j Hj. apply in_app_or in Hj as [Hj|[<-|[]]]; [now apply (si_range _ _ I)|]. rewrite <- L. apply nth_error_Some. congruence.
    + rewrite !app_length. cbn. now rewrite (si_arrivals _ _ I).
    + intros j q Hj Hn. apply upd_nth_inv in Hj. destruct Hj as [[-> ->]|[_ Hj]].
      * exfalso. apply Hn, in_or_app. right. now left.
      * apply (si_fresh _ _ I j q Hj). intros X. apply Hn, in_or_app. now left.
Qed.

Lemma sinv_reachable sources s : steps sampling_step (sampling_init sources) s -> sinv sources s.
Proof. apply (steps_invariant _ (sinv sources)); [apply sinv_init|]. intros a b. apply sinv_step. Qed.

(** ** Stalls *)

Definition stuck (sources : list (list source_item)) (s : sampling) : Prop :=
  sinv sources s /\ (k_phase (sp_conn s) = Gate \/ k_phase (sp_conn s) = Blocked) /\ budget <= kept_bytes s.

Lemma kept_reserved sources s : sinv sources s -> kept_bytes s <= k_reserved (sp_conn s).
Proof.
  intros I. destruct (calm_facts _ _ (si_conn _ _ I)) as (J & C & _ & _ & Lv). rewrite (inv_bytes _ _ _ J C), buffered_eq.
  enough (kept_bytes s <= list_sum (map live_bytes (k_parts (sp_conn s)))) by lia.
  rewrite <- sum_seq. unfold kept_bytes.
  apply Nat.le_trans with (list_sum (map (fun i => bytes (waiting_for s i)) (seq 0 (List.length (k_parts (sp_conn s)))))).
  - apply sub_sum; [apply I|]. intros i Hi. apply in_seq. pose proof (si_range _ _ I i Hi). rewrite (inv_len _ _ _ J). lia.
  - apply Nat.eq_le_incl. f_equal. apply map_ext. intros i. unfold waiting_for. destruct (nth_error (k_parts (sp_conn s)) i) as [p|] eqn:E; [|reflexivity].
    unfold live_bytes. now rewrite (Lv i p E).
Qed.

Lemma not_reported_chunk (s : sampling) i p : nth_error (k_parts (sp_conn s)) i = Some p -> ~ In i (sp_reported s) -> p_queue p <> [] -> In i (can_report s).
Proof.
  intros Hp Hi Hq. apply filter_In. split; [apply in_seq; split; [lia|]; apply nth_error_Some; congruence|].
  apply andb_true_intro. split.
  - apply negb_true_iff. destruct (existsb _ _) eqn:E; [|reflexivity]. apply existsb_exists in E as (j & Hj & E). apply Nat.eqb_eq in E. subst. contradiction.
  - unfold waiting_for. rewrite Hp. now destruct (p_queue p).
Qed.

Lemma can_report_in (s : sampling) i : In i (can_report s) <-> i < List.length (k_parts (sp_conn s)) /\ ~ In i (sp_reported s) /\ waiting_for s i <> [].
Proof.
  unfold can_report. rewrite filter_In, in_seq, andb_true_iff, !negb_true_iff. split.
  - intros (H1 & H2 & H3). split; [lia|]. split.
    + intros H. assert (existsb (Nat.eqb i) (sp_reported s) = true); [|congruence]. apply existsb_exists. exists i. split; [assumption|apply Nat.eqb_refl].
    + now destruct (waiting_for s i).
  - intros (H1 & H2 & H3). split; [lia|]. split.
    + destruct (existsb _ _) eqn:E; [|reflexivity]. apply existsb_exists in E as (j & Hj & E). apply Nat.eqb_eq in E. subst. contradiction.
    + now destruct (waiting_for s i).
Qed.

Lemma can_report_nodup (s : sampling) : NoDup (can_report s).
Proof. apply NoDup_filter, seq_NoDup. Qed.

Lemma stuck_step sources s s' : stuck sources s -> sampling_step s s' ->
  stuck sources s' /\ List.length (sp_reported s') + List.length (can_report s') <= List.length (sp_reported s) + List.length (can_report s).
Proof.
  intros (I & Ph & Kb) Hst. pose proof (sinv_step _ _ _ I Hst) as I'.
  destruct (calm_facts _ _ (si_conn _ _ I)) as (J & C & K & L & Lv).
  pose proof (kept_reserved _ _ I) as KR.
  destruct Hst as [s k' Hk Ht|s i p Hp Hi Hpo Hl Hq|s i p k' Hp Hi Hpo Hl Hq Hd He ->].
  - destruct (stalled_step start budget capacity bad _ _ (conj Ph K) C ltac:(lia) Hk) as ((Ph' & _) & D).
    assert (W : forall i, waiting_for (mkSampling k' (sp_reported s) (sp_arrivals s)) i = waiting_for s i).
    { intros i. specialize (D i). unfold delivered in D. unfold waiting_for. csimp.
      apply (f_equal (fun l => nth_error l i)) in Ht. unfold taken in Ht. rewrite !nth_error_map in Ht.
      destruct (nth_error k'.(k_parts) i) as [p'|], (nth_error (k_parts (sp_conn s)) i) as [p|]; cbn in Ht, D; try discriminate; [|reflexivity].
      injection Ht as Hg _. injection D as D. rewrite Hg in D. now apply app_inv_head in D. }
    split; [split; [assumption|]; split; [exact Ph'|]|].
    + unfold kept_bytes in *. csimp. erewrite map_ext; [exact Kb|]. intros i. now rewrite W.
    + csimp. apply Nat.add_le_mono_l. apply NoDup_incl_length; [apply can_report_nodup|].
      intros i Hi. apply can_report_in in Hi as (H1 & H2 & H3). apply can_report_in. rewrite W in H3. csimp. split; [|auto].
      destruct Hk as [_ (Hk & _)]. apply (f_equal (@List.length _)) in Hk. rewrite !map_length in Hk. lia.
  - set (s' := mkSampling _ _ _) in *.
    assert (W : forall j, j <> i -> waiting_for s' j = waiting_for s j).
    { intros j Hj. unfold waiting_for, s'. csimp. rewrite upd_nth. destruct (Nat.eqb_spec i j); [congruence|reflexivity]. }
    split; [split; [assumption|]; split; [exact Ph|]|].
    + unfold kept_bytes in *. unfold s' at 2. csimp. rewrite map_app, list_sum_app.
      erewrite map_ext_in; [apply Nat.le_trans with (1 := Kb); apply Nat.le_add_r|].
      intros j Hj. rewrite W; [reflexivity|]. intros ->. contradiction.
    + unfold s' at 1. csimp. rewrite app_length. cbn [List.length].
      assert (In i (can_report s)) by now apply not_reported_chunk with p.
      enough (S (List.length (can_report s')) <= List.length (can_report s)) by lia.
      change (S (List.length (can_report s'))) with (List.length (i :: can_report s')). apply NoDup_incl_length.
      * constructor; [|apply can_report_nodup]. intros X. apply can_report_in in X as (_ & X & _). apply X. unfold s'. csimp. apply in_or_app. right. now left.
      * intros j [<-|Hj]; [assumption|]. apply can_report_in in Hj as (H1 & H2 & H3). unfold s' in H1, H2. csimp.
        assert (Hne : j <> i) by (intros ->; apply H2, in_or_app; right; now left).
        rewrite W in H3 by assumption. apply can_report_in. rewrite upd_length in H1. split; [assumption|]. split; [|assumption].
        intros X. apply H2, in_or_app. now left.
  - destruct Ph; congruence.
Qed.

Lemma found_le l n : found l n -> n <= List.length l.
Proof. induction 1; cbn; lia. Qed.

Lemma a_fifth_le total : (1 <= total)%N -> (a_fifth total <= total)%N.
Proof.
  intros H. unfold a_fifth. apply N.max_lub; [|assumption].
  apply N.div_le_upper_bound; [lia|]. destruct (N.eq_dec total 1) as [-> |]; lia.
Qed.

(** ** Small inputs *)

Definition unreceived (p : @DemuxModel.part data err) : nat := bytes (DemuxModel.p_src p) + bytes (p_buf p).
Definition outstanding (k : conn) : nat := k_reserved k + list_sum (map unreceived (k_parts k)).

Lemma fanout_outstanding (ps : list (@DemuxModel.part data err)) e :
  list_sum (map unreceived (map (fun p => send_part p (inr e)) ps)) = list_sum (map unreceived ps).
Proof. rewrite map_map. f_equal. apply map_ext. intros p. unfold unreceived. now rewrite send_part_src, send_part_buf. Qed.

Lemma outstanding_step k k' : conn_step start budget capacity bad k k' -> outstanding k' <= outstanding k.
Proof.
  intros Hst. unfold outstanding.
  destruct Hst as [k i p m rest Hp Hsrc Hcap|k i p Hp Hsrc|k i p Hp Hl Hpo|k i p it rest Hp Hl Hpo Hq
    |k i p e rest Hp Hl Hpo Hq|k i p Hp Hl Hpo Hq Hd He|k i p Hp Hl|k Hc Hph|k Hph Hf|k e Hph Hf|k Hph Hr|k Hph Hr|k Hph Hpe
    |k i p it rest Hph Hp Hb|k i p e rest Hph Hp Hb|k e Hph|k Hph Hall|k i it p Hph Hp|k Hph]; csimp;
   try (match goal with Hp : nth_error (k_parts ?k) ?i = Some ?p |- context [upd (k_parts ?k) ?i ?v] =>
          pose proof (upd_sum unreceived (k_parts k) i _ v Hp) as HU; unfold unreceived in HU at 2 4; csimp end);
   rewrite ?fanout_outstanding; try lia; try (change (bytes (@nil source_item)) with 0 in HU; lia).
  - rewrite Hsrc, bytes_app in HU. change (m :: rest) with ([m] ++ rest) in HU. rewrite bytes_app in HU. lia.
  - destruct (sender_of _ _ _); csimp; rewrite ?fanout_outstanding; rewrite Hb, bytes_inl in HU; lia.
  - rewrite Hb, bytes_inr in HU. lia.
  - rewrite send_part_src, send_part_buf in HU. destruct (p_live p); lia.
Qed.

Lemma outstanding_reachable (sources : list (list source_item)) k : steps calm_step (conn_init sources) k -> outstanding k <= list_sum (map bytes sources).
Proof.
  apply (steps_invariant _ (fun k => outstanding k <= list_sum (map bytes sources))).
  - unfold outstanding. cbn [conn_init k_reserved k_parts]. rewrite map_map. apply Nat.eq_le_incl. cbn [Nat.add]. f_equal. apply map_ext. intros S.
    unfold unreceived. csimp. cbn. lia.
  - intros a b H [Hst _]. apply outstanding_step in Hst. lia.
Qed.
End Proofs.
