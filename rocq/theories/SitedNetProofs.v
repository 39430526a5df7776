(** The boundaries of a plan with boundaries placed by the user read all of their inputs. *)
From Verif Require Import Base NetModel NetSpec NetProofs CiuModel CiuSpec EventsModel EventsSpec JoinModel JoinSpec PlannerModel
  PlannerSpec PlannerProofs ExecModel ExecSpec ExecProofs ExecOps ExecEnd RunSpec RunProofs SitedModel SitedSpec SitedProofs FaultProofs FaultEnd
  AnswerSpec SitedNetSpec.

Section Well.
Context {row : Type}.
Notation tree := (tree row).
Variable cfg : settings row.

Lemma well_one n k (d : tree) : well_cut d n -> well_cut (Node k [d]) n.
Proof. intros H. apply well_cut_node. now intros ? [<-|[]]. Qed.
Lemma well_two n k (l r : tree) : well_cut l n -> well_cut r n -> well_cut (Node k [l; r]) n.
Proof. intros H1 H2. apply well_cut_node. now intros ? [<-|[<-|[]]]. Qed.

Theorem sited_well n t E D : sited cfg n t E D -> forall d, 1 <= n -> ready cfg n t d -> well_cut d n.
Proof.
  induction 1; intros d Hn Hd; auto;
    try (apply ready_one in Hd as (d' & -> & Hd); apply well_one; auto; fail);
    try (apply ready_node in Hd as (ds & -> & F); [|discriminate]; apply Forall2_two in F as (dl & dr & -> & Fl & Fr); apply well_two; auto; fail).
  - apply ready_leaf in Hd as (q & Hq & Hd). destruct H as [_ H]. destruct (H q Hq) as (l' & E & Hp & _).
    rewrite (Hd l' E), E. apply well_cut_node. intros c [].
  - apply ready_node in Hd as (ds & -> & F); [|assumption]. apply well_cut_node. intros d Hin.
    destruct (Forall2_in_r _ _ _ F d Hin) as (c & Hc & Hr). eauto.
  - apply ready_node in Hd as (ds & -> & F); [|discriminate]. apply Forall2_two in F as (dl & dr & -> & Fl & Fr).
    apply well_two; [|auto]. apply ready_one in Fl as (d' & -> & Fl). apply well_one.
    apply ready_net in Fl as (db & Fb & Hcase); [|assumption]. apply ready_one in Fb as (dx & -> & Fx).
    destruct Hcase as [(-> & -> & ->)|(h0 & plan & part' & num' & Hh & Hplan & Hpc & _ & ->)].
    + apply well_one. auto.
    + cbn in Hh. injection Hh as <-. cbn in Hplan. destruct (Nat.eqb_spec (tparts dx) 0) as [|Hpos]; [discriminate|].
      injection Hplan as <-. cbn [well_cut]. split; [|auto]. split; [exact Hn|].
      rewrite Hpc, H2. symmetry. eapply sited_tparts; eauto.
  - apply ready_net in Hd as (d' & Hd & Hcase); [|assumption]. apply ready_one in Hd as (dc & -> & Fc).
    destruct Hcase as [(-> & -> & ->)|(h0 & plan & part' & num' & Hh & Hplan & _ & Hpart & ->)].
    + apply well_one. auto.
    + rewrite (Hpart ltac:(discriminate)). cbn in Hh. injection Hh as <-. cbn in Hplan. injection Hplan as <-.
      cbn [well_cut]. split; [|auto]. split; [exact Hn|assumption].
  - apply ready_net in Hd as (d' & Fc & Hcase); [|assumption].
    destruct Hcase as [(-> & -> & ->)|(h0 & plan & part' & num' & Hh & Hplan & Hcount & _ & ->)]; [auto|].
    pose proof (coalescable_ready _ _ _ _ _ H0 H1 d' Fc) as Hl.
    cbn in Hh. injection Hh as <-. cbn in Hplan. rewrite (headless_strip d' Hl) in Hplan. injection Hplan as <-.
    apply well_cut_net; [exact Hl| |auto]. split; [exact Hn|]. cbn [covers].
    rewrite Hcount, H2. f_equal. symmetry. eapply sited_tparts; eauto.
Qed.

(** What the planner makes of such a plan. *)
Lemma placed_inv t D r : sited cfg 1 t (@Permutation row) D -> has_net t = true ->
  create_distributed_plan cfg (TPlan t) = Ok r -> exists d, body r = Some d /\ ready cfg 1 t d.
Proof.
  intros Hs Hnet H. cbn [create_distributed_plan] in H. unfold distribute in H. rewrite Hnet in H.
  apply bind_inv in H as (t' & Hsc & H). apply bind_inv in H as ([d id] & Hp & H). cbn [fst] in H.
  assert (Hr : ready cfg 1 t d) by (exists t', 1, id; auto). exists d. split; [|exact Hr].
  destruct (negb (has_net d)); [now injection H as <-|].
  rewrite (push_fetch_id d (sited_no_fetch cfg 1 t _ _ Hs d Hr)) in H. cbn [bind] in H. now injection H as <-.
Qed.
End Well.

Section Can.
Context {row : Type}.
Notation tree := (tree row).
Notation table := (nat -> nat -> list row).
Variable cfg : settings row.
Notation runnable := (runnable cfg).

Lemma runnable_node n k (cs : list tree) : runnable n (Node k cs) -> forall c, In c cs -> runnable n c.
Proof. intros [_ H]. rewrite Forall_map, Forall_forall in H. exact H. Qed.
Lemma runnable_one n k (c : tree) : runnable n (Node k [c]) -> runnable n c.
Proof. intros H. apply (runnable_node _ _ _ H). now left. Qed.
Lemma runnable_two n k (l r : tree) : runnable n (Node k [l; r]) -> runnable n l /\ runnable n r.
Proof. intros H. split; apply (runnable_node _ _ _ H); cbn; auto. Qed.

Lemma runnable_net n b part q num tasks (i : tree) : runnable n (Net b part q num tasks i) -> runnable tasks i.
Proof. exact (fun H => H). Qed.

Lemma some_parts n t E D : sited cfg n t E D -> runnable n t -> 1 <= tparts t.
Proof.
  induction 1; intros Hr; try (apply runnable_two in Hr as [Hr1 Hr2]); cbn [tparts map nth partition_count]; auto;
    try (apply IHsited; eapply runnable_one; eauto; fail).
  - destruct Hr as [(_ & H1 & _) _]. exact H1.
  - destruct cs as [|c cs]; [now destruct H|]. cbn [map]. unfold list_sum. cbn [fold_right].
    specialize (H2 c (or_introl eq_refl) (runnable_node _ _ _ Hr c (or_introl eq_refl))). lia.
  - destruct j as [[] a0 ty|ty|]; auto.
  - destruct j as [[] a0 ty|ty|]; auto.
  - rewrite H2. specialize (IHsited Hr). nia.
Qed.

Lemma gather_any part tasks n P (g : table) : 1 <= n -> 0 < P -> partition_count part = P * Nat.max (div_ceil tasks n) 1 ->
  exists f, boundary_yields BCoalesce part tasks (fun t => SOther P (g t)) n f.
Proof.
  intros Hn HP Hp. cbn [boundary_yields boundary_execute].
  change (partition_count part) with (partition_count (co_part (mkCoalesce part (Remote tasks) tasks))).
  apply (coalesce_observable P tasks n (fun t => SOther P (g t)) g ltac:(lia) ltac:(lia) (mkCoalesce part (Remote tasks) tasks) eq_refl eq_refl).
  - exact Hp.
  - intros t _. split; [eexists; eexists; reflexivity|]. split; [reflexivity|]. apply other_yields.
Qed.

Lemma run_one rem k (d : tree) n (g f : table) : runs rem d n g -> node_runs rem k [tparts d] n [g] f -> runs rem (Node k [d]) n f.
Proof. intros Hg Hf. apply runs_node. exists [g]. split; [repeat constructor; exact Hg|exact Hf]. Qed.
Lemma run_two rem k (l r : tree) n (gl gr f : table) : runs rem l n gl -> runs rem r n gr ->
  node_runs rem k [tparts l; tparts r] n [gl; gr] f -> runs rem (Node k [l; r]) n f.
Proof. intros Hl Hr Hf. apply runs_node. exists [gl; gr]. split; [repeat constructor; assumption|exact Hf]. Qed.

(** A plan whose scans can be read can be executed. *)
Theorem sited_can n t E D : sited cfg n t E D -> forall d rem, runnable n t -> ready cfg n t d -> 1 <= n -> (rem = false -> n = 1) ->
  exists f, runs rem d n f.
Proof.
  induction 1; intros d rem Hr Hd Hn Hrem; eauto.
  - apply ready_leaf in Hd as (q & Hq & Hd). destruct Hr as [(_ & _ & Hr) _]. destruct (Hr q Hq) as (l' & E & Hl).
    rewrite (Hd l' E), E. destruct (pick_table n (leaf_parts l') (fun i p r => leaf_runs rem l' (mkCtx i n) p r)) as (f & Hf); [intros; now apply Hl|].
    exists f. apply runs_node. exists []. split; [constructor|exact Hf].
  - apply ready_one in Hd as (d' & -> & Hd). destruct (IHsited d' rem (runnable_one _ _ _ Hr) Hd Hn Hrem) as (g & Hg).
    destruct (repart_can rem (HashP h k) (tparts d') 1 g) as (f & Hf); [eauto|]. exists f. eapply run_one; eauto.
  - apply ready_one in Hd as (d' & -> & Hd). destruct (IHsited d' rem (runnable_one _ _ _ Hr) Hd Hn Hrem) as (g & Hg).
    destruct (repart_can rem (HashP h k) (tparts d') n g) as (f & Hf); [eauto|]. exists f. eapply run_one; eauto.
  - apply ready_one in Hd as (d' & -> & Hd). destruct (IHsited d' rem (runnable_one _ _ _ Hr) Hd Hn Hrem) as (g & Hg).
    destruct (repart_can rem (RoundRobin k) (tparts d') n g) as (f & Hf); [eauto|]. exists f. eapply run_one; eauto.
  - apply ready_one in Hd as (d' & -> & Hd). destruct (IHsited d' rem (runnable_one _ _ _ Hr) Hd Hn Hrem) as (g & Hg).
    destruct (coalesce_can rem spm None (tparts d') n g) as (f & Hf).
    { rewrite (sited_tparts _ _ _ _ _ H d' Hd). eapply some_parts; [exact H|eapply runnable_one; eauto]. }
    exists f. eapply run_one; eauto.
  - apply ready_node in Hd as (ds & -> & F); [|assumption].
    assert (G : exists fs, Forall2 (fun c g => runs rem c n g) ds fs).
    { pose proof (runnable_node _ _ _ Hr) as Hc. clear - F H2 Hc Hn Hrem. induction F as [|c d cs ds Hcd F IHF]; [exists []; constructor|].
      destruct (H2 c (or_introl eq_refl) d rem (Hc c (or_introl eq_refl)) Hcd Hn Hrem) as (g & Hg).
      destruct IHF as (gs & Hgs); [intros c0 Hc0; apply H2; now right|intros c0 Hc0; apply Hc; now right|]. exists (g :: gs). constructor; auto. }
    destruct G as (fs & Hfs). destruct (union_can rem (map tparts ds) n fs) as (f & Hf). exists f. apply runs_node. eauto.
  - apply ready_one in Hd as (d' & -> & Hd). destruct (IHsited d' rem (runnable_one _ _ _ Hr) Hd Hn Hrem) as (g & Hg).
    destruct (op_can rem o (tparts d') n g) as (f & Hf). exists f. eapply run_one; eauto.
  - apply ready_one in Hd as (d' & -> & Hd). destruct (IHsited d' rem (runnable_one _ _ _ Hr) Hd Hn Hrem) as (g & Hg).
    destruct (op_can rem o (tparts d') n g) as (f & Hf). exists f. eapply run_one; eauto.
  - apply ready_one in Hd as (d' & -> & Hd). destruct (IHsited d' rem (runnable_one _ _ _ Hr) Hd Hn Hrem) as (g & Hg).
    destruct (op_can rem o (tparts d') 1 g) as (f & Hf). exists f. eapply run_one; eauto.
  - apply ready_node in Hd as (ds & -> & F); [|discriminate]. apply Forall2_two in F as (dl & dr & -> & Fl & Fr).
    apply runnable_two in Hr as [Hr1 Hr2].
    destruct (IHsited1 dl rem Hr1 Fl Hn Hrem) as (gl & Hgl). destruct (IHsited2 dr rem Hr2 Fr Hn Hrem) as (gr & Hgr).
    destruct (sited_sound _ _ _ _ _ H dl rem gl Fl Hn Hrem Hgl) as [_ (E1 & _)].
    destruct (sited_sound _ _ _ _ _ H0 dr rem gr Fr Hn Hrem Hgr) as [_ (E2 & _)].
    destruct (join_can rem (HashJoin false a ty) c hl hr na (tparts dl) (tparts dr) n gl gr) as (f & Hf); [congruence|].
    exists f. eapply run_two; eauto.
  - apply ready_node in Hd as (ds & -> & F); [|discriminate]. apply Forall2_two in F as (dl & dr & -> & Fl & Fr).
    apply runnable_two in Hr as [Hr1 Hr2].
    destruct (IHsited1 dl rem Hr1 Fl Hn Hrem) as (gl & Hgl). destruct (IHsited2 dr rem Hr2 Fr Hn Hrem) as (gr & Hgr).
    destruct (join_can rem j c hl hr na (tparts dl) (tparts dr) 1 gl gr) as (f & Hf).
    { rewrite (sited_tparts _ _ _ _ _ H dl Fl), (sited_tparts _ _ _ _ _ H0 dr Fr). pose proof (some_parts _ _ _ _ H0 Hr2).
      destruct j as [[] a0 ty|ty|]; try discriminate; auto. }
    exists f. eapply run_two; eauto.
  - apply ready_node in Hd as (ds & -> & F); [|discriminate]. apply Forall2_two in F as (dl & dr & -> & Fl & Fr).
    apply runnable_two in Hr as [Hr1 Hr2]. destruct (IHsited2 dr rem Hr2 Fr Hn Hrem) as (gr & Hgr).
    assert (Hx : runnable tasks x) by (apply runnable_one in Hr1; apply runnable_net in Hr1; eapply runnable_one; eauto).
    pose proof (some_parts _ _ _ _ H Hx) as Px.
    assert (G : tparts dl = 1 /\ exists gl, runs rem dl n gl).
    { apply ready_one in Fl as (d' & -> & Fl). split; [reflexivity|].
      apply ready_net in Fl as (db & Fb & Hcase); [|assumption]. apply ready_one in Fb as (dx & -> & Fx).
      pose proof (sited_tparts _ _ _ _ _ H dx Fx) as Etp.
      assert (Gb : 1 <= tparts d' /\ exists g, runs rem d' n g).
      { destruct Hcase as [(-> & -> & ->)|(h0 & plan & part' & num' & Hh & Hplan & Hpc & _ & ->)].
        - destruct (IHsited1 dx rem Hx Fx Hn Hrem) as (g & Hg). destruct (bcast_can rem 1 (tparts dx) 1 g) as (f & Hf).
          split; [cbn [tparts map nth]; lia|]. exists f. eapply run_one; eauto.
        - cbn in Hh. injection Hh as <-. cbn in Hplan. destruct (Nat.eqb_spec (tparts dx) 0) as [|Hpos]; [lia|].
          injection Hplan as <-. destruct (IHsited1 dx true Hx Fx H1 ltac:(discriminate)) as (g & Hg).
          match goal with |- context [Node (KBcast ?m) [dx]] => destruct (broadcast_can part' tasks (tparts dx) n m g) as (f & Hf) end; [lia|congruence|].
          split; [cbn [tparts]; lia|]. exists f. exists g. split; [exact Hg|exact Hf]. }
      destruct Gb as (P1 & g & Hg). destruct (coalesce_can rem spm None (tparts d') n g P1) as (f & Hf). exists f. eapply run_one; eauto. }
    destruct G as (El & gl & Hgl).
    destruct (join_can rem j c hl hr na (tparts dl) (tparts dr) n gl gr) as (f & Hf).
    { rewrite (sited_tparts _ _ _ _ _ H0 dr Fr). pose proof (some_parts _ _ _ _ H0 Hr2). destruct j as [[] a0 ty|ty|]; try discriminate; auto. }
    exists f. eapply run_two; eauto.
  - apply runnable_net in Hr. apply runnable_one in Hr.
    apply ready_net in Hd as (d' & Hd & Hcase); [|assumption]. apply ready_one in Hd as (dc & -> & Fc).
    destruct Hcase as [(-> & -> & ->)|(h0 & plan & part' & num' & Hh & Hplan & _ & Hpart & ->)].
    + destruct (IHsited dc rem Hr Fc Hn Hrem) as (g & Hg). destruct (repart_can rem (HashP h k) (tparts dc) 1 g) as (f & Hf); [eauto|].
      exists f. eapply run_one; eauto.
    + rewrite (Hpart ltac:(discriminate)). cbn in Hh. injection Hh as <-. cbn in Hplan. injection Hplan as <-.
      destruct (IHsited dc true Hr Fc H0 ltac:(discriminate)) as (g & Hg).
      destruct (shuffle_can h k tasks (tparts dc) n (fun t => SRepart (HashP h (k * n)) (SOther (tparts dc) (g t))) g) as (f & Hf); [lia|lia|reflexivity|].
      exists f. exists g. split; [exact Hg|exact Hf].
  - apply runnable_net in Hr. apply ready_net in Hd as (d' & Fc & Hcase); [|assumption].
    destruct Hcase as [(-> & -> & ->)|(h0 & plan & part' & num' & Hh & Hplan & Hcount & _ & ->)]; [eauto|].
    pose proof (coalescable_ready _ _ _ _ _ H0 H1 d' Fc) as Hl.
    cbn in Hh. injection Hh as <-. cbn in Hplan. rewrite (headless_strip d' Hl) in Hplan. injection Hplan as <-.
    destruct (IHsited d' true Hr Fc H ltac:(discriminate)) as (g & Hg).
    pose proof (sited_tparts _ _ _ _ _ H0 d' Fc) as Etp. pose proof (some_parts _ _ _ _ H0 Hr) as Pp.
    destruct (gather_any part' tasks n (tparts d') g) as (f & Hf); [lia|lia|congruence|].
    exists f. eapply headless_runs_intro; eauto.
Qed.

Lemma answer_one k (d : tree) : answerable d -> match k with KCoalesce (Some le) _ => sorting_order le | _ => True end -> answerable (Node k [d]).
Proof. intros H Hk. split; [destruct k as [| | |[]| | |]; auto|repeat constructor; exact H]. Qed.
Lemma answer_net b part q num tasks (i : tree) : answerable i -> answerable (Net b part q num tasks i).
Proof. exact (fun H => H). Qed.
Lemma answer_join j c hl hr na (l r : tree) : answerable l -> answerable r -> 1 <= tparts r -> answerable (Node (KJoin j c hl hr na) [l; r]).
Proof. intros H1 H2 H3. split; [exact H3|repeat constructor; assumption]. Qed.

(** It has an answer whatever rows its scans have. *)
Theorem sited_answerable n t E D : sited cfg n t E D -> forall d, runnable n t -> ready cfg n t d -> answerable d.
Proof.
  induction 1; intros d Hr Hd; auto;
    try (apply ready_one in Hd as (d' & -> & Hd); pose proof (proj1 Hr) as Hk; apply runnable_one in Hr; apply answer_one; auto; fail).
  - apply ready_leaf in Hd as (q & Hq & Hd). destruct H as [_ H]. destruct (H q Hq) as (l' & E & _ & _).
    rewrite (Hd l' E), E. split; [exact Logic.I|constructor].
  - apply ready_node in Hd as (ds & -> & F); [|assumption]. split; [exact Logic.I|]. apply Forall_map, Forall_forall. intros d Hin.
    destruct (Forall2_in_r _ _ _ F d Hin) as (c & Hc & Hrd). eapply H2; eauto. eapply runnable_node; eauto.
  - apply ready_node in Hd as (ds & -> & F); [|discriminate]. apply Forall2_two in F as (dl & dr & -> & Fl & Fr).
    apply runnable_two in Hr as [Hr1 Hr2]. apply answer_join; auto.
    rewrite (sited_tparts _ _ _ _ _ H0 dr Fr). eapply some_parts; eauto.
  - apply ready_node in Hd as (ds & -> & F); [|discriminate]. apply Forall2_two in F as (dl & dr & -> & Fl & Fr).
    apply runnable_two in Hr as [Hr1 Hr2]. apply answer_join; auto.
    rewrite (sited_tparts _ _ _ _ _ H0 dr Fr). eapply some_parts; eauto.
  - apply ready_node in Hd as (ds & -> & F); [|discriminate]. apply Forall2_two in F as (dl & dr & -> & Fl & Fr).
    apply runnable_two in Hr as [Hr1 Hr2].
    apply answer_join; [|auto|rewrite (sited_tparts _ _ _ _ _ H0 dr Fr); eapply some_parts; eauto].
    apply ready_one in Fl as (d' & -> & Fl). pose proof (proj1 Hr1) as Hk. apply runnable_one in Hr1. apply runnable_net in Hr1. apply runnable_one in Hr1.
    apply answer_one; [|exact Hk].
    apply ready_net in Fl as (db & Fb & Hcase); [|assumption]. apply ready_one in Fb as (dx & -> & Fx).
    destruct Hcase as [(-> & -> & ->)|(h0 & plan & part' & num' & Hh & Hplan & Hpc & _ & ->)].
    + apply answer_one; [auto|exact Logic.I].
    + cbn in Hh. injection Hh as <-. cbn in Hplan. destruct (Nat.eqb_spec (tparts dx) 0) as [|Hpos]; [discriminate|].
      injection Hplan as <-. apply answer_net, answer_one; [auto|exact Logic.I].
  - apply runnable_net in Hr. apply runnable_one in Hr.
    apply ready_net in Hd as (d' & Hd & Hcase); [|assumption]. apply ready_one in Hd as (dc & -> & Fc).
    destruct Hcase as [(-> & -> & ->)|(h0 & plan & part' & num' & Hh & Hplan & _ & Hpart & ->)].
    + apply answer_one; [auto|exact Logic.I].
    + cbn in Hh. injection Hh as <-. cbn in Hplan. injection Hplan as <-. apply answer_net, answer_one; [auto|exact Logic.I].
  - apply runnable_net in Hr. apply ready_net in Hd as (d' & Fc & Hcase); [|assumption].
    destruct Hcase as [(-> & -> & ->)|(h0 & plan & part' & num' & Hh & Hplan & Hcount & _ & ->)]; [auto|].
    pose proof (coalescable_ready _ _ _ _ _ H0 H1 d' Fc) as Hl.
    cbn in Hh. injection Hh as <-. cbn in Hplan. rewrite (headless_strip d' Hl) in Hplan. injection Hplan as <-.
    apply answer_net. auto.
Qed.
End Can.

(** On one node. *)
Lemma plain_runnable {row} (cfg : settings row) n t E D : sited cfg n t E D -> runnable cfg n t ->
  runnable single_node 1 (without_boundaries t).
Proof.
  induction 1; intros Hr; cbn [without_boundaries map]; auto;
    try (pose proof (proj1 Hr) as Hk; apply runnable_one in Hr; split; [exact Hk|repeat constructor; auto]; fail);
    try (apply runnable_two in Hr as [Hr1 Hr2]; split; [exact Logic.I|repeat constructor; auto]; fail).
  - destruct Hr as [(Hr & _ & _) _]. split; [|constructor]. split; [exact Hr|]. split; [exact (proj1 Hr)|].
    intros q Hq. cbn in Hq. subst q. eexists. split; [reflexivity|]. intros remote _ i p Hi Hp. cbn [leaf_runs]. now apply Hr.
  - split; [exact Logic.I|]. rewrite map_map. apply Forall_map, Forall_forall. intros c Hc. apply H2; [exact Hc|]. eapply runnable_node; eauto.
  - apply runnable_two in Hr as [Hr1 Hr2]. pose proof (proj1 Hr1) as Hk. apply runnable_one in Hr1. apply runnable_net in Hr1. apply runnable_one in Hr1.
    split; [exact Logic.I|]. constructor; [|repeat constructor; auto]. split; [exact Hk|]. repeat constructor; auto.
Qed.
