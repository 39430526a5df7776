(** Proofs: a deployed plan can be executed. *)
From Verif Require Import Base NetModel NetSpec NetProofs CiuModel CiuSpec CiuProofs EventsModel EventsSpec JoinModel JoinSpec
  JoinProofs PlannerModel PlannerSpec PlannerProofs ExecModel ExecSpec ExecProofs ExecPasses ExecEnd RunSpec.

Section Nodes.
Context {row : Type}.
Notation tree := (tree row).
Notation table := (nat -> nat -> list row).

Lemma pick {A} (d : A) n (R : nat -> A -> Prop) : (forall i, i < n -> exists x, R i x) ->
  exists f, forall i, i < n -> R i (f i).
Proof.
  induction n as [|n IH]; intros H; [exists (fun _ => d); lia|].
  destruct IH as (f & Hf); [intros; apply H; lia|]. destruct (H n) as (x & Hx); [lia|].
  exists (fun i => if i =? n then x else f i). intros i Hi. destruct (Nat.eqb_spec i n) as [->|]; [exact Hx|apply Hf; lia].
Qed.

Lemma pick_table n P (R : nat -> nat -> list row -> Prop) : (forall i p, i < n -> p < P -> exists rows, R i p rows) ->
  exists f : table, forall i p, i < n -> p < P -> R i p (f i p).
Proof.
  intros H. destruct (pick (fun _ : nat => @nil row) n (fun i g => forall p, p < P -> R i p (g p))) as (f & Hf).
  - intros i Hi. apply (pick (@nil row) P (R i)). auto.
  - exists f. auto.
Qed.

(** A place in one of several lists of partitions. *)
Lemma place (ps : list nat) : forall q, q < list_sum ps ->
  exists c p, q = list_sum (firstn c ps) + p /\ p < nth c ps 0 /\
    forall c' p', q = list_sum (firstn c' ps) + p' -> p' < nth c' ps 0 -> c' = c /\ p' = p.
Proof.
  induction ps as [|P ps IH]; intros q Hq; [cbn in Hq; lia|].
  change (list_sum (P :: ps)) with (P + list_sum ps) in Hq.
  destruct (Nat.lt_ge_cases q P) as [Hlt|Hge].
  - exists 0, q. split; [reflexivity|]. split; [exact Hlt|]. intros [|c'] p' E Hp'; [cbn in E; lia|].
    cbn [firstn] in E. change (list_sum (P :: firstn c' ps)) with (P + list_sum (firstn c' ps)) in E. lia.
  - destruct (IH (q - P)) as (c & p & E & Hp & Hu); [lia|]. exists (S c), p.
    cbn [firstn nth]. change (list_sum (P :: firstn c ps)) with (P + list_sum (firstn c ps)).
    split; [lia|]. split; [exact Hp|]. intros [|c'] p' E' Hp'; [cbn in E', Hp'; lia|].
    cbn [firstn nth] in E', Hp'. change (list_sum (P :: firstn c' ps)) with (P + list_sum (firstn c' ps)) in E'.
    destruct (Hu c' p') as [-> ->]; [lia|exact Hp'|auto].
Qed.

Lemma sum_before (ps : list nat) : forall c p, p < nth c ps 0 -> list_sum (firstn c ps) + p < list_sum ps.
Proof.
  induction ps as [|P ps IH]; intros [|c] p Hp; cbn [nth] in Hp; try lia.
  - cbn. lia.
  - cbn [firstn]. change (list_sum (P :: firstn c ps)) with (P + list_sum (firstn c ps)).
    change (list_sum (P :: ps)) with (P + list_sum ps). specialize (IH c p Hp). lia.
Qed.

Lemma union_can remote (ps : list nat) n (fs : list table) : exists f, node_runs remote KUnion ps n fs f.
Proof.
  destruct (pick_table n (list_sum ps) (fun i q rows => forall c g p, nth_error fs c = Some g -> p < nth c ps 0 ->
    q = list_sum (firstn c ps) + p -> Permutation rows (g i p))) as (f & Hf).
  - intros i q Hi Hq. destruct (place ps q Hq) as (c & p & E & Hp & Hu).
    exists (match nth_error fs c with Some g => g i p | None => [] end). intros c' g p' Hg Hp' E'.
    destruct (Hu c' p' E' Hp') as [-> ->]. now rewrite Hg.
  - exists f. destruct fs as [|? []]; intros i c g p Hi Hg Hp; (apply (Hf i _ Hi (sum_before ps c p Hp) c g p); auto).
Qed.

Lemma repart_can remote part P n (g : table) : (exists h k, part = HashP h k) \/ (exists k, part = RoundRobin k) ->
  exists f, node_runs remote (KRepart part) [P] n [g] f.
Proof.
  intros Hp. cbn [node_runs nth]. apply (pick_table n (partition_count part)
    (fun i p r => exists rows, exec (SRepart part (SOther P (g i))) p = Ok rows /\ Permutation r rows)).
  intros i p Hi Hpp. destruct Hp as [(h & k & ->)|(k & ->)]; cbn [partition_count] in Hpp.
  - eexists. eexists. split; [|reflexivity]. apply (exec_hash h k (SOther P (g i)) (g i) p (other_yields P (g i)) Hpp).
  - pose proof (exec_all (SOther P (g i)) (g i) (other_yields P (g i))) as Ha. cbn [exec parts] in Ha |- *. rewrite Ha.
    cbn [bind]. destruct (Nat.ltb_spec p k); [|lia]. eexists. eexists. split; [reflexivity|reflexivity].
Qed.

Lemma bcast_can remote m P n (g : table) : exists f, node_runs remote (KBcast m) [P] n [g] f.
Proof.
  cbn [node_runs nth]. apply (pick_table n (P * m)
    (fun i p r => exists rows, exec (SBcast m (SOther P (g i))) p = Ok rows /\ Permutation r rows)).
  intros i p Hi Hp. cbn [exec parts]. destruct (Nat.eqb_spec P 0); [lia|].
  destruct (Nat.ltb_spec (p mod P) P) as [|Hge]; [|pose proof (Nat.mod_upper_bound p P ltac:(lia)); lia].
  eexists. eexists. split; [reflexivity|reflexivity].
Qed.

Lemma coalesce_can remote spm fetch P n (g : table) : 1 <= P -> exists f, node_runs remote (KCoalesce spm fetch) [P] n [g] f.
Proof.
  intros HP. cbn [node_runs nth]. exists (fun i _ => limit_to fetch (flat_map (g i) (seq 0 P))).
  split; [exact HP|]. intros i Hi. eexists. split; [reflexivity|reflexivity].
Qed.

Lemma op_can remote o P n (g : table) : exists f, node_runs remote (KOp o) [P] n [g] f.
Proof.
  cbn [node_runs nth]. exists (fun i p => op_fun o (g i p)). intros i p Hi Hp. exists (g i p). split; reflexivity.
Qed.

(** A join that emits rows for the left side when the right side is done needs a partition to do so. *)
Lemma join_can remote j c hl hr na PL PR n (gl gr : table) :
  match j with HashJoin false _ _ => PL = PR | _ => PL = 1 /\ 1 <= PR end ->
  exists f, node_runs remote (KJoin j c hl hr na) [PL; PR] n [gl; gr] f.
Proof.
  intros Hj. cbn [node_runs nth].
  assert (Htog : forall F : list row -> list row -> list row, 1 <= PR -> exists f : table, forall i, i < n ->
    Permutation (flat_map (f i) (seq 0 PR)) (F (gl i 0) (flat_map (gr i) (seq 0 PR)))).
  { intros F HP. exists (fun i p => if p =? 0 then F (gl i 0) (flat_map (gr i) (seq 0 PR)) else []). intros i _.
    destruct PR as [|k]; [lia|]. cbn [seq flat_map]. rewrite Nat.eqb_refl.
    set (X := F _ _). assert (E : flat_map (fun p => if p =? 0 then X else []) (seq 1 k) = flat_map (fun _ => []) (seq 1 k)).
    { apply flat_map_ext_in. intros p Hp. apply in_seq in Hp. destruct (Nat.eqb_spec p 0); [lia|reflexivity]. }
    now rewrite E, flat_map_nil, app_nil_r. }
  destruct j as [[] [] ty|ty|]; cbn [join_runs].
  - destruct (Htog na (proj2 Hj)) as (f & Hf). exists f. intros i Hi. split; [exact (proj1 Hj)|auto].
  - destruct (is_left_broadcast_safe ty).
    + exists (fun i p => join ty c (gl i 0) (gr i p)). split; [exact (proj1 Hj)|reflexivity].
    + destruct (Htog (join ty c) (proj2 Hj)) as (f & Hf). exists f. intros i Hi. split; [exact (proj1 Hj)|auto].
  - exists (fun i p => join ty c (gl i p) (gr i p)). split; [exact Hj|reflexivity].
  - exists (fun i p => join ty c (gl i p) (gr i p)). split; [exact Hj|reflexivity].
  - destruct (is_left_broadcast_safe ty).
    + exists (fun i p => join ty c (gl i 0) (gr i p)). split; [exact (proj1 Hj)|reflexivity].
    + destruct (Htog (join ty c) (proj2 Hj)) as (f & Hf). exists f. intros i Hi. split; [exact (proj1 Hj)|auto].
  - exists (fun i p => cross c (gl i 0) (gr i p)). split; [exact (proj1 Hj)|reflexivity].
Qed.

(** ** Boundaries *)

Lemma shuffle_can h k tasks P n producers (g : table) : 0 < k -> 0 < n ->
  (forall t, strip_head (producers t) = SOther P (g t)) ->
  exists f, boundary_yields BShuffle (HashP h k) tasks producers n f.
Proof.
  intros Hk Hn Hp.
  destruct (shuffle_observable h k tasks n (SOther 0 (fun _ => [])) (fun t => SOther P (g t)) (fun _ => HashP h k) g Hk Hn
              (fun t _ => other_yields P (g t))) as (f & Hf).
  exists f, f. split; [|reflexivity]. intros c j Hc Hj. destruct (Hf c j Hc Hj) as (st & He & Hm). exists st. split; [|exact Hm].
  rewrite <- He. apply shuffle_strip. exact Hp.
Qed.

Lemma broadcast_can part tasks P n k (g : table) : 0 < P -> partition_count part = P ->
  exists f, boundary_yields BBroadcast part tasks (fun t => SBcast k (SOther P (g t))) n f.
Proof.
  intros HP Hp. cbn [boundary_yields boundary_execute]. rewrite Hp.
  exact (broadcast_observable P tasks n (SOther 0 (fun _ => [])) (fun t => SOther P (g t)) (fun _ => k) g HP
           (fun t _ => eq_refl) (fun t _ => other_yields P (g t))).
Qed.

Lemma gather_can part tasks P (g : table) : 1 <= tasks -> 0 < P -> partition_count part = P * tasks ->
  exists f, boundary_yields BCoalesce part tasks (fun t => SOther P (g t)) 1 f.
Proof.
  intros Ht HP Hp. cbn [boundary_yields boundary_execute].
  change (partition_count part) with (partition_count (co_part (mkCoalesce part (Remote tasks) tasks))).
  apply (coalesce_observable P tasks 1 (fun t => SOther P (g t)) g ltac:(lia) ltac:(lia) (mkCoalesce part (Remote tasks) tasks) eq_refl eq_refl).
  - cbn [co_part]. rewrite Hp. unfold div_ceil. rewrite Nat.add_sub, Nat.div_1_r, Nat.max_l by lia. reflexivity.
  - intros t _. split; [eexists; eexists; reflexivity|]. split; [reflexivity|]. apply other_yields.
Qed.
End Nodes.

(** * Deployed plans *)

Section Progress.
Context {row : Type}.
Notation tree := (tree row).
Notation table := (nat -> nat -> list row).
Variable cfg : settings row.
Variable most : nat.
Variable pr : bool.
Notation Q := (within_limits cfg most).
Notation red := (red pr).
Notation inv := (inv cfg most).
Notation cinv := (cinv cfg most).
Notation faithful := (faithful_scan cfg most).
Notation readable := (readable_scan cfg most).
Notation deployed := (deployed cfg Q).
Notation dchild := (dchild cfg Q).

(** ** Partitions *)

Lemma max_in x (l : list nat) : In x l -> x <= list_max l.
Proof.
  intros H. pose proof (proj1 (list_max_le l (list_max l)) (le_n _)) as HF. rewrite Forall_forall in HF. auto.
Qed.

Lemma sum_in x (l : list nat) : In x l -> x <= list_sum l.
Proof.
  induction l as [|y l IH]; intros H; [destruct H|]. change (list_sum (y :: l)) with (y + list_sum l).
  destruct H as [->|H]; [lia|]. specialize (IH H). lia.
Qed.

Lemma runs_in i (m : list slot) ctx : In ctx (runs_of i m) -> exists sl ctx', In sl m /\ In (i, ctx') sl.
Proof.
  unfold runs_of. intros H. apply in_map_iff in H as ((j & c) & _ & H). apply filter_In in H as [H E].
  apply Nat.eqb_eq in E. cbn in E. subst j. apply in_concat in H as (sl & H1 & H2). eauto.
Qed.

Lemma some_part_child below c :
  (forall head rem s n d, every_scan readable c -> inv head rem s n c -> deployed c s n d -> 1 <= tparts d) ->
  forall head rem s n d, every_scan readable c -> cinv below head rem s n c -> dchild below c (deployed c) s n d -> 1 <= tparts d.
Proof.
  intros IH head rem s n d Hs Hc H. unfold PlannerProofs.dchild in H. destruct (cut below c) as [b|] eqn:Ec.
  - destruct H as (tasks & i & Hq & Hi & H).
    pose proof (IH false true tasks tasks i Hs (inv_stage cfg most c tasks Hq) Hi) as Hp.
    destruct (elided cfg n tasks); [now subst d|]. destruct H as (num & h & plan & _ & _ & ->).
    cbn [tparts]. rewrite boundary_partitioning_count. destruct Hq as [Hq _]. destruct b; try exact Hp. nia.
  - eapply IH; eauto. now apply Hc.
Qed.

Lemma some_part (p : tree) E D : typed pr p E D ->
  forall head rem s n d, every_scan readable p -> inv head rem s n p -> deployed p s n d -> 1 <= tparts d.
Proof.
  induction 1 as [l|h k c E D Hk Hc IH|k c E D Hk Hc IH|spm c E D Hc IH Hr|cs E Hne Ha Hc IH|w m cs E Hne Ha Hc IH
    |o c E E' D D' Hc IH Ho Ha Hre Hd Hcar|o c h k E E' D' Hc IH Ho Ha Hre Hd Hcar|o c E E' D Hc IH Ho Ha Hre Hw Hd
    |a ty c hl hr na k l r D' Hl IHl Hr IHr Hk HD|j c hl hr na l x r Dl Dr D' Hx IHx Hr IHr Hb Hj Hk Hna HD
    |p E E' D D' Hp IH Ha He HD]; intros head rem s n d Hs Hi H; try (now eapply IH; eauto).
  - cbn in H. destruct Hi as (H1 & H2 & _). destruct (Hs s d H1 H2 H) as (l' & -> & Hp & _). exact Hp.
  - apply deployed_node in H as (ds & -> & F); [|discriminate]. exact Hk.
  - apply deployed_node in H as (ds & -> & F); [|discriminate]. exact Hk.
  - apply deployed_node in H as (ds & -> & F); [|discriminate]. cbn. lia.
  - destruct cs as [|c cs]; [congruence|]. apply deployed_node in H as (ds & -> & F); [|discriminate].
    inversion F as [|? d ? ds' Hd F' E1 E2]; subst. cbn.
    assert (1 <= tparts d); [|lia]. eapply some_part_child; [exact (IH c (or_introl eq_refl))| | |exact Hd].
    + eapply scans_node; [|exact Hs|]; [discriminate|now left].
    + exact (inv_child _ _ _ _ _ _ _ _ _ Hi (or_introl eq_refl)).
  - destruct cs as [|c cs]; [congruence|].
    apply deployed_ciu in H as (w' & m' & ds & -> & Es & Hg & Lw & HA & L & F); [|discriminate].
    destruct ds as [|d ds]; [discriminate|]. specialize (F 0 c d eq_refl eq_refl). cbn zeta in F.
    set (k := nth 0 (map_task_counts (List.length (c :: cs)) m') 0) in *.
    destruct (count_of_good w' s m' 0 Es Hg ltac:(rewrite Lw; cbn; lia)) as [E1 E2]. rewrite Lw in E1.
    assert (Hd : 1 <= tparts d).
    { pose proof Hi as (Hi1 & Hi2 & Hi3 & Hi4 & Hi5 & Hi6).
      eapply (some_part_child false c (IH c (or_introl eq_refl)) false true k k d); [| |exact F].
      - eapply scans_ciu; [exact Hs|now left].
      - unfold k in *. rewrite E1 in *. split; [|split; [lia|split; [discriminate|]]].
        + intros Ecut. destruct (HA 0 c eq_refl Ecut) as [A1 A2]. rewrite E1 in *. repeat split; auto; try lia; discriminate.
        + unfold cut. destruct (is_hash_repart c), (is_bcast c); discriminate. }
    destruct w' as [|c0 w']; [discriminate|].
    destruct (ga_exact _ _ _ Hg 0 c0 eq_refl) as (r & Hr1 & _ & Hr3).
    assert (Hne' : runs_of 0 m' <> []).
    { rewrite Hr3. unfold all_tasks. destruct r; [lia|discriminate]. }
    cbn [tparts].
    assert (G : exists sl ctx, In sl m' /\ In (0, ctx) sl).
    { destruct (runs_of 0 m') as [|ctx rest] eqn:Er; [congruence|].
      assert (Hin : In ctx (runs_of 0 m')) by (rewrite Er; now left). exact (runs_in _ _ _ Hin). }
    destruct G as (sl & ctx & Hsl & Hin).
    transitivity (slot_parts (map tparts (d :: ds)) sl).
    + unfold slot_parts. transitivity (tparts d); [exact Hd|]. apply sum_in.
      apply in_map_iff. exists (0, ctx). split; [reflexivity|exact Hin].
    + apply max_in. apply in_map. exact Hsl.
  - apply deployed_node in H as (ds & -> & F); [|discriminate]. apply Forall2_one in F as (d & -> & F). cbn.
    eapply some_part_child; [exact IH| | |exact F]; [eapply scans_node; eauto; [discriminate|now left]|exact (inv_child _ _ _ _ _ _ _ _ _ Hi (or_introl eq_refl))].
  - apply deployed_node in H as (ds & -> & F); [|discriminate]. apply Forall2_one in F as (d & -> & F). cbn.
    eapply some_part_child; [exact IH| | |exact F]; [eapply scans_node; eauto; [discriminate|now left]|exact (inv_child _ _ _ _ _ _ _ _ _ Hi (or_introl eq_refl))].
  - apply deployed_node in H as (ds & -> & F); [|discriminate]. apply Forall2_one in F as (d & -> & F). cbn.
    eapply some_part_child; [exact IH| | |exact F]; [eapply scans_node; eauto; [discriminate|now left]|exact (inv_child _ _ _ _ _ _ _ _ _ Hi (or_introl eq_refl))].
  - apply deployed_node in H as (ds & -> & F); [|discriminate]. apply Forall2_two in F as (dl & dr & -> & Fl & Fr). cbn.
    eapply some_part_child; [exact IHl| | |exact Fl]; [eapply scans_node; eauto; [discriminate|now left]|exact (inv_child _ _ _ _ _ _ _ _ _ Hi (or_introl eq_refl))].
  - apply deployed_node in H as (ds & -> & F); [|discriminate]. apply Forall2_two in F as (dl & dr & -> & Fl & Fr).
    assert (G : 1 <= tparts dr).
    { eapply some_part_child; [exact IHr| | |exact Fr]; [eapply scans_node; eauto; [discriminate|right; now left]|exact (inv_child _ _ _ _ _ _ _ _ _ Hi (or_intror (or_introl eq_refl)))]. }
    cbn. destruct j as [[] ? ?| |]; try discriminate; exact G.
Qed.

(** ** Progress *)

Definition can (p : tree) : Prop :=
  forall head rem s n d, deployed p s n d -> inv head rem s n p -> placed cfg most head p ->
    every_scan faithful p -> every_scan readable p -> (is_hash_repart p = true -> n = 1) ->
    exists f, runs rem (red d) n f.

Definition can_net (p : tree) : Prop :=
  forall h k c, p = Node (KRepart (HashP h k)) [c] ->
  forall rem n tasks q num i, 1 <= n -> Q p tasks -> dchild false c (deployed c) tasks tasks i ->
    placed cfg most false p -> every_scan faithful p -> every_scan readable p ->
    exists f, runs rem (red (Net BShuffle (HashP h k) q num tasks (Node (KRepart (HashP h (k * n))) [i]))) n f.

Definition can_child (below : bool) (c : tree) : Prop :=
  forall head rem s n d, dchild below c (deployed c) s n d -> cinv below head rem s n c ->
    placed cfg most (match cut below c with None => head | Some _ => false end) c ->
    every_scan faithful c -> every_scan readable c -> (below = true -> is_round_robin c = false) ->
    exists f, runs rem (red d) n f.

Lemma headless_runs_intro rem b part q num tasks (plan : tree) n (f g : table) : headless plan -> runs true plan tasks g ->
  boundary_yields b part tasks (fun t => SOther (tparts plan) (g t)) n f ->
  runs rem (Net b part q num tasks plan) n f.
Proof. destruct plan as [[] cs| |]; intros Hp Hg Ho; try contradiction; exists g; (split; [exact Hg|exact Ho]). Qed.

Lemma child_can below c E D : typed pr c E D -> can c -> can_net c -> can_child below c.
Proof.
  intros Ht HS HN head rem s n d H Hc Hp Hs Hrd Hrr.
  unfold PlannerProofs.dchild in H. destruct (cut below c) as [b|] eqn:Ec.
  2: { destruct Hc as (Hi & _). specialize (Hi Ec). apply (HS head rem s n d H Hi Hp Hs Hrd).
       unfold cut in Ec. destruct (is_hash_repart c); [discriminate|discriminate]. }
  destruct Hc as (_ & Hn & Hrem & Hco). destruct H as (tasks & i & Hq & Hi & H).
  destruct (elided cfg n tasks) eqn:Eone.
  - subst d. apply elided_true in Eone as [-> ->].
    apply (HS false rem 1 1 i Hi (inv_elided cfg most rem c Hq) Hp Hs Hrd). auto.
  - clear Eone. destruct H as (num & h & plan & Hh & Hplan & ->).
    destruct b.
    + (* shuffle *)
      assert (Hhash : is_hash_repart c = true).
      { unfold cut in Ec. destruct (is_hash_repart c); [reflexivity|]. destruct (is_bcast c), below; discriminate. }
      destruct (hash_node pr c E D Ht Hhash) as (hh & k & c' & ->).
      apply deployed_node in Hi as (ds & -> & F); [|discriminate]. apply Forall2_one in F as (i' & -> & F).
      cbn in Hh. injection Hh as <-. cbn in Hplan. injection Hplan as <-. cbn [boundary_partitioning tpartitioning].
      exact (HN hh k c' eq_refl rem n tasks _ num i' Hn Hq F Hp Hs Hrd).
    + (* broadcast *)
      assert (Hb : is_bcast c = true).
      { unfold cut in Ec. destruct (is_hash_repart c); [discriminate|]. destruct (is_bcast c); [reflexivity|]. destruct below; discriminate. }
      rewrite (typed_not_bcast pr c E D Ht) in Hb. discriminate.
    + (* coalesce *)
      assert (Hcut : is_hash_repart c = false /\ below = true).
      { unfold cut in Ec. destruct (is_hash_repart c); [discriminate|]. destruct (is_bcast c); [discriminate|].
        destruct below; [auto|discriminate]. }
      destruct Hcut as [Hhash ->]. specialize (Hco Ec). subst n.
      pose proof (headless_deployed cfg most pr c E D Ht Hhash (Hrr eq_refl) false true tasks tasks i Hs (inv_stage cfg most c tasks Hq) Hi) as Hl.
      cbn in Hh. injection Hh as <-. cbn in Hplan. rewrite (headless_strip i Hl) in Hplan. injection Hplan as <-.
      rewrite (headless_net pr _ _ _ _ _ i Hl).
      destruct (HS false true tasks tasks i Hi (inv_stage cfg most c tasks Hq) Hp Hs Hrd) as (g & Hg); [congruence|].
      assert (Hpos : 1 <= tparts i) by (eapply some_part; [exact Ht|exact Hrd|exact (inv_stage cfg most c tasks Hq)|exact Hi]).
      assert (Hpc : partition_count (boundary_partitioning BCoalesce i tasks) = tparts i * tasks)
        by exact (boundary_partitioning_count BCoalesce i tasks).
      destruct (gather_can (boundary_partitioning BCoalesce i tasks) tasks (tparts i) g) as (f & Hf); [destruct Hq; lia|lia|exact Hpc|].
      exists f. eapply headless_runs_intro; [now apply headless_red|exact Hg|]. now rewrite red_tparts.
Qed.

Lemma unary_parts k c head rem s n d : deployed (Node k [c]) s n d -> inv head rem s n (Node k [c]) ->
  placed cfg most head (Node k [c]) -> every_scan faithful (Node k [c]) -> every_scan readable (Node k [c]) ->
  exists d', d = Node k [d'] /\ dchild (is_coalesce (Node k [c])) c (deployed c) s n d' /\
    cinv (is_coalesce (Node k [c])) head rem s n c /\
    placed cfg most (match cut (is_coalesce (Node k [c])) c with None => head | Some _ => false end) c /\
    every_scan faithful c /\ every_scan readable c.
Proof.
  intros H Hi Hp Hs Hr. apply deployed_node in H as (ds & -> & F); [|discriminate].
  apply Forall2_one in F as (d' & -> & F). exists d'. split; [reflexivity|]. split; [exact F|].
  split; [exact (inv_child _ _ _ _ _ _ _ _ _ Hi (or_introl eq_refl))|].
  split; [exact (placed_node _ _ _ _ _ Hp c (or_introl eq_refl))|].
  split; [refine (scans_node _ k [c] ltac:(discriminate) Hs c (or_introl eq_refl))|refine (scans_node _ k [c] ltac:(discriminate) Hr c (or_introl eq_refl))].
Qed.

Lemma unary_runs rem k (d : tree) n (g f : table) : runs rem (red d) n g -> node_runs rem k [tparts d] n [g] f ->
  runs rem (red (Node k [d])) n f.
Proof.
  intros Hg Hf. rewrite red_node. apply runs_node. exists [g]. split; [now repeat constructor|].
  cbn [map]. now rewrite red_tparts.
Qed.

Lemma build_can x l Dx : typed pr x (@Permutation row) Dx -> (forall below, can_child below x) -> build_side l x ->
  forall head rem s n d, dchild false l (deployed l) s n d -> cinv false head rem s n l ->
    placed cfg most (match cut false l with None => head | Some _ => false end) l ->
    every_scan faithful l -> every_scan readable l ->
    (exists y, l = Node (KCoalesce None None) [Node (KBcast 1) [y]]) \/ one_part l /\ n = 1 ->
    tparts d = 1 /\ exists f, runs rem (red d) n f.
Proof.
  intros Hx HS Hb head rem s n d H Hc Hp Hs Hrd Hw.
  destruct Hb as [->| ->].
  - destruct Hw as [(y & ->)|[Hone ->]].
    { apply typed_coalesce_inv in Hx as (_ & _ & E0 & D0 & Hy & _). apply typed_not_bcast in Hy. discriminate. }
    split; [|apply (HS false head rem s 1 d H Hc Hp Hs Hrd ltac:(discriminate))].
    exact (one_part_child cfg most x (one_part_deployed cfg most pr x _ _ Hx) head rem s 1 d Hs Hc Hone H).
  - clear Hw. unfold PlannerProofs.dchild in H. cbn [cut is_hash_repart is_bcast] in H, Hp. destruct Hc as (Hinv & Hn & Hrem & _).
    specialize (Hinv eq_refl). apply deployed_node in H as (ds & -> & F); [|discriminate].
    split; [reflexivity|].
    apply Forall2_one in F as (db & -> & F). cbn [is_coalesce] in F.
    assert (Hpx : placed cfg most false (Node (KBcast 1) [x])).
    { pose proof (placed_node _ _ _ _ _ Hp (Node (KBcast 1) [x]) (or_introl eq_refl)) as H'. exact H'. }
    assert (Hscx : forall P, every_scan P (Node (KCoalesce None None) [Node (KBcast 1) [x]]) -> every_scan P x).
    { intros P HP. refine (scans_node _ (KBcast 1) [x] ltac:(discriminate) _ x (or_introl eq_refl)).
      refine (scans_node _ (KCoalesce None None) [_] ltac:(discriminate) HP _ (or_introl eq_refl)). }
    pose proof (placed_node _ _ _ _ _ Hpx x (or_introl eq_refl)) as Hpx'. cbn [is_coalesce] in Hpx'.
    apply Hscx in Hs, Hrd. clear Hscx Hp Hpx.
    assert (Hdb : exists g, runs rem (red db) n g /\ 1 <= tparts db).
    { unfold PlannerProofs.dchild in F. cbn [cut is_hash_repart is_bcast] in F. destruct F as (tasks & ib & Hq & Hib & F).
      apply deployed_node in Hib as (ds & -> & Fx); [|discriminate]. apply Forall2_one in Fx as (ix & -> & Fx).
      cbn [is_coalesce] in Fx.
      destruct (elided cfg n tasks) eqn:Eone.
      + subst db. apply elided_true in Eone as [-> ->].
        assert (Hci : cinv false false rem 1 1 x).
        { refine (inv_child cfg most false rem 1 1 (KBcast 1) [x] x _ (or_introl eq_refl)). now apply inv_elided. }
        destruct (HS false false rem 1 1 ix Fx Hci Hpx' Hs Hrd) as (gx & Hgx); [discriminate|].
        pose proof (some_part_child false x (some_part x _ _ Hx) false rem 1 1 ix Hrd Hci Fx) as Hpos.
        destruct (bcast_can rem 1 (tparts ix) 1 gx) as (f & Hf). exists f. split; [eapply unary_runs; eauto|]. cbn [tparts map nth]. lia.
      + destruct F as (num & h & plan & Hh & Hplan & ->). cbn in Hh. injection Hh as <-. cbn in Hplan.
        destruct (Nat.eqb_spec (tparts ix) 0) as [|Hpos]; [discriminate|]. injection Hplan as <-.
        cbn [boundary_partitioning tparts map nth]. set (k := tparts ix * 1 * n / tparts ix). clearbody k.
        assert (Er : red (Net BBroadcast (UnknownP (tparts ix * 1)) (query cfg) num tasks (Node (KBcast k) [ix])) =
                 Net BBroadcast (UnknownP (tparts ix * 1)) (query cfg) num tasks (Node (KBcast k) [red ix]))
          by (unfold ExecProofs.red; destruct pr; reflexivity).
        rewrite Er. cbn [runs].
        assert (Hci : cinv false false true tasks tasks x).
        { refine (inv_child cfg most false true tasks tasks (KBcast 1) [x] x _ (or_introl eq_refl)). now apply inv_stage. }
        destruct (HS false false true tasks tasks ix Fx Hci Hpx' Hs Hrd) as (gx & Hgx); [discriminate|].
        cbn [partition_count]. rewrite Nat.mul_1_r.
        destruct (broadcast_can (UnknownP (tparts ix)) tasks (tparts ix) n k gx ltac:(lia) eq_refl) as (f & Hf).
        exists f. split; [|lia]. exists gx. split; [exact Hgx|]. rewrite red_tparts. exact Hf. }
    destruct Hdb as (g & Hg & Hpos). destruct (coalesce_can rem None None (tparts db) n g Hpos) as (f & Hf).
    exists f. eapply unary_runs; eauto.
Qed.

Lemma isolated_can n w m (cs : list tree) (fs : list table) :
  split_children w n = Ok m -> good_allocation w n m -> List.length w = List.length cs -> List.length fs = List.length cs ->
  exists f : table, forall i p, i < n -> p < tparts (Ciu w m cs) -> exists rows,
      ciu_execute (mkCiu (tparts (Ciu w m cs)) (isolated_children cs fs) w m) (mkCtx i n) p = Ok rows /\
      Permutation (f i p) rows.
Proof.
  intros Es Hg Lw L.
  assert (Hgood : forall m', split_children w n = Ok m' -> good_allocation w n m') by (intros m' E; congruence).
  assert (Hn : 0 < n) by (unfold split_children in Es; destruct (Nat.eqb_spec n 0); [discriminate|lia]).
  set (children := isolated_children cs fs) in *.
  assert (Lc : List.length children = List.length w) by (unfold children; rewrite (isolated_length cfg most); lia).
  destruct (ciu_new_ok children w n m Lc Hn Es Hg) as (u & Hu).
  destruct (ciu_new_inv children w n u Hu) as (_ & m' & counts & Es' & Ec & Eu).
  assert (m' = m) as -> by congruence.
  assert (Hparts : list_max counts = tparts (Ciu w m cs)).
  { cbn [tparts]. f_equal. apply mapM_ok_inv in Ec. clear -cfg most Ec L. induction Ec as [|s x m counts Hx Ec IH]; cbn; [reflexivity|].
    rewrite IH. f_equal. now apply (isolated_slot cfg most cs fs L). }
  rewrite Hparts in Eu. 
  set (data := fun i (ctx : TaskCtx) p => match nth_error fs i with Some g => g (task_index ctx) p | None => [] end).
  destruct (built_rows children w n u Hu Hgood data) as (out & Hout & _).
  { intros i c ctx p Hc Hp. assert (Hi : i < List.length cs).
    { rewrite <- Lw, <- Lc. apply nth_error_Some. congruence. }
    destruct (isolated_nth cfg most cs fs i L Hi) as (c' & g & _ & Eg & E). fold children in E. rewrite E in Hc. injection Hc as <-.
    unfold data. now rewrite Eg. }
  subst u. cbn [ciu_parts task_idx_map] in *. exists out. intros i p Hi Hp. eexists. split; [now apply Hout|reflexivity].
Qed.

Theorem typed_can (p : tree) E D : typed pr p E D -> can p /\ can_net p.
Proof.
  induction 1 as [l|h k c E D Hk Hc IH|k c E D Hk Hc IH|spm c E D Hc IH Hr|cs E Hne Ha Hc IH|w m cs E Hne Ha Hc IH
    |o c E E' D D' Hc IH Ho Ha Hre Hd Hcar|o c h k E E' D' Hc IH Ho Ha Hre Hd Hcar|o c E E' D Hc IH Ho Ha Hre Hw Hd
    |a ty c hl hr na k l r D' Hl IHl Hr IHr Hk HD|j c hl hr na l x r Dl Dr D' Hx IHx Hr IHr Hb Hj Hk Hna HD
    |p E E' D D' Hp IH Ha He HD];
    try (assert (Hch : forall below, can_child below c) by (intros below; destruct IH; eapply child_can; eauto));
    (split; [intros head rem s n d H Hi Hpl Hs Hrd Hone|try (intros h' k' c' Ep; discriminate)]).
  - (* leaf *)
    cbn in H. pose proof Hi as (H1 & H2 & H3 & H4 & _). destruct (Hrd s d H1 H2 H) as (l' & -> & _ & Hrows).
    rewrite red_node. cbn [map]. specialize (Hrows rem). cbn zeta in Hrows.
    assert (En : n = if rem then s else 1) by (destruct rem; auto). rewrite <- En in Hrows.
    destruct (pick_table n (leaf_parts l') (fun i p rows => leaf_runs rem l' (mkCtx i n) p rows) Hrows) as (f & Hf).
    exists f. apply runs_node. exists []. split; [constructor|exact Hf].
  - (* hash repartition in one task *)
    destruct (unary_parts _ _ _ _ _ _ _ H Hi Hpl Hs Hrd) as (d' & -> & Fd & Fi & Fp & Fs & Fr).
    destruct (Hch _ _ _ _ _ _ Fd Fi Fp Fs Fr ltac:(discriminate)) as (g & Hg).
    destruct (repart_can rem (HashP h k) (tparts d') n g) as (f & Hf); [eauto|]. exists f. eapply unary_runs; eauto.
  - (* hash repartition below a shuffle *)
    intros h' k' c' Ep rem n tasks q num i Hn Hq Hd Hp Hs Hrd. injection Ep as <- <- <-.
    assert (Hci : cinv false false true tasks tasks c)
      by exact (inv_child _ _ _ _ _ _ _ _ _ (inv_stage cfg most _ _ Hq) (or_introl eq_refl)).
    pose proof (placed_node _ _ _ _ _ Hp c (or_introl eq_refl)) as Hpc. cbn [is_coalesce] in Hpc.
    pose proof (scans_node _ (KRepart (HashP h k)) [c] ltac:(discriminate) Hs c (or_introl eq_refl)) as Hsc.
    pose proof (scans_node _ (KRepart (HashP h k)) [c] ltac:(discriminate) Hrd c (or_introl eq_refl)) as Hrc.
    destruct (Hch _ _ _ _ _ _ Hd Hci Hpc Hsc Hrc ltac:(discriminate)) as (g & Hg).
    destruct (red_shuffle pr (HashP h k) q num tasks h (k * n) i) as [->|(req & a & ds & Epr & Ei & ->)].
    + destruct (shuffle_can h k tasks (tparts i) n (fun t => SRepart (HashP h (k * n)) (SOther (tparts i) (g t))) g Hk ltac:(lia) (fun t => eq_refl)) as (f & Hf).
      exists f. cbn [runs]. exists g. split; [exact Hg|]. rewrite red_tparts. exact Hf.
    + destruct (repart_can true (HashP h (k * n)) (tparts i) tasks g) as (g2 & Hg2); [eauto|].
      destruct (op_can true (OAgg APartialReduce AnyDistribution a) (k * n) tasks g2) as (g3 & Hg3).
      destruct (shuffle_can h k tasks (k * n) n (fun t => SOther (k * n) (g3 t)) g3 Hk ltac:(lia) (fun t => eq_refl)) as (f & Hf).
      exists f. cbn [runs]. exists g3. split; [|exact Hf]. exists [g2]. split; [|exact Hg3]. constructor; [|constructor].
      exists [g]. split; [now repeat constructor|]. cbn [map]. rewrite red_tparts. exact Hg2.
  - (* round robin *)
    destruct (unary_parts _ _ _ _ _ _ _ H Hi Hpl Hs Hrd) as (d' & -> & Fd & Fi & Fp & Fs & Fr).
    destruct (Hch _ _ _ _ _ _ Fd Fi Fp Fs Fr ltac:(discriminate)) as (g & Hg).
    destruct (repart_can rem (RoundRobin k) (tparts d') n g) as (f & Hf); [eauto|]. exists f. eapply unary_runs; eauto.
  - (* coalesce *)
    destruct (unary_parts _ _ _ _ _ _ _ H Hi Hpl Hs Hrd) as (d' & -> & Fd & Fi & Fp & Fs & Fr).
    destruct (Hch _ _ _ _ _ _ Fd Fi Fp Fs Fr (fun _ => Hr)) as (g & Hg).
    pose proof (some_part_child _ c (some_part c _ _ Hc) _ _ _ _ _ Fr Fi Fd) as Hpos.
    destruct (coalesce_can rem spm None (tparts d') n g Hpos) as (f & Hf). exists f. eapply unary_runs; eauto.
  - (* union *)
    assert (Hch : forall c, In c cs -> can_child false c)
      by (intros c Hin; destruct (IH c Hin); eapply child_can; eauto).
    apply deployed_node in H as (ds & -> & F); [|exact Hne]. cbn [is_coalesce] in F. apply Forall2_nth in F as [L F].
    assert (G : exists fs, Forall2 (fun d g => runs rem (red d) n g) ds fs).
    { clear Hone. assert (G : forall d, In d ds -> exists g, runs rem (red d) n g).
      { intros d Hd. apply In_nth_error in Hd as (i & Hd).
        destruct (nth_error cs i) as [c|] eqn:Ec.
        2: { apply nth_error_None in Ec. assert (i < List.length ds) by (apply nth_error_Some; congruence). lia. }
        pose proof (nth_error_In _ _ Ec) as Hin.
        exact (Hch c Hin _ _ _ _ _ (F i c d Ec Hd) (inv_child _ _ _ _ _ _ _ _ _ Hi Hin) (placed_node _ _ _ _ _ Hpl c Hin)
          (scans_node _ _ _ Hne Hs c Hin) (scans_node _ _ _ Hne Hrd c Hin) ltac:(discriminate)). }
      clear -G. induction ds as [|d ds IH]; [exists []; constructor|].
      destruct (G d (or_introl eq_refl)) as (g & Hg). destruct IH as (gs & Hgs); [intros; apply G; now right|].
      exists (g :: gs). now constructor. }
    destruct G as (fs & Hfs). destruct (union_can rem (map tparts ds) n fs) as (f & Hf).
    exists f. rewrite red_node. apply runs_node. exists fs. split; [now apply Forall2_map_l|]. now rewrite red_parts.
  - (* isolated *)
    assert (Hch : forall c, In c cs -> can_child false c)
      by (intros c Hin; destruct (IH c Hin); eapply child_can; eauto).
    apply deployed_ciu in H as (w' & m' & ds & -> & Es & Hg & Lw & HA & L & F); [|exact Hne].
    destruct Hpl as [Hhead Hpl]. rewrite Forall_map, Forall_forall in Hpl.
    assert (Hns : n = s).
    { destruct Hi as (H1 & _ & _ & _ & H5 & H6). destruct Hhead as [Hh|Hh]; [auto|].
      destruct head; [rewrite (H6 eq_refl); lia|auto]. }
    subst s.
    assert (G : forall i c di, nth_error cs i = Some c -> nth_error ds i = Some di ->
      exists g, runs rem (red di) (nth i (map_task_counts (List.length cs) m') 0) g).
    { intros i c di Ec Ed. pose proof (nth_error_In _ _ Ec) as Hin.
      assert (Hii : i < List.length cs) by (apply nth_error_Some; congruence).
      set (k := nth i (map_task_counts (List.length cs) m') 0) in *.
      assert (Hk1 : 1 <= k <= n /\ n <= most).
      { destruct (count_of_good w' n m' i Es Hg ltac:(lia)) as [E1 E2]. rewrite Lw in E1. unfold k. rewrite E1.
        destruct Hi as ((_ & H1) & _). split; [exact E2|exact H1]. }
      assert (Hrem : rem = false -> k = 1).
      { intros Erem. destruct Hi as (_ & _ & H3 & _). specialize (H3 Erem). lia. }
      assert (Hhk : head = true -> k = 1).
      { intros Eh. destruct Hi as (_ & _ & _ & _ & _ & H6). specialize (H6 Eh). lia. }
      specialize (F i c di Ec Ed). cbn zeta in F. fold k in F.
      assert (Hci : cinv false head rem k k c).
      { split; [|split; [lia|split; [exact Hrem|]]].
        - intros Ecut. destruct (HA i c Ec Ecut) as [H1 H2]. fold k in H1, H2. repeat split; auto; lia.
        - unfold cut. destruct (is_hash_repart c), (is_bcast c); discriminate. }
      exact (Hch c Hin _ _ _ _ _ F Hci (Hpl c Hin) (scans_ciu _ _ _ _ Hs c Hin) (scans_ciu _ _ _ _ Hrd c Hin) ltac:(discriminate)). }
    assert (Hfs : exists fs : list table, List.length fs = List.length ds /\
      forall i di g, nth_error ds i = Some di -> nth_error fs i = Some g -> runs rem (red di) (nth i (map_task_counts (List.length cs) m') 0) g).
    { destruct (pick (fun _ _ : nat => @nil row) (List.length ds) (fun i g => forall di, nth_error ds i = Some di ->
        runs rem (red di) (nth i (map_task_counts (List.length cs) m') 0) g)) as (G' & HG').
      - intros i Hi'. destruct (nth_error ds i) as [di|] eqn:Ed; [|exists (fun _ _ => []); discriminate].
        destruct (nth_error cs i) as [c|] eqn:Ec; [|apply nth_error_None in Ec; lia].
        destruct (G i c di Ec Ed) as (g & Hg'). exists g. intros di' E'. injection E' as <-. exact Hg'.
      - exists (map G' (seq 0 (List.length ds))). split; [now rewrite map_length, seq_length|].
        intros i di g Ed Eg. assert (Hlt : i < List.length ds) by (apply nth_error_Some; congruence).
        rewrite nth_error_map_seq in Eg by exact Hlt. injection Eg as <-. cbn. now apply HG'. }
    destruct Hfs as (fs & L' & Hfs).
    destruct (isolated_can n w' m' (map red ds) fs Es Hg) as (f & Hf); [rewrite map_length; lia|rewrite map_length; lia|].
    exists f. rewrite red_ciu. apply runs_ciu. exists fs. split; [|exact Hf]. split; [now rewrite map_length|].
    intros i c g Ec Eg. rewrite map_length, L. rewrite nth_error_map in Ec. destruct (nth_error ds i) as [di|] eqn:Ed; [|discriminate].
    injection Ec as <-. eapply Hfs; eauto.
  - (* operators *)
    destruct (unary_parts _ _ _ _ _ _ _ H Hi Hpl Hs Hrd) as (d' & -> & Fd & Fi & Fp & Fs & Fr).
    destruct (Hch _ _ _ _ _ _ Fd Fi Fp Fs Fr ltac:(discriminate)) as (g & Hg).
    destruct (op_can rem o (tparts d') n g) as (f & Hf). exists f. eapply unary_runs; eauto.
  - destruct (unary_parts _ _ _ _ _ _ _ H Hi Hpl Hs Hrd) as (d' & -> & Fd & Fi & Fp & Fs & Fr).
    destruct (Hch _ _ _ _ _ _ Fd Fi Fp Fs Fr ltac:(discriminate)) as (g & Hg).
    destruct (op_can rem o (tparts d') n g) as (f & Hf). exists f. eapply unary_runs; eauto.
  - destruct (unary_parts _ _ _ _ _ _ _ H Hi Hpl Hs Hrd) as (d' & -> & Fd & Fi & Fp & Fs & Fr).
    destruct (Hch _ _ _ _ _ _ Fd Fi Fp Fs Fr ltac:(discriminate)) as (g & Hg).
    destruct (op_can rem o (tparts d') n g) as (f & Hf). exists f. eapply unary_runs; eauto.
  - (* partitioned join *)
    apply deployed_node in H as (ds & -> & F); [|discriminate].
    apply Forall2_two in F as (dl & dr & -> & Fl & Fr). cbn [is_coalesce] in Fl, Fr.
    pose proof (inv_child _ _ _ _ _ _ _ _ _ Hi (or_introl eq_refl)) as Il.
    pose proof (inv_child _ _ _ _ _ _ _ _ _ Hi (or_intror (or_introl eq_refl))) as Ir.
    pose proof (placed_node _ _ _ _ _ Hpl l (or_introl eq_refl)) as Pl.
    pose proof (placed_node _ _ _ _ _ Hpl r (or_intror (or_introl eq_refl))) as Pr.
    pose proof (scans_node _ (KJoin _ c hl hr na) [l; r] ltac:(discriminate) Hs l (or_introl eq_refl)) as Sl.
    pose proof (scans_node _ (KJoin _ c hl hr na) [l; r] ltac:(discriminate) Hs r (or_intror (or_introl eq_refl))) as Sr.
    pose proof (scans_node _ (KJoin _ c hl hr na) [l; r] ltac:(discriminate) Hrd l (or_introl eq_refl)) as Rl.
    pose proof (scans_node _ (KJoin _ c hl hr na) [l; r] ltac:(discriminate) Hrd r (or_intror (or_introl eq_refl))) as Rr.
    destruct IHl as [IHl IHl']. destruct IHr as [IHr IHr'].
    destruct (child_can false l _ _ Hl IHl IHl' _ _ _ _ _ Fl Il Pl Sl Rl ltac:(discriminate)) as (gl & Hgl).
    destruct (child_can false r _ _ Hr IHr IHr' _ _ _ _ _ Fr Ir Pr Sr Rr ltac:(discriminate)) as (gr & Hgr).
    destruct (typed_sound cfg most pr l _ _ Hl) as [Tl Tl']. destruct (typed_sound cfg most pr r _ _ Hr) as [Tr Tr'].
    destruct (child_sound cfg most pr false l _ _ Hl Tl Tl' _ _ _ _ _ _ Fl Il Pl Sl ltac:(discriminate) Hgl) as [_ Ll].
    destruct (child_sound cfg most pr false r _ _ Hr Tr Tr' _ _ _ _ _ _ Fr Ir Pr Sr ltac:(discriminate) Hgr) as [_ Lr].
    destruct (Ll eq_refl) as (El & _). destruct (Lr eq_refl) as (Er & _).
    destruct (join_can rem (HashJoin false a ty) c hl hr na (tparts dl) (tparts dr) n gl gr ltac:(congruence)) as (f & Hf).
    exists f. rewrite red_node. apply runs_node. exists [gl; gr]. split; [now repeat constructor|]. cbn [map]. now rewrite !red_tparts.
  - (* collecting join *)
    apply deployed_node in H as (ds & -> & F); [|discriminate].
    apply Forall2_two in F as (dl & dr & -> & Fl & Fr). cbn [is_coalesce] in Fl, Fr.
    pose proof (inv_child _ _ _ _ _ _ _ _ _ Hi (or_introl eq_refl)) as Il.
    pose proof (inv_child _ _ _ _ _ _ _ _ _ Hi (or_intror (or_introl eq_refl))) as Ir.
    pose proof (placed_node _ _ _ _ _ Hpl l (or_introl eq_refl)) as Pl.
    pose proof (placed_node _ _ _ _ _ Hpl r (or_intror (or_introl eq_refl))) as Pr.
    pose proof (scans_node _ (KJoin _ c hl hr na) [l; r] ltac:(discriminate) Hs l (or_introl eq_refl)) as Sl.
    pose proof (scans_node _ (KJoin _ c hl hr na) [l; r] ltac:(discriminate) Hs r (or_intror (or_introl eq_refl))) as Sr.
    pose proof (scans_node _ (KJoin _ c hl hr na) [l; r] ltac:(discriminate) Hrd l (or_introl eq_refl)) as Rl.
    pose proof (scans_node _ (KJoin _ c hl hr na) [l; r] ltac:(discriminate) Hrd r (or_intror (or_introl eq_refl))) as Rr.
    destruct IHx as [IHx IHx']. destruct IHr as [IHr IHr'].
    destruct (child_can false r _ _ Hr IHr IHr' _ _ _ _ _ Fr Ir Pr Sr Rr ltac:(discriminate)) as (gr & Hgr).
    destruct Hpl as [Hpl _]. specialize (Hpl Hj).
    assert (Hone1 : head = true \/ most = 1 \/ In 1 (announced cfg (Node (KJoin j c hl hr na) [l; r])) -> n = 1)
      by (intros Ha; exact (inv_one _ _ _ _ _ _ _ Hi Ha)).
    destruct (build_can x l Dl Hx (fun below => child_can below x _ _ Hx IHx IHx') Hb head rem s n dl) as (E1 & gl & Hgl); auto.
    { destruct Hpl as [[Hy _]|[Hy Ha]]; [left; exact Hy|right; auto]. }
    pose proof (some_part_child _ r (some_part r _ _ Hr) _ _ _ _ _ Rr Ir Fr) as Hpos.
    destruct (join_can rem j c hl hr na (tparts dl) (tparts dr) n gl gr) as (f & Hf).
    { destruct j as [[]| |]; try discriminate; auto. }
    exists f. rewrite red_node. apply runs_node. exists [gl; gr]. split; [now repeat constructor|]. cbn [map]. now rewrite !red_tparts.
  - destruct IH as [IH _]. exact (IH _ _ _ _ _ H Hi Hpl Hs Hrd Hone).
  - destruct IH as [_ IH]. exact IH.
Qed.

End Progress.

(** * The whole plan *)

Section End_.
Context {row : Type}.
Notation tree := (tree row).
Notation table := (nat -> nat -> list row).

Lemma root_can cfg most pr (p : tree) D s d :
  typed pr p (@Permutation row) D -> (cut false p = None -> within_limits cfg most p s) ->
  dchild cfg (within_limits cfg most) false p (deployed cfg (within_limits cfg most) p) s 1 d ->
  placed cfg most (in_head p) p -> every_scan (faithful_scan cfg most) p -> every_scan (readable_scan cfg most) p ->
  exists f : table, runs false (red pr d) 1 f.
Proof.
  intros Ht Hw Hd Hp Hs Hr. destruct (typed_can cfg most pr p _ _ Ht) as [H1 H2].
  pose proof (child_can cfg most pr false p _ _ Ht H1 H2) as H.
  apply (H true false s 1 d); auto; [|discriminate].
  split; [|split; [lia|split; [auto|unfold cut; destruct (is_hash_repart p), (is_bcast p); discriminate]]].
  intros Ec. destruct (Hw Ec) as [Hw1 Hw2]. repeat split; auto; try lia; discriminate.
Qed.

Lemma distributed_can cfg most (t p : tree) D (d : tree) :
  typed (partial_reduce cfg) t (@Permutation row) D -> ordinary t -> fed t -> is_round_robin t = false ->
  every_scan (faithful_scan cfg most) t -> every_scan (readable_scan cfg most) t ->
  0 < target_partitions cfg -> dynamic_task_count cfg = false ->
  max_tasks cfg = Ok most -> sane_handlers cfg -> leaf_handlers cfg -> fits most t ->
  before_injection cfg t = Ok p -> ops_placed cfg most (in_head p) p ->
  distribute cfg t = Ok (TDistributed d) -> exists f : table, runs false d 1 f.
Proof.
  intros Ht Ho Hf Hr Hs Hrd Htp Hdyn Hmost Hsane Hleaf Hfits Hp Hplaced H.
  destruct (distribute_inv cfg most t _ (ordinary_no_net t Ho) Hdyn Hfits H)
    as (p' & q & a & d1 & id & Hp' & Hq & Hd1 & Np & Fp & Hres).
  assert (p' = p) as -> by congruence. clear Hp'.
  destruct Hres as [[_ Hres]|(_ & d' & Ha & Hres)]; [discriminate|]. injection Hres as <-.
  destruct (before_keeps cfg (partial_reduce cfg) Htp (faithful_scan cfg most) t p D Ht Ho Hf Hr Hp) as ((D' & T) & M & F2 & S).
  destruct (before_keeps cfg (partial_reduce cfg) Htp (readable_scan cfg most) t p D Ht Ho Hf Hr Hp) as (_ & _ & _ & S').
  destruct (inject_deployed cfg most Hmost Hsane Hleaf p q a d1 id Hdyn Np Fp Hq Hd1) as [HW HD].
  assert (Hn : no_fetch d1).
  { eapply dchild_no_fetch; [|exact HD]. intros. eapply deployed_no_fetch; eauto. eapply typed_no_fetch; eauto. }
  unfold after_prepare in Ha. fold (red (partial_reduce cfg) d1) in Ha.
  rewrite push_fetch_id in Ha.
  2: { unfold red. destruct (partial_reduce cfg); [now apply reduce_no_fetch|exact Hn]. }
  injection Ha as <-.
  apply (root_can cfg most (partial_reduce cfg) p D' (as_usize a) d1 T HW HD); auto. now apply placed_of.
Qed.

Lemma scans_and (P P' : leaf_node row -> Prop) (t : tree) : (forall l, P l -> P' l) -> every_scan P t -> every_scan P' t.
Proof.
  intros H. induction t as [k cs IH|w m cs IH|b part q num tasks i IH] using tree_ind'; intros Ht; [| |now apply IH].
  - destruct cs as [|c cs].
    + destruct k; cbn in *; auto.
    + apply scans_intro; [discriminate|]. intros x Hx. rewrite Forall_forall in IH. apply IH; [exact Hx|].
      refine (scans_node P k _ _ Ht x Hx). discriminate.
  - cbn [every_scan]. apply Forall_map, Forall_forall. intros x Hx. rewrite Forall_forall in IH. apply IH; [exact Hx|].
    exact (scans_ciu P w m cs Ht x Hx).
Qed.

Lemma single_readable (l : leaf_node row) : readable l -> readable_scan single_node 1 l.
Proof.
  destruct l as [l|d]; [|intros []]. intros (Hp & He) s q Hs _ Hq. cbn in Hq. subst q. exists (LScan l). split; [reflexivity|].
  split; [exact Hp|]. intros remote n i p Hi Hpp. destruct (He p Hpp) as (rows & Hr). exists rows. exact Hr.
Qed.

Lemma single_can pr (t : tree) D : typed pr t (@Permutation row) D -> ordinary t -> fed t -> every_scan readable t ->
  exists g : table, runs false t 1 g.
Proof.
  intros Ht Ho Hf Hr. rewrite <- (ordinary_red pr t Ho). apply (root_can single_node 1 pr t D 1 t Ht).
  - intros _. apply single_limits.
  - unfold dchild. destruct (cut false t); [|now apply single_deployed]. exists 1, t.
    split; [apply single_limits|]. split; [now apply single_deployed|reflexivity].
  - now apply single_placed.
  - eapply single_scans; eauto.
  - eapply scans_and; [|exact Hr]. exact single_readable.
Qed.

(** Scans that are split by the handlers. *)
Lemma split_readable cfg most (l : leaf row) : split_scan cfg most l -> readable (LScan l) -> readable_scan cfg most (LScan l).
Proof.
  intros H (Hpos & Hrd) s q Hs Hk Hsc. specialize (H s Hs Hk). unfold scaled in Hsc.
  destruct (scale_up_leaf cfg (Node (KLeaf (LScan l)) []) s) as [r|].
  - subst r. destruct q as [[[|d]| | | | | |] []| |]; try (now destruct H). destruct H as (Ho & Hp & Hl & Hv & rows & Hr & HP).
    exists (LTasks d). split; [reflexivity|]. split; [cbn; lia|]. intros remote n i p Hi Hpp. cbn [leaf_runs leaf_parts] in *.
    destruct remote.
    + destruct (nth_error (dle_variants d) i) as [v|] eqn:Ev; [|apply nth_error_None in Ev; unfold n in Hi; lia].
      pose proof (nth_error_In _ _ Ev) as Hin. specialize (Hv v Hin).
      assert (G : exists x, leaf_rows v = Ok x).
      { apply mapM_ok_inv in Hr. clear -Hr Hin. induction Hr as [|y z ys zs Hyz Hr IH]; [destruct Hin|].
        destruct Hin as [->|Hin]; eauto. }
      destruct G as (x & Hx). unfold leaf_rows in Hx. destruct (mapM (lf_exec v) (seq 0 (lf_parts v))) as [ys| |] eqn:Em; cbn [bind] in Hx; try discriminate.
      apply mapM_ok_inv in Em. apply Forall2_nth in Em as [Ly Em].
      destruct (nth_error ys p) as [y|] eqn:Ey.
      2: { apply nth_error_None in Ey. rewrite seq_length in Ly. lia. }
      exists y, v. unfold dle_to_task_specialized. cbn [task_index]. rewrite Ev. split; [reflexivity|].
      apply (Em p p y); [|exact Ey]. rewrite <- (map_id (seq 0 (lf_parts v))). apply nth_error_map_seq. lia.
    + assert (i = 0) as -> by (unfold n in Hi; lia). unfold n, dle_execute. cbn [task_count Nat.eqb].
      rewrite Ho. apply Hrd. lia.
  - subst q s. exists (LScan l). split; [reflexivity|]. split; [exact Hpos|]. intros remote n i p Hi Hpp. cbn [leaf_runs]. auto.
Qed.
End End_.
