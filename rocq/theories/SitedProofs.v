(** Proofs about plans whose boundaries were placed by the user. *)
From Verif Require Import Base NetModel NetSpec NetProofs CiuModel EventsModel JoinModel JoinSpec JoinProofs
  PlannerModel PlannerSpec PlannerProofs ExecModel ExecSpec ExecProofs ExecOps ExecEnd EventsSpec EventsProofs EventsProps SitedSpec.

Section Ready.
Context {row : Type}.
Notation tree := (tree row).
Notation table := (nat -> nat -> list row).
Variable cfg : settings row.

(** [d] is what the planner makes of [t] in a stage of [n] tasks. *)
Definition ready (n : nat) (t d : tree) : Prop :=
  exists t' id id', scale_leaves cfg t n = Ok t' /\ prepare cfg t' n id = Ok (d, id').

Lemma bind_inv {A B} (m : Res A) (k : A -> Res B) y : bind m k = Ok y -> exists x, m = Ok x /\ k x = Ok y.
Proof. destruct m; cbn; intros H; try discriminate. eauto. Qed.

Lemma prepared_children (n : nat) (cs : list tree) : forall id ds id',
  seqS (map (fun c => prepare cfg c n) cs) id = Ok (ds, id') ->
  Forall2 (fun c d => exists i i', prepare cfg c n i = Ok (d, i')) cs ds.
Proof.
  induction cs as [|c cs IH]; intros id ds id' H; cbn in H; [injection H as <- <-; constructor|].
  apply bind_inv in H as ([d i] & H1 & H). apply bind_inv in H as ([ds0 i'] & H2 & H). injection H as <- <-.
  constructor; eauto.
Qed.

Lemma ready_node n k (cs : list tree) d : cs <> [] -> ready n (Node k cs) d ->
  exists ds, d = Node k ds /\ Forall2 (ready n) cs ds.
Proof.
  intros Hne (t' & id & id' & Hs & Hp). destruct cs as [|c cs]; [now destruct Hne|].
  cbn [scale_leaves] in Hs. apply bind_inv in Hs as (cs' & Hs & Ht). injection Ht as <-.
  apply seqM_map_inv in Hs. cbn [prepare] in Hp. apply bind_inv in Hp as ([ds i] & Hp & Hd).
  injection Hd as <- <-. exists ds. split; [reflexivity|]. apply prepared_children in Hp. clear Hne. revert ds Hp.
  induction Hs as [|x y l l' Hxy Hs IH]; intros ds Hp; inversion Hp; subst; constructor; auto.
  destruct H1 as (i0 & i1 & H1). exists y, i0, i1. auto.
Qed.

Lemma ready_one n k (c d : tree) : ready n (Node k [c]) d -> exists d', d = Node k [d'] /\ ready n c d'.
Proof.
  intros H. apply ready_node in H as (ds & -> & F); [|discriminate]. apply Forall2_one in F as (d' & -> & F). eauto.
Qed.

Lemma ready_leaf n l (d : tree) : ready n (Node (KLeaf l) []) d -> exists q, scaled cfg (Node (KLeaf l) []) n q /\
  (forall l', q = Node (KLeaf l') [] -> d = q).
Proof.
  intros (t' & id & id' & Hs & Hp). exists t'. split.
  - unfold scaled. cbn [scale_leaves] in Hs. destruct (scale_up_leaf cfg (Node (KLeaf l) []) n); [exact Hs|now injection Hs].
  - intros l' ->. cbn in Hp. now injection Hp as <- <-.
Qed.

Lemma restage_count b part tasks part' : 1 <= tasks -> restage b part tasks tasks = Ok part' ->
  partition_count (part' : partitioning row) = partition_count part.
Proof.
  intros Ht H. destruct b; cbn in H; try (now injection H as <-).
  destruct part; cbn in H; try discriminate; injection H as <-; cbn;
    rewrite Nat.max_l by lia; apply Nat.div_mul; lia.
Qed.

Lemma ready_net n b part q num tasks (c d : tree) : 1 <= tasks -> ready n (Net b part q num tasks c) d ->
  exists d', ready tasks c d' /\
    (n = 1 /\ tasks = 1 /\ d = d' \/
     exists h plan part' num', producer_head_of b part n = Ok h /\ insert_head_node h d' = Ok plan /\
       partition_count part' = partition_count part /\ (b <> BCoalesce -> part' = part) /\
       d = Net b part' (query cfg) num' tasks plan).
Proof.
  intros Ht (t' & id & id' & Hs & Hp). cbn [scale_leaves] in Hs. apply bind_inv in Hs as (c' & Hs & E). injection E as <-.
  cbn [prepare] in Hp. apply bind_inv in Hp as ([d' i] & Hp & H). exists d'. split; [exists c', id, i; auto|].
  destruct ((n =? 1) && (tasks =? 1)) eqn:E1.
  - left. apply andb_prop in E1 as [E1 E2]. apply Nat.eqb_eq in E1, E2. now injection H as <- <-.
  - right. apply bind_inv in H as (h & Hh & H). apply bind_inv in H as (plan & Hplan & H).
    apply bind_inv in H as (part' & Hpart & H). injection H as <- <-.
    exists h, plan, part', i. repeat split; auto; [eapply restage_count; eauto|].
    intros Hb. destruct b; cbn in Hpart; congruence.
Qed.

(** ** Partition counts *)

Lemma sited_additive n t E D : sited cfg n t E D -> additive E.
Proof. induction 1; auto; apply perm_additive. Qed.

Lemma list_sum_all (f g : tree -> nat) cs : (forall c, In c cs -> f c = g c) -> list_sum (map f cs) = list_sum (map g cs).
Proof. intros H. f_equal. now apply map_ext_in. Qed.

Lemma sited_tparts n t E D : sited cfg n t E D -> forall d, ready n t d -> tparts d = tparts t.
Proof.
  induction 1; intros d Hd; auto;
    try (apply ready_one in Hd as (d' & -> & Hd); cbn [tparts map nth partition_count]; auto; fail).
  - apply ready_leaf in Hd as (q & Hq & Hd). destruct H as [_ H]. destruct (H q Hq) as (l' & E & Hp & _).
    specialize (Hd l' E). now rewrite Hd, E.
  - apply ready_node in Hd as (ds & -> & F); [|assumption]. cbn [tparts]. f_equal.
    clear H H0 H1. induction F as [|x y l l' Hxy F IH]; [reflexivity|]. cbn. f_equal; [apply H2; [now left|exact Hxy]|].
    apply IH. intros c Hc. apply H2. now right.
  - apply ready_node in Hd as (ds & -> & F); [|discriminate]. apply Forall2_two in F as (dl & dr & -> & Fl & Fr).
    cbn [tparts map nth]. auto.
  - apply ready_node in Hd as (ds & -> & F); [|discriminate]. apply Forall2_two in F as (dl & dr & -> & Fl & Fr).
    cbn [tparts map nth]. destruct j as [[] a0 ty|ty|]; auto. 
  - apply ready_node in Hd as (ds & -> & F); [|discriminate]. apply Forall2_two in F as (dl & dr & -> & Fl & Fr).
    cbn [tparts map nth]. destruct j as [[] a0 ty|ty|]; auto. discriminate.
  - apply ready_net in Hd as (d' & Hd & [(-> & -> & ->)|(h0 & plan & part' & num' & _ & _ & Hc & _ & ->)]); [| |assumption].
    + apply ready_one in Hd as (d'' & -> & _). reflexivity.
    + exact Hc.
  - apply ready_net in Hd as (d' & Hd & [(-> & -> & ->)|(h0 & plan & part' & num' & _ & _ & Hc & _ & ->)]); [| |assumption].
    + cbn [tparts]. rewrite H2. cbn. rewrite Nat.mul_1_r. auto.
    + exact Hc.
Qed.

Lemma coalescable_ready n t E D : sited cfg n t E D -> coalescable t -> forall d, ready n t d -> headless d.
Proof.
  intros Hs Hc d Hd. destruct t as [k cs|w m cs|]; [|exfalso; clear - Hs; remember (Ciu w m cs) as t; revert Heqt; induction Hs; intros; try discriminate; auto|destruct Hc].
  destruct cs as [|c0 cs].
  - assert (Hk : exists l, k = KLeaf l /\ site_scan cfg n l).
    { clear - Hs. remember (Node k []) as t eqn:Et. revert Et. induction Hs; intros Et; try discriminate; auto.
      - injection Et as <-. eauto.
      - injection Et as _ ->. now destruct H. }
    destruct Hk as (l & -> & _ & Hl). apply ready_leaf in Hd as (q & Hq & Hd). destruct (Hl q Hq) as (l' & -> & _).
    now rewrite (Hd l' eq_refl).
  - apply ready_node in Hd as (ds & -> & _); [|discriminate]. destruct k; try exact Hc; exact Logic.I.
Qed.

(** ** Boundaries *)

Lemma boundary_gather part tasks n P (g f : table) : 1 <= tasks -> 1 <= n ->
  partition_count part = P * Nat.max (div_ceil tasks n) 1 ->
  boundary_yields BCoalesce part tasks (fun t => SOther P (g t)) n f ->
  consumer_rows n (partition_count part) f = consumer_rows tasks P g.
Proof.
  intros Ht Hn Hp H. destruct (Nat.eq_dec P 0) as [->|HP].
  - rewrite Hp. cbn. unfold consumer_rows. cbn. now rewrite !flat_map_nil.
  - cbn [boundary_yields boundary_execute] in H.
    change (partition_count part) with (partition_count (co_part (mkCoalesce part (Remote tasks) tasks))) in H |- *.
    rewrite (coalesce_cover P tasks n (fun t => SOther P (g t)) g ltac:(lia) ltac:(lia)
               (mkCoalesce part (Remote tasks) tasks) eq_refl eq_refl) with (out := f); [reflexivity| | |exact H].
    + cbn [co_part]. exact Hp.
    + intros t _. split; [eexists; eexists; reflexivity|]. split; [reflexivity|]. apply other_yields.
Qed.

(** ** Soundness *)

Definition good (n : nat) (t : tree) (E : list row -> list row -> Prop) (D : spread row) : Prop :=
  forall d rem f, ready n t d -> 1 <= n -> (rem = false -> n = 1) -> runs rem d n f ->
    E (consumer_rows n (tparts d) f) (meaning t) /\ located D n (tparts d) f.

Lemma one_child rem n k (c d : tree) (f : table) : ready n (Node k [c]) d -> runs rem d n f ->
  exists d' g, d = Node k [d'] /\ ready n c d' /\ runs rem d' n g /\ node_runs rem k [tparts d'] n [g] f.
Proof.
  intros H Hr. apply ready_one in H as (d' & -> & H). apply runs_node in Hr as (fs & Hfs & Hf).
  apply Forall2_one in Hfs as (g & -> & Hg). exists d', g. auto.
Qed.

Lemma two_children rem n k (l r d : tree) (f : table) : ready n (Node k [l; r]) d -> runs rem d n f ->
  exists dl dr gl gr, d = Node k [dl; dr] /\ ready n l dl /\ ready n r dr /\ runs rem dl n gl /\ runs rem dr n gr /\
    node_runs rem k [tparts dl; tparts dr] n [gl; gr] f.
Proof.
  intros H Hr. apply ready_node in H as (ds & -> & F); [|discriminate]. apply Forall2_two in F as (dl & dr & -> & Fl & Fr).
  apply runs_node in Hr as (fs & Hfs & Hf). apply Forall2_two in Hfs as (gl & gr & -> & Hgl & Hgr).
  exists dl, dr, gl, gr. auto 10.
Qed.

Lemma join_rows_perm j c (na : list row -> list row -> list row) :
  (spreads j = false ->
   forall L L' R R', Permutation L L' -> Permutation R R' -> Permutation (na L R) (na L' R')) ->
  forall L L' R R', Permutation L L' -> Permutation R R' -> Permutation (join_rows j c na L R) (join_rows j c na L' R').
Proof.
  intros Hna L L' R R' P1 P2. destruct j as [cl a ty|ty|]; cbn [join_rows].
  - destruct cl; [destruct a|]; try (now apply join_perm). now apply Hna.
  - now apply join_perm.
  - unfold cross. rewrite (flat_map_perm_l _ _ _ P1). apply flat_map_perm_ext. intros y _. now apply Permutation_map.
Qed.

(** Hash repartitioning inside each task. *)
Lemma hash_each rem n h k P (g f : table) : 0 < k -> node_runs rem (KRepart (HashP h k)) [P] n [g] f ->
  Permutation (consumer_rows n k f) (consumer_rows n P g).
Proof.
  intros Hk Hf. cbn [node_runs nth partition_count] in Hf. unfold consumer_rows. apply flat_map_perm_ext.
  intros i Hi. apply in_seq in Hi. apply (hash_total h k); [exact Hk|]. apply hash_rows. intros p Hp. apply Hf; lia.
Qed.

Lemma hash_one rem h k P (g f : table) : 0 < k -> node_runs rem (KRepart (HashP h k)) [P] 1 [g] f ->
  located (Hashed h k) 1 k f.
Proof.
  intros Hk Hf. cbn [node_runs nth partition_count] in Hf.
  assert (Hf' := hash_rows h k P (g 0) (f 0) (fun p Hp => Hf 0 p ltac:(lia) Hp)).
  split; [reflexivity|]. split; [exact Hk|]. intros i p Hi' Hp' r Hr'. assert (i = 0) as -> by lia.
  apply (Permutation_in _ (Hf' p Hp')) in Hr'. apply filter_In in Hr' as [_ Hr']. apply Nat.eqb_eq in Hr'.
  rewrite Nat.mul_1_r. lia.
Qed.

Theorem sited_sound n t E D : sited cfg n t E D -> good n t E D.
Proof.
  induction 1 as [n l Hl|h k c E D Hk Hc IH|n h k c E D Hk Hc IH|n k c E D Hk Hc IH|n spm c E D Hc IH
    |n cs E Hne Ha Hc IH|n o c E E' D D' Hc IH Ho Ha Hd Hcar|n o c h k E E' D' Hc IH Ho Ha Hd Hcar
    |o c E E' D Hc IH Hone Ho Ha Hd|n a ty c hl hr na k l r D' Hl IHl Hr IHr Hk HD
    |j c hl hr na l r Dl Dr D' Hl IHl Hr IHr Hone Hj Hna HD
    |n j c hl hr na spm part q num tasks x r Dx Dr D' Hx IHx Hr IHr Ht Hpart Hsp Hj HD
    |n h k q num tasks c E D Hk Ht Hc IH|n part q num tasks c E D Ht Hc IH Hco Hpart
    |n p E E' D D' Hp IH Ha He HD]; intros d rem f Hrd Hn Hrem Hrun.
  - (* leaf *)
    apply ready_leaf in Hrd as (q' & Hq & Hd). destruct Hl as [_ Hl]. destruct (Hl q' Hq) as (l' & E & _ & Hrows).
    specialize (Hd l' E). subst d. split; [|exact Logic.I]. exact (Hrows rem f Hrem Hrun).
  - (* hash in one task *)
    pose proof (sited_additive _ _ _ _ Hc) as HE.
    destruct (one_child _ _ _ _ _ _ Hrd Hrun) as (d' & g & -> & Fd & Fr & Hf).
    destruct (IH _ _ _ Fd Hn Hrem Fr) as [H1 _]. cbn [tparts partition_count]. split.
    + cbn [meaning map List.concat]. rewrite app_nil_r. apply (add_trans E HE) with (consumer_rows 1 (tparts d') g); [|exact H1].
      apply (add_perm E HE). eapply hash_each; eauto.
    + eapply hash_one; eauto.
  - (* hash in each task *)
    pose proof (sited_additive _ _ _ _ Hc) as HE.
    destruct (one_child _ _ _ _ _ _ Hrd Hrun) as (d' & g & -> & Fd & Fr & Hf).
    destruct (IH _ _ _ Fd Hn Hrem Fr) as [H1 _]. cbn [tparts partition_count]. split; [|exact Logic.I].
    cbn [meaning map List.concat]. rewrite app_nil_r. apply (add_trans E HE) with (consumer_rows n (tparts d') g); [|exact H1].
    apply (add_perm E HE). eapply hash_each; eauto.
  - (* round robin *)
    pose proof (sited_additive _ _ _ _ Hc) as HE.
    destruct (one_child _ _ _ _ _ _ Hrd Hrun) as (d' & g & -> & Fd & Fr & Hf).
    destruct (IH _ _ _ Fd Hn Hrem Fr) as [H1 _]. cbn [tparts partition_count]. split; [|exact Logic.I].
    cbn [node_runs nth partition_count] in Hf.
    cbn [meaning map List.concat]. rewrite app_nil_r. apply (add_trans E HE) with (consumer_rows n (tparts d') g); [|exact H1].
    apply (add_perm E HE). unfold consumer_rows. apply flat_map_perm_ext. intros i Hi'. apply in_seq in Hi'.
    apply (round_robin_rows k); [exact Hk|]. intros p Hpp. apply Hf; lia.
  - (* merging partitions *)
    pose proof (sited_additive _ _ _ _ Hc) as HE.
    destruct (one_child _ _ _ _ _ _ Hrd Hrun) as (d' & g & -> & Fd & Fr & Hf).
    destruct (IH _ _ _ Fd Hn Hrem Fr) as [H1 _]. cbn [tparts]. split; [|exact Logic.I].
    cbn [node_runs nth limit_to] in Hf.
    cbn [meaning map List.concat]. rewrite app_nil_r. apply (add_trans E HE) with (consumer_rows n (tparts d') g); [|exact H1].
    apply (add_perm E HE). unfold consumer_rows. apply flat_map_perm_ext. intros i Hi'. apply in_seq in Hi'.
    destruct (proj2 Hf i ltac:(lia)) as (l & Hl & Hf'). cbn. now rewrite app_nil_r, Hf'.
  - (* union *)
    apply ready_node in Hrd as (ds & -> & F); [|exact Hne].
    apply runs_node in Hrun as (fs & Hfs & Hf).
    cbn [node_runs tparts] in *. apply Forall2_nth in F as [L F]. apply Forall2_nth in Hfs as [L' Hfs].
    split; [|exact Logic.I]. change (meaning (Node KUnion cs)) with (List.concat (map meaning cs)).
    apply (add_trans E Ha) with (List.concat (map (fun '(g, P) => consumer_rows n P g) (combine fs (map tparts ds)))).
    + apply (add_perm E Ha). apply (union_total cfg 0); [rewrite ?map_length; lia|]. intros. eapply Hf; eauto.
    + apply (add_concat cfg 0); [exact Ha|rewrite !map_length, combine_length, ?map_length; lia|]. intros i x y Hx Hy.
      rewrite nth_error_map in Hx, Hy. destruct (nth_error cs i) as [c|] eqn:Ec; [|discriminate]. injection Hy as <-.
      assert (Hlt : i < List.length cs) by (apply nth_error_Some; congruence).
      destruct (nth_error ds i) as [di|] eqn:Ed; [|apply nth_error_None in Ed; lia].
      destruct (nth_error fs i) as [g|] eqn:Eg; [|apply nth_error_None in Eg; lia].
      rewrite (nth_error_combine fs (map tparts ds) i g (tparts di) Eg) in Hx by (now rewrite nth_error_map, Ed).
      injection Hx as <-. pose proof (nth_error_In _ _ Ec) as Hin.
      exact (proj1 (IH c Hin _ _ _ (F i c di Ec Ed) Hn Hrem (Hfs i di g Ed Eg))).
  - (* distributive *)
    pose proof (sited_additive _ _ _ _ Hc) as HE.
    destruct (one_child _ _ _ _ _ _ Hrd Hrun) as (d' & g & -> & Fd & Fr & Hf).
    destruct (IH _ _ _ Fd Hn Hrem Fr) as [H1 H2].
    cbn [node_runs nth] in Hf. cbn [tparts map nth meaning]. split; [|eapply op_located; eauto].
    apply (add_trans E' Ha) with (flat_map (fun x => op_fun o (flat (tparts d') g x)) (seq 0 (n * tparts d'))).
    { eapply op_rows; eauto. apply Hd. }
    apply (add_trans E' Ha) with (op_fun o (flat_map (flat (tparts d') g) (seq 0 (n * tparts d')))).
    { eapply distributive_flat; eauto. }
    rewrite <- consumer_flat. now apply Hd.
  - (* keyed *)
    pose proof (sited_additive _ _ _ _ Hc) as HE.
    destruct (one_child _ _ _ _ _ _ Hrd Hrun) as (d' & g & -> & Fd & Fr & Hf).
    destruct (IH _ _ _ Fd Hn Hrem Fr) as [H1 H2].
    cbn [node_runs nth] in Hf. cbn [tparts map nth meaning]. split; [|eapply op_located; eauto].
    apply (add_trans E' Ha) with (flat_map (fun x => op_fun o (flat (tparts d') g x)) (seq 0 (n * tparts d'))).
    { eapply op_rows; eauto. apply Hd. }
    apply (add_trans E' Ha) with (op_fun o (flat_map (flat (tparts d') g) (seq 0 (n * tparts d')))).
    { eapply keyed_flat; [exact Ha|exact Hd|apply seq_NoDup|]. intros x y a b Hx Hy Hxy Hax Hby Heq.
      apply in_seq in Hx, Hy. apply Hxy.
      rewrite <- (located_flat h k n (tparts d') g H2 x ltac:(lia) a Hax).
      rewrite <- (located_flat h k n (tparts d') g H2 y ltac:(lia) b Hby). now rewrite Heq. }
    rewrite <- consumer_flat. now apply Hd.
  - (* whole *)
    pose proof (sited_additive _ _ _ _ Hc) as HE.
    destruct (one_child _ _ _ _ _ _ Hrd Hrun) as (d' & g & -> & Fd & Fr & Hf).
    destruct (IH _ _ _ Fd Hn Hrem Fr) as [H1 _].
    cbn [node_runs nth] in Hf. cbn [tparts map nth meaning]. split; [|exact Logic.I].
    rewrite (sited_tparts _ _ _ _ Hc d' Fd), Hone in *.
    rewrite one_task in *. cbn [seq flat_map] in *. rewrite app_nil_r in *.
    destruct (Hf 0 0 ltac:(lia) ltac:(lia)) as (l & Hl1 & Hl2).
    apply (add_trans E' Ha) with (op_fun o l); [now apply (add_perm E' Ha)|]. apply Hd.
    apply (add_trans E HE) with (g 0 0); [now apply (add_perm E HE)|exact H1].
  - (* partitioned join *)
    destruct (two_children _ _ _ _ _ _ _ Hrd Hrun) as (dl & dr & gl & gr & -> & Fd & Gd & Fr & Gr & Hf).
    destruct (IHl _ _ _ Fd Hn Hrem Fr) as [Hl1 Hl2]. destruct (IHr _ _ _ Gd Hn Hrem Gr) as [Hr1 Hr2].
    pose proof Hl2 as (Pl & Hkpos & Hl3). pose proof Hr2 as (Pr & _ & Hr3).
    cbn [node_runs nth join_runs] in Hf. cbn [tparts map nth meaning join_rows]. rewrite Pl, Pr in *.
    assert (Hx : forall x, x < n * k -> Permutation (flat k f x)
      (join ty c (class hl (n * k) x (consumer_rows n k gl)) (class hr (n * k) x (consumer_rows n k gr)))).
    { intros x Hx. destruct (flat_index n k x Hx) as (H1 & H2 & _). destruct (Hf _ H1) as [_ Hf']. unfold flat at 1.
      rewrite (Hf' _ H2). apply join_perm; [exact (class_flat hl k n k gl Hl2 x Hx)|exact (class_flat hr k n k gr Hr2 x Hx)]. }
    split.
    + rewrite consumer_flat.
      rewrite (flat_map_perm_ext _ (fun x => join ty c (class hl (n * k) x (consumer_rows n k gl)) (class hr (n * k) x (consumer_rows n k gr))))
        by (intros x Hin; apply in_seq in Hin; apply Hx; lia).
      rewrite (join_classes c hl hr _ _ (n * k) ltac:(nia) ltac:(intros y z _ _; apply Hk)). now apply join_perm.
    + destruct D' as [|h' n']; [exact Logic.I|]. destruct HD as [-> HD]. split; [reflexivity|]. split; [exact Hkpos|].
      intros i p Hi' Hp' x Hin. destruct (Hf i Hi') as [_ Hf']. apply (Permutation_in _ (Hf' p Hp')) in Hin.
      destruct (HD _ _ _ Hin) as [(y & Hy & ->)|(y & Hy & ->)]; auto.
  - (* collecting join in one task *)
    destruct (two_children _ _ _ _ _ _ _ Hrd Hrun) as (dl & dr & gl & gr & -> & Fd & Gd & Fr & Gr & Hf).
    destruct (IHl _ _ _ Fd Hn Hrem Fr) as [Hl1 _]. destruct (IHr _ _ _ Gd Hn Hrem Gr) as [Hr1 Hr2].
    rewrite (sited_tparts _ _ _ _ Hl dl Fd), Hone in *.
    rewrite one_task in Hl1, Hr1. cbn [seq flat_map] in Hl1. rewrite app_nil_r in Hl1.
    assert (Htp : tparts (Node (KJoin j c hl hr na) [dl; dr]) = tparts dr).
    { cbn [tparts map nth]. destruct j as [[] a ty|ty|]; [reflexivity|discriminate|reflexivity|reflexivity]. }
    rewrite Htp, one_task. cbn [node_runs nth] in Hf. destruct (Hf 0 ltac:(lia)) as [_ Hf'].
    split.
    2: { destruct D' as [|h' n']; [exact Logic.I|]. destruct Dr as [|h0 n0]; [destruct HD|].
         destruct HD as (Hsp & -> & HD). destruct Hr2 as (Er2 & Hn0 & Hloc). split; [exact Er2|]. split; [exact Hn0|].
         intros i p Hi' Hp' z Hz. assert (i = 0) as -> by lia.
         assert (Hz' : In z (join_rows j c na (gl 0 0) (gr 0 p))).
         { destruct j as [cl a ty|ty|]; cbn [join_rows join_runs spreads collects] in *.
           - destruct cl; [|discriminate]. destruct a; [discriminate|]. cbn in Hsp. rewrite Hsp in Hf'.
             exact (Permutation_in _ (Hf' p Hp') Hz).
           - rewrite Hsp in Hf'. exact (Permutation_in _ (Hf' p Hp') Hz).
           - exact (Permutation_in _ (Hf' p Hp') Hz). }
         destruct (HD _ _ _ Hz') as (y & Hy & ->). auto. }
    change (meaning (Node (KJoin j c hl hr na) [l; r])) with (join_rows j c na (meaning l) (meaning r)).
    rewrite <- (join_rows_perm j c na Hna _ _ _ _ Hl1 Hr1).
    assert (Hev : forall F, (forall L Rs, Permutation (flat_map (F L) Rs) (F L (List.concat Rs))) ->
      (forall p, p < tparts dr -> Permutation (f 0 p) (F (gl 0 0) (gr 0 p))) ->
      Permutation (flat_map (f 0) (seq 0 (tparts dr))) (F (gl 0 0) (flat_map (gr 0) (seq 0 (tparts dr))))).
    { intros F HF H. rewrite (flat_map_concat_map (gr 0)), <- HF, flat_map_map. apply flat_map_perm_ext.
      intros p Hp. apply in_seq in Hp. apply H. lia. }
    destruct j as [cl a ty|ty|]; cbn [join_rows join_runs collects] in *.
    + destruct cl; [|discriminate]. destruct a; [exact Hf'|].
      destruct (is_left_broadcast_safe ty) eqn:Es; [|exact Hf']. apply Hev; [intros; now apply join_safe_split|exact Hf'].
    + destruct (is_left_broadcast_safe ty) eqn:Es; [|exact Hf']. apply Hev; [intros; now apply join_safe_split|exact Hf'].
    + apply Hev; [apply cross_split|exact Hf'].
  - (* collecting join with a broadcast build side *)
    destruct (two_children _ _ _ _ _ _ _ Hrd Hrun) as (dl & dr & gl & gr & -> & Fd & Gd & Fr & Gr & Hf).
    destruct (IHr _ _ _ Gd Hn Hrem Gr) as [Hr1 Hr2].
    assert (Hleft : forall i, i < n -> Permutation (gl i 0) (meaning x)).
    { intros i Hi. destruct (one_child _ _ _ _ _ _ Fd Fr) as (db & g & -> & Fb & Fg & Hco). clear Fr Fd.
      cbn [node_runs nth limit_to] in Hco. destruct Hco as [_ Hco]. destruct (Hco i Hi) as (l & Hl & ->). rewrite Hl. clear Hl Hco.
      apply ready_net in Fb as (d' & Fb & Hcase); [|exact Ht]. apply ready_one in Fb as (ix & -> & Fx).
      destruct Hcase as [(-> & -> & ->)|(h & plan & part' & num' & Hh & Hplan & Hpc & _ & ->)].
      - apply runs_node in Fg as (fs & Hfs & Hg). apply Forall2_one in Hfs as (gx & -> & Hgx).
        cbn [node_runs map nth] in Hg. destruct (IHx _ _ _ Fx Hn Hrem Hgx) as [H1 _].
        rewrite one_task in H1. rewrite <- H1. assert (i = 0) as -> by lia.
        cbn [tparts map nth]. rewrite Nat.mul_1_r. apply flat_map_perm_ext. intros p Hpp. apply in_seq in Hpp.
        destruct (Hg 0 p ltac:(lia) ltac:(lia)) as (rows & He & Hrr). cbn [exec parts] in He.
        destruct (Nat.eqb_spec (tparts ix) 0); [lia|]. rewrite (Nat.mod_small p) in He by lia.
        destruct (Nat.ltb_spec p (tparts ix)); [|lia]. injection He as <-. exact Hrr.
      - cbn in Hh. injection Hh as <-. cbn in Hplan.
        destruct (Nat.eqb_spec (tparts ix) 0) as [|Hpos]; [discriminate|]. injection Hplan as <-.
        cbn [runs] in Fg. destruct Fg as (gx & Hgx & Hobs). cbn [tparts].
        assert (Hpx : partition_count part' = tparts ix) by (rewrite Hpc, Hpart; symmetry; eapply sited_tparts; eauto).
        rewrite Hpx. rewrite (boundary_broadcast part' tasks (tparts ix) n _ gx g ltac:(lia) Hpx Hobs i Hi).
        exact (proj1 (IHx ix true gx Fx Ht ltac:(discriminate) Hgx)). }
    set (F := join_rows j c na).
    assert (HF := join_rows_perm j c na (fun H => ltac:(congruence))). fold F in HF.
    assert (Htp : tparts (Node (KJoin j c hl hr na) [dl; dr]) = tparts dr).
    { cbn [tparts map nth]. destruct j as [[] a ty|ty|]; [reflexivity|discriminate|reflexivity|reflexivity]. }
    rewrite Htp.
    assert (Hm : Permutation (meaning (Node (KJoin j c hl hr na)
      [Node (KCoalesce spm None) [Net BBroadcast part q num tasks (Node (KBcast 1) [x])]; r])) (F (meaning x) (meaning r))).
    { apply Permutation_refl'. unfold F. cbn [meaning map]. cbn [List.concat]. now rewrite !app_nil_r. }
    cbn [node_runs nth] in Hf.
    assert (Hsplit : forall L Rs, Permutation (flat_map (F L) Rs) (F L (List.concat Rs))).
    { intros L Rs. unfold F. destruct j as [cl a ty|ty|]; cbn [join_rows spreads collects] in *.
      - destruct cl; [|discriminate]. destruct a; [discriminate|]. cbn in Hsp. now apply join_safe_split.
      - now apply join_safe_split.
      - apply cross_split. }
    assert (Hf' : forall i p, i < n -> p < tparts dr -> Permutation (f i p) (F (gl i 0) (gr i p))).
    { intros i p Hi' Hp'. destruct (Hf i Hi') as [_ Hf']. unfold F. destruct j as [cl a ty|ty|]; cbn [join_rows join_runs spreads collects] in *.
      - destruct cl; [|discriminate]. destruct a; [discriminate|]. cbn in Hsp. rewrite Hsp in Hf'. now apply Hf'.
      - rewrite Hsp in Hf'. now apply Hf'.
      - now apply Hf'. }
    split.
    + rewrite Hm. rewrite (consumer_rows_perm n _ f (fun i p => F (meaning x) (gr i p)))
        by (intros i p Hi' Hp'; rewrite (Hf' i p Hi' Hp'); apply HF; auto).
      rewrite (HF _ _ _ _ (Permutation_refl (meaning x)) (Permutation_sym Hr1)), !consumer_flat.
      rewrite (flat_map_concat_map (flat _ gr)), <- Hsplit, flat_map_map. reflexivity.
    + destruct D' as [|h' n']; [exact Logic.I|]. destruct Dr as [|h0 n0]; [destruct HD|].
      destruct HD as (-> & HD). destruct Hr2 as (Er2 & Hn0 & Hloc). split; [exact Er2|]. split; [exact Hn0|].
      intros i p Hi' Hp' z Hz. apply (Permutation_in _ (Hf' i p Hi' Hp')) in Hz.
      destruct (HD _ _ _ Hz) as (y & Hy & ->). auto.
  - (* shuffle *)
    pose proof (sited_additive _ _ _ _ Hc) as HE.
    cbn [meaning map List.concat]. rewrite app_nil_r.
    apply ready_net in Hrd as (d' & Hrd & Hcase); [|exact Ht]. apply ready_one in Hrd as (dc & -> & Fc).
    destruct Hcase as [(-> & -> & ->)|(h0 & plan & part' & num' & Hh & Hplan & _ & Hpart & ->)].
    + apply runs_node in Hrun as (fs & Hfs & Hf). apply Forall2_one in Hfs as (g & -> & Hg). cbn [map] in Hf.
      destruct (IH _ _ _ Fc Hn Hrem Hg) as [H1 _]. cbn [tparts partition_count]. split; [|eapply hash_one; eauto].
      apply (add_trans E HE) with (consumer_rows 1 (tparts dc) g); [|exact H1]. apply (add_perm E HE). eapply hash_each; eauto.
    + rewrite (Hpart ltac:(discriminate)) in Hrun |- *. cbn in Hh. injection Hh as <-. cbn in Hplan. injection Hplan as <-.
      cbn [runs] in Hrun. destruct Hrun as (g & Hg & Hobs). cbn [tparts partition_count] in Hobs |- *.
      destruct (boundary_shuffle h k tasks (tparts dc) n (fun t => SRepart (HashP h (k * n)) (SOther (tparts dc) (g t))) g f Hk ltac:(lia) (fun t => eq_refl) Hobs) as [H1 H2].
      destruct (IH _ true _ Fc Ht ltac:(discriminate) Hg) as [H3 _].
      split; [|exact H2]. apply (add_trans E HE) with (consumer_rows tasks (tparts dc) g); [|exact H3]. now apply (add_perm E HE).
  - (* coalesce *)
    pose proof (sited_additive _ _ _ _ Hc) as HE. cbn [meaning].
    apply ready_net in Hrd as (d' & Fc & Hcase); [|exact Ht].
    destruct Hcase as [(-> & -> & ->)|(h0 & plan & part' & num' & Hh & Hplan & Hcount & _ & ->)].
    + destruct (IH _ _ _ Fc Hn Hrem Hrun) as [H1 _]. split; [exact H1|exact Logic.I].
    + pose proof (coalescable_ready _ _ _ _ Hc Hco d' Fc) as Hl.
      cbn in Hh. injection Hh as <-. cbn in Hplan. rewrite (headless_strip d' Hl) in Hplan. injection Hplan as <-.
      apply headless_runs in Hrun as (g & Hg & Hobs); [|exact Hl].
      destruct (IH _ true _ Fc Ht ltac:(discriminate) Hg) as [H1 _]. split; [|exact Logic.I]. cbn [tparts].
      rewrite (boundary_gather part' tasks n (tparts d') g f); auto.
      rewrite Hcount, Hpart. f_equal. symmetry. eapply sited_tparts; eauto.
  - (* weaken *)
    destruct (IH _ _ _ Hrd Hn Hrem Hrun) as [H1 H2]. split; [auto|]. destruct HD as [-> | ->]; [exact H2|exact Logic.I].
Qed.

End Ready.

(** * On one node *)

Section Plain.
Context {row : Type}.
Notation tree := (tree row).
Notation table := (nat -> nat -> list row).

Lemma plain_parts (cfg : settings row) n t E D : sited cfg n t E D ->
  tparts (without_boundaries t) <= tparts t /\ (1 <= tparts t -> 1 <= tparts (without_boundaries t)).
Proof.
  induction 1; cbn [without_boundaries tparts map nth partition_count]; auto.
  - destruct H as [H _]. rewrite H. auto.
  - clear H H0 H1. induction cs as [|c cs IH]; cbn [map]; [cbn; lia|]. unfold list_sum in *. cbn [fold_right].
    destruct (H2 c (or_introl eq_refl)) as [A1 A2]. destruct IH as [B1 B2]; [intros c' Hc'; apply H2; now right|]. lia.
  - destruct j as [[] a ty|ty|]; auto.
  - destruct j as [[] a ty|ty|]; auto.
  - rewrite H2. destruct IHsited as [A1 A2]. split; [nia|intros; apply A2; nia].
Qed.

Lemma plain_one (cfg : settings row) n t E D : sited cfg n t E D -> tparts t = 1 -> tparts (without_boundaries t) = 1.
Proof. intros H H1. apply plain_parts in H. lia. Qed.

Lemma plain_scan n (l : leaf_node row) : site_scan single_node n (LScan (plain_leaf l)) \/ n <> 1.
Proof.
  destruct (Nat.eq_dec n 1) as [->|]; [left|auto]. split; [reflexivity|]. intros q Hq. cbn in Hq. subst q.
  eexists. split; [reflexivity|]. split; [reflexivity|]. intros remote f _ (fs & F & Hf). inversion F; subst. clear F.
  cbn [node_runs leaf_parts leaf_runs] in Hf. unfold all_rows, consumer_rows, ExecSpec.scan_rows. cbn [tparts leaf_parts seq flat_map].
  rewrite app_nil_r. apply Permutation_refl'. apply flat_map_ext_in. intros p Hp. apply in_seq in Hp.
  rewrite (Hf 0 p ltac:(lia) ltac:(lia)). reflexivity.
Qed.

Lemma plain_sited (cfg : settings row) n t E D : sited cfg n t E D -> sited single_node 1 (without_boundaries t) E D.
Proof.
  induction 1; cbn [without_boundaries map]; try (econstructor; eauto; fail).
  - apply si_leaf. destruct (plain_scan 1 l) as [Hp|Hp]; [exact Hp|now destruct Hp].
  - apply si_union; auto; [now destruct cs|]. intros c Hc. apply in_map_iff in Hc as (c' & <- & Hc'). auto.
  - eapply si_whole; eauto. eapply plain_one; eauto.
  - eapply si_collect; eauto. eapply plain_one; eauto.
  - eapply (si_collect single_node j c hl hr na (Node (KCoalesce spm None) [without_boundaries x])
      (without_boundaries r) Anyhow Dr); eauto; [eapply si_coalesce; eauto|congruence|].
    destruct D', Dr; auto.
  - eapply si_weaken; eauto. eapply sited_additive; eauto.
Qed.

Lemma plain_meaning (cfg : settings row) n t E D : sited cfg n t E D -> meaning (without_boundaries t) = meaning t.
Proof.
  assert (G : forall t : tree, (forall k cs, t = Node k cs -> True) -> True) by auto. clear G.
  induction 1; cbn [without_boundaries map]; auto;
    try (cbn [meaning map]; now rewrite IHsited).
  - cbn [meaning]. f_equal. rewrite map_map. apply map_ext_in. auto.
  - cbn [meaning map]. now rewrite IHsited1, IHsited2.
  - cbn [meaning map]. now rewrite IHsited1, IHsited2.
  - cbn [meaning map]. cbn [List.concat]. now rewrite IHsited1, IHsited2, !app_nil_r.
Qed.

Lemma plain_ready (cfg : settings row) n t E D : sited cfg n t E D ->
  ready single_node 1 (without_boundaries t) (without_boundaries t).
Proof.
  intros H.
  assert (G : scale_leaves single_node (without_boundaries t) 1 = Ok (without_boundaries t) /\
              forall id, prepare single_node (without_boundaries t) 1 id = Ok (without_boundaries t, id)).
  { induction H; cbn [without_boundaries map]; auto;
      try (destruct IHsited as [A1 A2]; split; [cbn [scale_leaves seqM mapM map]; unfold seqM; cbn [map mapM]; rewrite A1; reflexivity
                                               |intros id; cbn [prepare map seqS]; rewrite A2; reflexivity]);
      try (destruct IHsited1 as [A1 A2]; destruct IHsited2 as [B1 B2]; split;
             [cbn [scale_leaves map]; unfold seqM; cbn [map mapM]; rewrite A1; cbn [bind]; rewrite B1; reflexivity
             |intros id; cbn [prepare map seqS]; rewrite A2; cbn [bind]; rewrite B2; reflexivity]).
    - destruct cs as [|c0 cs]; [now destruct H|]. 
      assert (S : forall l : list tree, (forall c, In c l -> scale_leaves single_node (without_boundaries c) 1 = Ok (without_boundaries c)) ->
        seqM (map (fun c => scale_leaves single_node c 1) (map without_boundaries l)) = Ok (map without_boundaries l)).
      { induction l as [|c l IHl]; intros Hl; [reflexivity|]. cbn [map]. unfold seqM in *. cbn [mapM].
        rewrite (Hl c (or_introl eq_refl)). cbn [bind]. rewrite IHl; [reflexivity|]. intros c' Hc'. apply Hl. now right. }
      assert (P : forall (l : list tree) id, (forall c, In c l -> forall id, prepare single_node (without_boundaries c) 1 id = Ok (without_boundaries c, id)) ->
        seqS (map (fun c => prepare single_node c 1) (map without_boundaries l)) id = Ok (map without_boundaries l, id)).
      { induction l as [|c l IHl]; intros id Hl; [reflexivity|]. cbn [map seqS].
        rewrite (Hl c (or_introl eq_refl)). cbn [bind]. rewrite IHl; [reflexivity|]. intros c' Hc'. apply Hl. now right. }
      split.
      + cbn [scale_leaves map]. change (without_boundaries c0 :: map without_boundaries cs) with (map without_boundaries (c0 :: cs)).
        change (scale_leaves single_node (without_boundaries c0) 1 :: map (fun c => scale_leaves single_node c 1) (map without_boundaries cs))
          with (map (fun c => scale_leaves single_node c 1) (map without_boundaries (c0 :: cs))).
        rewrite S; [reflexivity|]. intros c Hc. apply H2, Hc.
      + intros id. cbn [prepare]. rewrite P; [reflexivity|]. intros c Hc. apply H2, Hc. }
  destruct G as [G1 G2]. exists (without_boundaries t), 0, 0. auto.
Qed.

(** A plan without boundaries, executed on one node, yields its meaning. *)
Lemma plain_rows (cfg : settings row) n t D (g : table) : sited cfg n t (@Permutation row) D ->
  runs false (without_boundaries t) 1 g -> Permutation (all_rows (without_boundaries t) 1 g) (meaning t).
Proof.
  intros H Hr. rewrite <- (plain_meaning cfg n t _ _ H).
  exact (proj1 (sited_sound single_node 1 _ _ _ (plain_sited cfg n t _ _ H) _ false g (plain_ready cfg n t _ _ H)
    (le_n 1) (fun _ => eq_refl) Hr)).
Qed.

(** ** Limits are not pushed *)

Lemma sited_no_fetch (cfg : settings row) n t E D : sited cfg n t E D -> forall d, ready cfg n t d -> no_fetch d.
Proof.
  induction 1; intros d Hd; auto;
    try (apply ready_one in Hd as (d' & -> & Hd); apply no_fetch_node; split; [first [reflexivity|destruct o as [| | | ? []| |]; try discriminate; reflexivity]|intros c' [<-|[]]; auto]; fail).
  - apply ready_leaf in Hd as (q & Hq & Hd). destruct H as [_ H]. destruct (H q Hq) as (l' & -> & _).
    rewrite (Hd l' eq_refl). apply no_fetch_node. split; [reflexivity|intros c []].
  - apply ready_node in Hd as (ds & -> & F); [|assumption]. apply no_fetch_node. split; [reflexivity|].
    intros c Hc. destruct (Forall2_in_r _ _ _ F c Hc) as (x & Hx & Hr). eapply H2; eauto.
  - apply ready_node in Hd as (ds & -> & F); [|discriminate]. apply Forall2_two in F as (dl & dr & -> & Fl & Fr).
    apply no_fetch_node. split; [reflexivity|]. intros x [<-|[<-|[]]]; auto.
  - apply ready_node in Hd as (ds & -> & F); [|discriminate]. apply Forall2_two in F as (dl & dr & -> & Fl & Fr).
    apply no_fetch_node. split; [reflexivity|]. intros x [<-|[<-|[]]]; auto.
  - apply ready_node in Hd as (ds & -> & F); [|discriminate]. apply Forall2_two in F as (dl & dr & -> & Fl & Fr).
    apply ready_one in Fl as (dn & -> & Fl).
    apply no_fetch_node. split; [reflexivity|]. intros y [<-|[<-|[]]]; auto.
    apply no_fetch_node. split; [reflexivity|]. intros y [<-|[]].
    apply ready_net in Fl as (d' & Hd & Fl); [|assumption]. apply ready_one in Hd as (d'' & -> & Hd).
    assert (Hb : no_fetch (Node (KBcast 1) [d''])).
    { apply no_fetch_node. split; [reflexivity|]. intros y [<-|[]]. auto. }
    destruct Fl as [(-> & -> & ->)|(h0 & plan & part' & num' & _ & Hin & _ & _ & ->)]; [exact Hb|].
    split; [reflexivity|]. eapply insert_head_no_fetch; eauto.
  - apply ready_net in Hd as (d' & Hd & Fl); [|assumption]. apply ready_one in Hd as (d'' & -> & Hd).
    assert (Hb : no_fetch (Node (KRepart (HashP h k)) [d''])).
    { apply no_fetch_node. split; [reflexivity|]. intros y [<-|[]]. auto. }
    destruct Fl as [(-> & -> & ->)|(h0 & plan & part' & num' & _ & Hin & _ & _ & ->)]; [exact Hb|].
    split; [reflexivity|]. eapply insert_head_no_fetch; eauto.
  - apply ready_net in Hd as (d' & Hd & Fl); [|assumption].
    destruct Fl as [(-> & -> & ->)|(h0 & plan & part' & num' & _ & Hin & _ & _ & ->)]; [auto|].
    split; [reflexivity|]. eapply insert_head_no_fetch; eauto.
Qed.

End Plain.

(** ** Scans *)

Section Scans.
Context {row : Type}.
Notation tree := (tree row).
Variable cfg : settings row.

(** A scan split by a handler into as many variants as tasks, with the scan's partition count. *)
Lemma variants_site n (l : leaf row) :
  match scale_up_leaf cfg (Node (KLeaf (LScan l)) []) n with
  | None => n = 1
  | Some (Ok (Node (KLeaf (LTasks d)) [])) =>
      dle_original d = l /\ lf_parts l = dle_parts d /\ List.length (dle_variants d) = n /\
      (forall v, In v (dle_variants d) -> lf_parts v = dle_parts d) /\
      exists rows, mapM leaf_rows (dle_variants d) = Ok rows /\ Permutation (List.concat rows) (ExecSpec.scan_rows (LScan l))
  | Some (Ok _) => False
  | Some _ => True
  end -> site_scan cfg n (LScan l).
Proof.
  intros H. split; [reflexivity|]. intros q Hsc. unfold scaled in Hsc.
  destruct (scale_up_leaf cfg (Node (KLeaf (LScan l)) []) n) as [r|].
  - subst r. destruct q as [[[|d]| | | | | |] []| |]; try (now destruct H). destruct H as (Ho & Hp & Hl & Hv & rows & Hr & HP).
    exists (LTasks d). split; [reflexivity|]. split; [cbn; congruence|].
    intros remote f Hn (fs & F & R). inversion F; subst fs; clear F. cbn [node_runs leaf_parts] in R.
    unfold all_rows, consumer_rows in *. cbn [tparts leaf_parts]. destruct remote.
    + rewrite <- HP, (variants_rows _ _ (dle_parts d) Hr Hv f 0), Hl; [reflexivity|].
      intros i v Hi p Hpp. assert (Hlt : i < n) by (rewrite <- Hl; apply nth_error_Some; congruence).
      destruct (R i p Hlt Hpp) as (v' & Hv' & Hx). unfold dle_to_task_specialized in Hv'. cbn [task_index] in Hv'. rewrite Hi in Hv'. injection Hv' as <-. exact Hx.
    + rewrite (Hn eq_refl) in *. cbn [flat_map seq]. rewrite app_nil_r. rewrite <- Hp. apply Permutation_refl'. apply original_rows.
      intros p Hpp. rewrite Hp in Hpp. specialize (R 0 p Nat.lt_0_1 Hpp). cbn in R. now rewrite Ho in R.
  - subst q n. exists (LScan l). split; [reflexivity|]. split; [reflexivity|].
    intros remote f _ (fs & F & R). inversion F; subst fs; clear F. cbn [node_runs leaf_parts leaf_runs] in R.
    unfold all_rows, consumer_rows. cbn [tparts leaf_parts].
    cbn [flat_map seq]. rewrite app_nil_r. apply Permutation_refl'. apply original_rows. intros p Hpp. exact (R 0 p Nat.lt_0_1 Hpp).
Qed.

Lemma file_scan_site n partitioner schema (groups : list (list (list row))) P preset :
  (forall n gs, partitioner n groups = Some gs -> Permutation (group_rows gs) (group_rows groups)) ->
  (forall s, scale_up_leaf cfg (Node (KLeaf (LScan (scan schema groups))) []) s =
    Some (match file_scan_scale_up partitioner schema groups P preset s with
          | Ok d => Ok (Node (KLeaf (LTasks d)) [])
          | Err e => Err e
          | Panic e => Panic e
          end)) ->
  (forall d, file_scan_scale_up partitioner schema groups P preset n = Ok d -> dle_parts d = List.length groups) ->
  site_scan cfg n (LScan (scan schema groups)).
Proof.
  intros Hpart Hup Hparts. apply variants_site. rewrite Hup.
  destruct (file_scan_scale_up partitioner schema groups P preset n) as [d| |] eqn:E; [|exact Logic.I|exact Logic.I].
  destruct (C22_scaled_scan_reads_once row partitioner schema groups P preset n d E Hpart) as (Hl & Hv & rows & Hr & HP).
  split. { unfold file_scan_scale_up in E. destruct (if preset then _ else _); cbn [bind] in E; try discriminate.
    destruct (deal _ _ _ _); cbn [bind] in E; try discriminate. now apply dle_try_new_inv in E as (_ & E & _). }
  split; [symmetry; cbn; eauto|]. split; [exact Hl|]. split; [exact Hv|]. exists rows. split; [exact Hr|]. rewrite HP.
  apply Permutation_refl'. pose proof (EventsProofs.scan_rows schema groups) as Hsr.
  rewrite (leaf_rows_parts _ _ (fun p => match nth_error groups p with Some g => List.concat g | None => [] end) Hsr).
  - symmetry. apply flat_map_ext_in. intros p Hp. cbn. destruct (nth_error groups p); reflexivity.
  - cbn. intros p Hp. destruct (nth_error groups p) eqn:En; [reflexivity|]. apply nth_error_None in En. lia.
Qed.
End Scans.
