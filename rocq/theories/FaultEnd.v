(** The plans of the planner read all of their inputs. *)
From Verif Require Import Base NetModel NetSpec NetProofs CiuModel CiuSpec CiuProofs EventsModel EventsSpec EventsProofs JoinModel JoinSpec PlannerModel
  PlannerSpec PlannerProofs ExecModel ExecSpec ExecProofs ExecPasses ExecEnd OrderModel OrderProofs FaultModel FaultProofs.

Section Deploy.
Context {row : Type}.
Notation tree := (tree row).
Variable cfg : settings row.
Variable most : nat.
Variable pr : bool.
Notation Q := (within_limits cfg most).
Notation deployed := (deployed cfg Q).
Notation dchild := (dchild cfg Q).
Notation inv := (inv cfg most).
Notation cinv := (cinv cfg most).
Notation faithful := (faithful_scan cfg most).
Notation red := (red pr).

Definition well (p : tree) : Prop :=
  forall head rem s n d, deployed p s n d -> inv head rem s n p -> placed cfg most head p -> every_scan faithful p ->
    well_cut (red d) n.

Lemma well_cut_net b part q num tasks (plan : tree) n : headless plan ->
  covers b part tasks (tparts plan) n -> well_cut plan tasks -> well_cut (Net b part q num tasks plan) n.
Proof. destruct plan as [[] cs| |]; cbn [headless]; intros Hh H1 H2; try contradiction; split; assumption. Qed.

Lemma well_child below c E D : typed pr c E D -> well c ->
  forall head rem s n d, dchild below c (deployed c) s n d -> cinv below head rem s n c ->
    placed cfg most (match cut below c with None => head | Some _ => false end) c ->
    every_scan faithful c -> (below = true -> is_round_robin c = false) -> well_cut (red d) n.
Proof.
  intros Ht HW head rem s n d H Hc Hp Hs Hrr. unfold dchild in H. destruct (cut below c) as [b|] eqn:Ec.
  2: { destruct Hc as (Hi & _). exact (HW head rem s n d H (Hi Ec) Hp Hs). }
  destruct Hc as (_ & Hn & Hrem & Hco). destruct H as (tasks & i & Hq & Hi & H).
  destruct (elided cfg n tasks) eqn:Eone.
  - subst d. apply elided_true in Eone as [-> ->]. exact (HW false rem 1 1 i Hi (inv_elided cfg most rem c Hq) Hp Hs).
  - clear Eone. destruct H as (num & h & plan & Hh & Hplan & ->).
    pose proof (HW false true tasks tasks i Hi (inv_stage cfg most c tasks Hq) Hp Hs) as Hwi.
    destruct b.
    + assert (Hhash : is_hash_repart c = true).
      { unfold cut in Ec. destruct (is_hash_repart c); [reflexivity|]. destruct (is_bcast c), below; discriminate. }
      assert (Hk : forall hh k c', c = Node (KRepart (HashP hh k)) [c'] -> 0 < k).
      { clear - Ht. induction Ht; intros hh k' c' E0; try discriminate; [now injection E0 as <- <- <-|eauto]. }
      destruct (hash_node pr c E D Ht Hhash) as (hh & k & c' & Ec'). specialize (Hk _ _ _ Ec'). subst c.
      apply deployed_node in Hi as (ds & -> & F); [|discriminate]. apply Forall2_one in F as (i' & -> & F).
      cbn in Hh. injection Hh as <-. cbn in Hplan. injection Hplan as <-. cbn [boundary_partitioning tpartitioning].
      rewrite red_node in Hwi. cbn [map] in Hwi. apply well_cut_node with (c := red i') in Hwi; [|now left].
      destruct (red_shuffle pr (HashP hh k) (query cfg) num tasks hh (k * n) i') as [->|(req & a & ds & _ & _ & ->)].
      * split; [|exact Hwi]. split; [lia|exact Hk].
      * split; [split; [lia|exact Hk]|]. apply well_cut_node. intros ? [<-|[]]. apply well_cut_node. now intros ? [<-|[]].
    + assert (Hb : is_bcast c = true).
      { unfold cut in Ec. destruct (is_hash_repart c); [discriminate|]. destruct (is_bcast c); [reflexivity|]. destruct below; discriminate. }
      rewrite (typed_not_bcast pr c E D Ht) in Hb. discriminate.
    + assert (Hcut : is_hash_repart c = false /\ below = true).
      { unfold cut in Ec. destruct (is_hash_repart c); [discriminate|]. destruct (is_bcast c); [discriminate|].
        destruct below; [auto|discriminate]. }
      destruct Hcut as [Hhash ->]. specialize (Hco Ec). subst n.
      pose proof (headless_deployed cfg most pr c E D Ht Hhash (Hrr eq_refl) false true tasks tasks i Hs (inv_stage cfg most c tasks Hq) Hi) as Hl.
      cbn in Hh. injection Hh as <-. cbn in Hplan. rewrite (headless_strip i Hl) in Hplan. injection Hplan as <-.
      rewrite (headless_net pr _ _ _ _ _ i Hl). apply well_cut_net; [now apply headless_red| |exact Hwi].
      rewrite red_tparts. split; [lia|]. cbn [covers]. rewrite (boundary_partitioning_count BCoalesce i tasks).
      destruct Hq as [Hq _]. unfold div_ceil. rewrite Nat.add_sub, Nat.div_1_r, Nat.max_l by lia. reflexivity.
Qed.

(** The build side of a join. *)
Lemma well_build x l Dx : typed pr x (@Permutation row) Dx -> well x -> build_side l x ->
  forall head rem s n d, dchild false l (deployed l) s n d -> cinv false head rem s n l ->
    placed cfg most (match cut false l with None => head | Some _ => false end) l ->
    every_scan faithful l -> well_cut (red d) n.
Proof.
  intros Hx HW Hb head rem s n d H Hc Hp Hs. destruct Hb as [->| ->].
  { eapply well_child; eauto. discriminate. }
  unfold dchild in H. cbn [cut is_hash_repart is_bcast] in H, Hp. destruct Hc as (Hinv & Hn & Hrem & _).
  apply deployed_node in H as (ds & -> & F); [|discriminate]. apply Forall2_one in F as (db & -> & F). cbn [is_coalesce] in F.
  rewrite red_node. cbn [map]. apply well_cut_node. intros ? [<-|[]].
  assert (Hpx : placed cfg most false (Node (KBcast 1) [x])).
  { pose proof (placed_node cfg most _ _ _ Hp (Node (KBcast 1) [x]) (or_introl eq_refl)) as H'. exact H'. }
  assert (Hsx : every_scan faithful x).
  { refine (scans_node _ (KBcast 1) [x] ltac:(discriminate) _ x (or_introl eq_refl)).
    refine (scans_node _ (KCoalesce None None) [_] ltac:(discriminate) Hs _ (or_introl eq_refl)). }
  pose proof (placed_node cfg most _ _ _ Hpx x (or_introl eq_refl)) as Hpx'. cbn [is_coalesce] in Hpx'.
  unfold dchild in F. cbn [cut is_hash_repart is_bcast] in F. destruct F as (tasks & ib & Hq & Hib & F).
  apply deployed_node in Hib as (ds & -> & Fx); [|discriminate]. apply Forall2_one in Fx as (ix & -> & Fx). cbn [is_coalesce] in Fx.
  destruct (elided cfg n tasks) eqn:Eone.
  - subst db. apply elided_true in Eone as [-> ->]. rewrite red_node. cbn [map]. apply well_cut_node. intros ? [<-|[]].
    eapply (well_child false x _ _ Hx HW false rem 1 1 ix Fx); auto; [|discriminate].
    refine (inv_child cfg most false rem 1 1 (KBcast 1) [x] x _ (or_introl eq_refl)). now apply inv_elided.
  - destruct F as (num & h & plan & Hh & Hplan & ->). cbn in Hh. injection Hh as <-. cbn in Hplan.
    destruct (Nat.eqb_spec (tparts ix) 0) as [|Hpos]; [discriminate|]. injection Hplan as <-.
    cbn [boundary_partitioning tparts map nth]. set (k := tparts ix * 1 * n / tparts ix). clearbody k.
    assert (Er : red (Net BBroadcast (UnknownP (tparts ix * 1)) (query cfg) num tasks (Node (KBcast k) [ix])) =
             Net BBroadcast (UnknownP (tparts ix * 1)) (query cfg) num tasks (Node (KBcast k) [red ix]))
      by (unfold ExecProofs.red; destruct pr; reflexivity).
    rewrite Er. split; [split; [lia|rewrite red_tparts; cbn; lia]|].
    eapply (well_child false x _ _ Hx HW false true tasks tasks ix Fx); auto; [|discriminate].
    refine (inv_child cfg most false true tasks tasks (KBcast 1) [x] x _ (or_introl eq_refl)). now apply inv_stage.
Qed.

Lemma unary_well k c E D : typed pr c E D -> well c -> (is_coalesce (Node k [c]) = true -> is_round_robin c = false) -> well (Node k [c]).
Proof.
  intros Ht HW Hrr head rem s n d H Hi Hp Hs. apply deployed_node in H as (ds & -> & F); [|discriminate].
  apply Forall2_one in F as (d' & -> & F). rewrite red_node. cbn [map]. apply well_cut_node. intros ? [<-|[]].
  eapply (well_child _ c E D Ht HW head rem s n d' F); [exact (inv_child cfg most _ _ _ _ _ _ _ Hi (or_introl eq_refl))| | |exact Hrr].
  - exact (placed_node cfg most _ _ _ Hp c (or_introl eq_refl)).
  - refine (scans_node _ k [c] ltac:(discriminate) Hs c (or_introl eq_refl)).
Qed.

Theorem typed_well (p : tree) E D : typed pr p E D -> well p.
Proof.
  induction 1 as [l|h k c E D Hk Hc IH|k c E D Hk Hc IH|spm c E D Hc IH Hr|cs E Hne Ha Hc IH|w m cs E Hne Ha Hc IH
    |o c E E' D D' Hc IH Ho Ha Hre Hd Hcar|o c h k E E' D' Hc IH Ho Ha Hre Hd Hcar|o c E E' D Hc IH Ho Ha Hre Hw Hd
    |a ty c hl hr na k l r D' Hl IHl Hr IHr Hk HD|j c hl hr na l x r Dl Dr D' Hx IHx Hr IHr Hb Hj Hk Hna HD
    |p E E' D D' Hp IH Ha He HD]; try (now eapply unary_well; eauto); [| | | | |exact IH]; intros head rem s n d H Hi Hp Hs.
  - cbn in H. destruct Hi as (H1 & H2 & _). destruct (Hs s d H1 H2 H) as (l' & -> & _). rewrite red_node. apply well_cut_node. intros c [].
  - apply deployed_node in H as (ds & -> & F); [|exact Hne]. rewrite red_node. apply well_cut_node. intros d' Hd'.
    apply in_map_iff in Hd' as (d & <- & Hd). destruct (Forall2_in_r _ _ _ F d Hd) as (c & Hin & Hcd).
    eapply (well_child _ c E Anyhow (Hc c Hin) (IH c Hin) head rem s n d Hcd); [exact (inv_child cfg most _ _ _ _ _ _ _ Hi Hin)| | |discriminate].
    + exact (placed_node cfg most _ _ _ Hp c Hin).
    + exact (scans_node _ _ _ Hne Hs c Hin).
  - apply deployed_ciu in H as (w' & m' & ds & -> & Es & Hg & Lw & HA & L & F); [|exact Hne].
    destruct Hp as [Hhead Hpl]. rewrite Forall_map, Forall_forall in Hpl.
    assert (Hns : n = s).
    { destruct Hi as (H1 & _ & _ & _ & H5 & H6). destruct Hhead as [Hh|Hh]; [auto|].
      destruct head; [rewrite (H6 eq_refl); lia|auto]. }
    subst s. rewrite red_ciu. apply well_cut_ciu. rewrite map_length. split; [exact Es|]. split; [exact Hg|]. split; [lia|].
    intros i d' Hd'. rewrite nth_error_map in Hd'. destruct (nth_error ds i) as [di|] eqn:Ed; [|discriminate]. injection Hd' as <-.
    assert (Hlt : i < List.length ds) by (apply nth_error_Some; congruence).
    destruct (nth_error cs i) as [c|] eqn:Ec; [|apply nth_error_None in Ec; lia]. pose proof (nth_error_In _ _ Ec) as Hin.
    rewrite L. set (k := nth i (map_task_counts (List.length cs) m') 0) in *.
    assert (Hk1 : 1 <= k <= n /\ n <= most).
    { destruct (count_of_good w' n m' i Es Hg ltac:(lia)) as [E1 E2]. rewrite Lw in E1. unfold k. rewrite E1.
      destruct Hi as ((_ & H1) & _). split; [exact E2|exact H1]. }
    assert (Hrem : rem = false -> k = 1).
    { intros Erem. destruct Hi as (_ & _ & H3 & _). specialize (H3 Erem). lia. }
    assert (Hhk : head = true -> k = 1).
    { intros Eh. destruct Hi as (_ & _ & _ & _ & _ & H6). specialize (H6 Eh). lia. }
    specialize (F i c di Ec Ed). cbn zeta in F. fold k in F.
    eapply (well_child false c E Anyhow (Hc c Hin) (IH c Hin) head rem k k di F); [|exact (Hpl c Hin)|exact (scans_ciu _ _ _ _ Hs c Hin)|discriminate].
    split; [|split; [lia|split; [exact Hrem|]]].
    + intros Ecut. destruct (HA i c Ec Ecut) as [H1 H2]. fold k in H1, H2. repeat split; auto; lia.
    + unfold cut. destruct (is_hash_repart c), (is_bcast c); discriminate.
  - apply deployed_node in H as (ds & -> & F); [|discriminate]. apply Forall2_two in F as (dl & dr & -> & Fl & Fr).
    rewrite red_node. cbn [map]. apply well_cut_node. intros ? [<-|[<-|[]]].
    + eapply (well_child false l _ _ Hl IHl head rem s n dl Fl); [exact (inv_child cfg most _ _ _ _ _ _ _ Hi (or_introl eq_refl))| | |discriminate].
      * exact (placed_node cfg most _ _ _ Hp l (or_introl eq_refl)).
      * eapply scans_node; [|exact Hs|]; [discriminate|now left].
    + eapply (well_child false r _ _ Hr IHr head rem s n dr Fr); [exact (inv_child cfg most _ _ _ _ _ _ _ Hi (or_intror (or_introl eq_refl)))| | |discriminate].
      * exact (placed_node cfg most _ _ _ Hp r (or_intror (or_introl eq_refl))).
      * eapply scans_node; [|exact Hs|]; [discriminate|right; now left].
  - apply deployed_node in H as (ds & -> & F); [|discriminate]. apply Forall2_two in F as (dl & dr & -> & Fl & Fr).
    rewrite red_node. cbn [map]. apply well_cut_node. intros ? [<-|[<-|[]]].
    + eapply (well_build x l Dl Hx IHx Hb head rem s n dl Fl); [exact (inv_child cfg most _ _ _ _ _ _ _ Hi (or_introl eq_refl))| |].
      * exact (placed_node cfg most _ _ _ Hp l (or_introl eq_refl)).
      * eapply scans_node; [|exact Hs|]; [discriminate|now left].
    + eapply (well_child false r _ _ Hr IHr head rem s n dr Fr); [exact (inv_child cfg most _ _ _ _ _ _ _ Hi (or_intror (or_introl eq_refl)))| | |discriminate].
      * exact (placed_node cfg most _ _ _ Hp r (or_intror (or_introl eq_refl))).
      * eapply scans_node; [|exact Hs|]; [discriminate|right; now left].
Qed.
End Deploy.

Lemma distributed_well {row : Type} cfg most (t p : tree row) D (d : tree row) :
  typed (partial_reduce cfg) t (@Permutation row) D -> ordinary t -> fed t -> is_round_robin t = false ->
  every_scan (faithful_scan cfg most) t -> 0 < target_partitions cfg -> dynamic_task_count cfg = false ->
  max_tasks cfg = Ok most -> sane_handlers cfg -> leaf_handlers cfg -> fits most t ->
  before_injection cfg t = Ok p -> ops_placed cfg most (in_head p) p ->
  distribute cfg t = Ok (TDistributed d) -> well_cut d 1.
Proof.
  intros Ht Ho Hf Hr Hs Htp Hdyn Hmost Hsane Hleaf Hfits Hp Hplaced H.
  destruct (distribute_inv cfg most t _ (ordinary_no_net t Ho) Hdyn Hfits H)
    as (p' & q & a & d1 & id & Hp' & Hq & Hd1 & Np & Fp & Hres).
  assert (p' = p) as -> by congruence. clear Hp'.
  destruct Hres as [[_ Hres]|(_ & d' & Ha & Hres)]; [discriminate|]. injection Hres as <-.
  destruct (before_keeps cfg (partial_reduce cfg) Htp (faithful_scan cfg most) t p D Ht Ho Hf Hr Hp) as ((D' & T) & M & F2 & S).
  destruct (inject_deployed cfg most Hmost Hsane Hleaf p q a d1 id Hdyn Np Fp Hq Hd1) as [HW HD].
  assert (Hn : no_fetch d1).
  { eapply dchild_no_fetch; [|exact HD]. intros. eapply deployed_no_fetch; eauto. eapply typed_no_fetch; eauto. }
  unfold after_prepare in Ha. fold (red (partial_reduce cfg) d1) in Ha.
  rewrite push_fetch_id in Ha.
  2: { unfold red. destruct (partial_reduce cfg); [now apply reduce_no_fetch|exact Hn]. }
  injection Ha as <-.
  eapply (well_child cfg most (partial_reduce cfg) false p _ _ T (typed_well cfg most _ p _ _ T) true false (as_usize a) 1 d1 HD).
  - split; [|split; [lia|split; [auto|unfold cut; destruct (is_hash_repart p), (is_bcast p); discriminate]]].
    intros Ec. destruct (HW Ec) as [Hw1 Hw2]. repeat split; auto; try lia; discriminate.
  - apply placed_of; auto.
  - auto.
  - discriminate.
Qed.
