(** Proofs: limits in distributed plans. *)
From Verif Require Import Base NetModel NetSpec NetProofs CiuModel EventsModel JoinModel JoinSpec PlannerModel PlannerSpec PlannerProofs
  ExecModel ExecSpec ExecProofs ExecPasses ExecEnd FetchSpec FetchProofs.
From Coq Require Import Sorting.Sorted NArith.

Section End_.
Context {row : Type}.
Notation tree := (tree row).
Notation table := (nat -> nat -> list row).

(** ** Plans made by the planner are limitable *)

Lemma plain_node k (cs : list tree) : plain_coalesces (Node k cs) <->
  match k with KCoalesce _ _ => Forall (fun c => other_repart c = false) cs | _ => True end /\
  forall c, In c cs -> plain_coalesces c.
Proof. cbn [plain_coalesces]. rewrite Forall_map, (Forall_forall (fun x => plain_coalesces x)). reflexivity. Qed.
Lemma plain_ciu w m (cs : list tree) : plain_coalesces (Ciu w m cs) <-> forall c, In c cs -> plain_coalesces c.
Proof. cbn [plain_coalesces]. rewrite Forall_map, (Forall_forall (fun x => plain_coalesces x)). reflexivity. Qed.

Lemma strip_limitable (t : tree) : limitable t -> limitable (strip t).
Proof.
  intros H. destruct t as [[] [|c []]| |]; cbn [strip]; try exact H; apply limitable_node in H as [_ H]; apply H; now left.
Qed.
Lemma insert_head_limitable (h : head row) t t' : limitable t -> insert_head_node h t = Ok t' -> limitable t'.
Proof.
  intros H E. apply strip_limitable in H.
  destruct (insert_head_shape h t t' E) as [->|[(n & ->)|(p & ->)]]; [exact H| |];
    apply limitable_node; (split; [exact Logic.I|]); now intros ? [<-|[]].
Qed.

Section Cfg.
Variable cfg : settings row.
Variable Q : tree -> nat -> Prop.
Hypothesis Hleaf : leaf_handlers cfg.

Lemma deployed_root (p : tree) s n d : deployed cfg Q p s n d ->
  is_net_coalesce d = false /\ (is_hash_repart p = false -> is_bcast p = false -> other_repart p = false -> bare d = true).
Proof using Hleaf.
  assert (B : is_hash_repart p = false -> is_bcast p = false -> other_repart p = false -> bare p = true).
  { destruct p as [[|[]| | | | |] cs| |]; cbn; congruence. }
  assert (S : scaled cfg p s d -> (match p with Net _ _ _ _ _ _ => False | _ => True end) ->
    is_net_coalesce d = false /\ (is_hash_repart p = false -> is_bcast p = false -> other_repart p = false -> bare d = true)).
  { unfold scaled. destruct (scale_up_leaf cfg p s) as [r|] eqn:Es.
    - intros -> _. destruct (Hleaf p s d Es) as (l & ->). auto.
    - intros -> Hp. split; [destruct p; try reflexivity; contradiction|exact B]. }
  intros H. destruct p as [k cs|w m cs|]; [| |destruct H].
  - destruct cs as [|c cs]; [apply S; [exact H|exact Logic.I]|].
    apply deployed_node in H as (ds & -> & _); [|discriminate]. split; [reflexivity|].
    intros H1 H2 H3. specialize (B H1 H2 H3). destruct k; auto.
  - destruct cs as [|c cs]; [apply S; [exact H|exact Logic.I]|].
    apply deployed_ciu in H as (w' & m' & ds & -> & _); [|discriminate]. auto.
Qed.

Lemma dchild_limitable below (c : tree) s n d : (forall s n d, deployed cfg Q c s n d -> limitable d) ->
  (below = true -> other_repart c = false) -> dchild cfg Q below c (deployed cfg Q c) s n d ->
  limitable d /\ (below = false -> is_net_coalesce d = false).
Proof using Hleaf.
  intros IH Hb H. unfold dchild in H. destruct (cut below c) as [b|] eqn:Ec.
  2: { split; [eauto|]. intros _. exact (proj1 (deployed_root _ _ _ _ H)). }
  destruct H as (tasks & i & _ & Hi & H). destruct (elided cfg n tasks).
  - subst d. split; [eauto|]. intros _. exact (proj1 (deployed_root _ _ _ _ Hi)).
  - destruct H as (num & h & plan & Hh & Hplan & ->).
    assert (Hco : b = BCoalesce -> is_hash_repart c = false /\ is_bcast c = false /\ below = true).
    { intros ->. unfold cut in Ec. destruct (is_hash_repart c), (is_bcast c), below; try discriminate; auto. }
    split.
    + split; [|eapply insert_head_limitable; eauto]. intros Eb. destruct (Hco Eb) as (H1 & H2 & H3). subst b.
      cbn in Hh. injection Hh as <-. cbn in Hplan. injection Hplan as <-.
      pose proof (proj2 (deployed_root _ _ _ _ Hi) H1 H2 (Hb H3)) as HB.
      destruct i as [[] [|? []]| |]; cbn in HB |- *; congruence.
    + intros Ef. destruct b; try reflexivity. destruct (Hco eq_refl) as (_ & _ & ?). congruence.
Qed.

Lemma deployed_limitable (p : tree) : plain_coalesces p -> forall s n d, deployed cfg Q p s n d -> limitable d.
Proof using Hleaf.
  induction p as [k cs IH|w m cs IH|b part qi num tasks i IH] using tree_ind'; intros Hp s n d H; [| |destruct H];
    rewrite Forall_forall in IH.
  - destruct cs as [|c0 cs0].
    + cbn in H. unfold scaled in H. destruct (scale_up_leaf cfg _ s) as [r|] eqn:Es.
      * subst r. destruct (Hleaf _ s d Es) as (l & ->). now repeat constructor.
      * subst d. apply limitable_node. split; [|now intros ? []]. destruct k as [| | | | | |[]]; auto.
    + apply deployed_node in H as (ds & -> & F); [|discriminate]. apply plain_node in Hp as [Hk Hc].
      assert (G : forall d, In d ds -> limitable d /\ (is_coalesce (Node k (c0 :: cs0)) = false -> is_net_coalesce d = false)).
      { intros d Hd. destruct (Forall2_in_r _ _ _ F d Hd) as (c & Hin & Hdc).
        eapply dchild_limitable; [|  |exact Hdc]; [intros; eapply (IH c Hin); eauto|].
        intros E. destruct k; try discriminate. rewrite Forall_forall in Hk. auto. }
      apply limitable_node. split; [|intros d Hd; exact (proj1 (G d Hd))].
      destruct k as [| | | | | |[]]; auto. apply Forall_forall. intros d Hd. exact (proj2 (G d Hd) eq_refl).
  - destruct cs as [|c0 cs0].
    + cbn in H. unfold scaled in H. destruct (scale_up_leaf cfg _ s) as [r|] eqn:Es.
      * subst r. destruct (Hleaf _ s d Es) as (l & ->). now repeat constructor.
      * subst d. constructor.
    + pose proof (proj1 (plain_ciu _ _ _) Hp) as Hc.
      apply deployed_ciu in H as (w' & m' & ds & -> & _ & _ & _ & _ & L & F); [|discriminate]. apply limitable_ciu.
      intros d Hd. apply In_nth_error in Hd as (i & Hi).
      destruct (nth_error (c0 :: cs0) i) as [c|] eqn:Ec.
      * refine (proj1 (dchild_limitable false c _ _ d _ _ (F i c d Ec Hi))); [|discriminate].
        apply nth_error_In in Ec. intros. eapply (IH c Ec); eauto.
      * apply nth_error_None in Ec. assert (i < List.length ds) by (apply nth_error_Some; congruence). lia.
Qed.

End Cfg.

Lemma reduce_limitable (t : tree) : limitable t -> limitable (reduce_shuffles t).
Proof.
  induction t as [k cs IH|w m cs IH|b part q num tasks i IH] using tree_ind'; intros Ht.
  - apply limitable_node in Ht as [Hr Hc]. cbn [reduce_shuffles]. apply limitable_node. rewrite Forall_forall in IH. split.
    + destruct k as [| | | | | |[]]; auto. rewrite Forall_map. eapply Forall_impl; [|exact Hr]. cbn. intros c Hn.
      destruct c as [| |b part q num tasks i]; try reflexivity.
      destruct (reduce_net_agg b part q num tasks i) as [->|(a & ->)]; exact Hn.
    + intros c Hin. apply in_map_iff in Hin as (c0 & <- & Hin). auto.
  - pose proof (proj1 (limitable_ciu _ _ _) Ht) as Hc. cbn [reduce_shuffles]. apply limitable_ciu.
    intros c Hin. apply in_map_iff in Hin as (c0 & <- & Hin). rewrite Forall_forall in IH. auto.
  - destruct Ht as [Hb Hi]. specialize (IH Hi). destruct (reduce_net_agg b part q num tasks i) as [->|(a & ->)].
    + split; [|exact IH]. intros E. specialize (Hb E). destruct i as [k cs| |b' p' q' n' t' i]; try reflexivity.
      * destruct k; auto.
      * destruct (reduce_net_agg b' p' q' n' t' i) as [->|(a & ->)]; reflexivity.
    + split; [reflexivity|]. apply limitable_node. split; [exact Logic.I|]. now intros ? [<-|[]].
Qed.

Lemma red_limitable pr (t : tree) : limitable t -> limitable (red pr t).
Proof. unfold red. destruct pr; [apply reduce_limitable|auto]. Qed.

Lemma typed_plain pr (t : tree) E D : typed pr t E D -> plain_coalesces t.
Proof.
  induction 1; try assumption; try (apply plain_node; split; [exact Logic.I|]; now intros ? [<-|[]]).
  - now repeat constructor.
  - apply plain_node. split; [|now intros ? [<-|[]]]. constructor; [|constructor].
    clear -H H0. induction H; try reflexivity; try discriminate; auto.
  - apply plain_node. auto.
  - now apply plain_ciu.
  - apply plain_node. split; [exact Logic.I|]. now intros ? [<-|[<-|[]]].
  - apply plain_node. split; [exact Logic.I|]. intros ? [<-|[<-|[]]]; auto. destruct H1 as [->| ->]; auto.
    apply plain_node. split; [now repeat constructor|]. intros ? [<-|[]]. apply plain_node. split; [exact Logic.I|]. now intros ? [<-|[]].
Qed.

(** ** Reading a limited plan through the passes *)

(** Operators above a plan. *)
Fixpoint nest (ks : list (kind row)) (c : tree) : tree :=
  match ks with [] => c | k :: ks => Node k [nest ks c] end.
Definition top_kind (k : kind row) : Prop := match k with KCoalesce _ _ | KOp _ => True | _ => False end.
Definition tops (ks : list (kind row)) : Prop := Forall top_kind ks /\ forall x, tparts (nest ks x) <= 1.

Lemma normalize_nest cfg ks (c : tree) : Forall top_kind ks ->
  normalize cfg (nest ks c) = let* c' := normalize cfg c in Ok (nest ks c').
Proof.
  induction 1 as [|k ks Hk _ IH]; [cbn; now destruct (normalize cfg c)|]. cbn [nest].
  assert (E : normalize cfg (Node k [nest ks c]) = let* cs := seqM [normalize cfg (nest ks c)] in Ok (Node k cs)) by (destruct k; try contradiction; reflexivity).
  rewrite E, IH. cbn [seqM]. destruct (normalize cfg c); reflexivity.
Qed.
Lemma broadcasts_nest ks (c : tree) : Forall top_kind ks -> broadcasts (nest ks c) = nest ks (broadcasts c).
Proof.
  induction 1 as [|k ks Hk _ IH]; [reflexivity|]. cbn [nest]. rewrite <- IH. destruct k; try contradiction; reflexivity.
Qed.
Lemma isolate_nest ks (c : tree) : Forall top_kind ks -> isolate (nest ks c) = let* c' := isolate c in Ok (nest ks c').
Proof.
  induction 1 as [|k ks Hk _ IH]; [cbn; now destruct (isolate c)|]. cbn [nest].
  assert (E : isolate (Node k [nest ks c]) = let* cs := seqM [isolate (nest ks c)] in Ok (Node k cs)) by (destruct k; try contradiction; reflexivity).
  rewrite E, IH. cbn [seqM]. destruct (isolate c); reflexivity.
Qed.

(** The passes before the injection leave operators above a plan alone. *)
Lemma before_nest cfg ks (c t' : tree) : tops ks -> before_injection cfg (nest ks c) = Ok t' ->
  exists c', t' = nest ks c' /\ forall ks', tops ks' -> before_injection cfg (nest ks' c) = Ok (nest ks' c').
Proof.
  intros [Hk Hp] H. unfold before_injection in H. rewrite normalize_nest in H by exact Hk.
  destruct (normalize cfg c) as [c1| |] eqn:En; cbn [bind] in H; try discriminate.
  destruct (Nat.ltb_spec 1 (tparts (nest ks c1))) as [Hlt|_]; [specialize (Hp c1); lia|].
  assert (IB : forall ks', Forall top_kind ks' -> insert_broadcasts cfg (nest ks' c1) = nest ks' (insert_broadcasts cfg c1)).
  { intros ks' Hk'. unfold insert_broadcasts. destruct (broadcast_joins cfg); [now apply broadcasts_nest|reflexivity]. }
  rewrite (IB ks Hk) in H. unfold insert_unions in H.
  assert (IU : exists c', t' = nest ks c' /\ forall ks', Forall top_kind ks' -> insert_unions cfg (nest ks' (insert_broadcasts cfg c1)) = Ok (nest ks' c')).
  { unfold insert_unions. destruct (children_isolator_unions cfg).
    - rewrite isolate_nest in H by exact Hk. destruct (isolate (insert_broadcasts cfg c1)) as [c'| |] eqn:Ei; cbn [bind] in H; try discriminate.
      injection H as <-. exists c'. split; [reflexivity|]. intros ks' Hk'. rewrite isolate_nest by exact Hk'. now rewrite Ei.
    - injection H as <-. eauto. }
  destruct IU as (c' & -> & IU). exists c'. split; [reflexivity|]. intros ks' [Hk1 Hk2].
  unfold before_injection. rewrite normalize_nest by exact Hk1. rewrite En. cbn [bind].
  destruct (Nat.ltb_spec 1 (tparts (nest ks' c1))) as [Hlt|_]; [specialize (Hk2 c1); lia|].
  rewrite (IB ks' Hk1). now apply IU.
Qed.

Lemma nest_app ks ks' (c : tree) : nest (ks ++ ks') c = nest ks (nest ks' c).
Proof. induction ks as [|k ks IH]; [reflexivity|]. cbn. now rewrite IH. Qed.
Lemma nest_red pr ks (c : tree) : red pr (nest ks c) = nest ks (red pr c).
Proof. induction ks as [|k ks IH]; [reflexivity|]. cbn [nest]. rewrite red_node. cbn [map]. now rewrite IH. Qed.
Lemma nest_ordinary ks (c : tree) : Forall top_kind ks -> ordinary c -> ordinary (nest ks c).
Proof.
  induction 1 as [|k ks Hk _ IH]; [auto|]. intros H. cbn [nest]. destruct k; try contradiction;
    cbn; repeat constructor; auto.
Qed.

(** The limit operators above the gathered partitions. *)
Definition limits (ks : list (kind row)) : Prop := ks = [] \/ exists skip fetch, ks = [KOp (OGlobalLimit skip fetch)].
Lemma limits_tops ks spm need : limits ks -> tops (ks ++ [KCoalesce spm need]).
Proof. intros [->|(skip & fetch & ->)]; (split; [repeat constructor|]); intros x; cbn; lia. Qed.

Section Limits.
Variable cfg : settings row.
Variable most : nat.
Notation Q := (within_limits cfg most).
Notation pr := (partial_reduce cfg).
Hypothesis Hmost : max_tasks cfg = Ok most.
Hypothesis Hstatic : dynamic_task_count cfg = false.
Hypothesis Htarget : 0 < target_partitions cfg.
Hypothesis Hsane : sane_handlers cfg.
Hypothesis Hleaf : leaf_handlers cfg.

Lemma limits_deployed ks spm need (p0 d : tree) s : limits ks ->
  dchild cfg Q false (nest ks (Node (KCoalesce spm need) [p0])) (deployed cfg Q (nest ks (Node (KCoalesce spm need) [p0]))) s 1 d ->
  exists d0, d = nest ks (Node (KCoalesce spm need) [d0]) /\ dchild cfg Q true p0 (deployed cfg Q p0) s 1 d0.
Proof using.
  assert (G : forall d, deployed cfg Q (Node (KCoalesce spm need) [p0]) s 1 d ->
    exists d0, d = Node (KCoalesce spm need) [d0] /\ dchild cfg Q true p0 (deployed cfg Q p0) s 1 d0).
  { intros x H. apply deployed_node in H as (ds & -> & F); [|discriminate]. apply Forall2_one in F as (d0 & -> & F). eauto. }
  intros [->|(skip & fetch & ->)] H; cbn [nest] in *.
  - now apply G.
  - change (deployed cfg Q (Node (KOp (OGlobalLimit skip fetch)) [Node (KCoalesce spm need) [p0]]) s 1 d) in H.
    apply deployed_node in H as (ds & -> & F); [|discriminate]. apply Forall2_one in F as (d1 & -> & F).
    change (deployed cfg Q (Node (KCoalesce spm need) [p0]) s 1 d1) in F. apply G in F as (d0 & -> & F). eauto.
Qed.

Lemma gathered_rows r (p0 d0 : tree) E D s g : typed r p0 E D -> is_round_robin p0 = false -> placed cfg most false p0 ->
  every_scan (faithful_scan cfg most) p0 -> dchild cfg Q true p0 (deployed cfg Q p0) s 1 d0 -> runs false (red r d0) 1 g ->
  E (all_rows (red r d0) 1 g) (meaning p0).
Proof using Htarget.
  intros Ht Hr Hp Hs Hd Hg. unfold all_rows. rewrite red_tparts. destruct (typed_sound cfg most r p0 E D Ht) as [H1 H2].
  assert (Hc : cut true p0 <> None) by (unfold cut; destruct (is_hash_repart p0), (is_bcast p0); discriminate).
  refine (proj1 (child_sound cfg most r true p0 E D Ht H1 H2 true false s 1 d0 g Hd _ _ Hs (fun _ => Hr) Hg)).
  - split; [intros Ec; contradiction|]. repeat split; lia.
  - destruct (cut true p0); [exact Hp|contradiction].
Qed.

(** Every execution of a distributed plan with a limit on top is one in which the rows are limited after
    they are gathered. *)
Lemma limit_refined ks spm need (t0 d : tree) D f : limits ks ->
  typed pr (Node (KCoalesce spm None) [t0]) (@Permutation row) D -> ordinary t0 -> fed t0 -> spreadable t0 ->
  every_scan (faithful_scan cfg most) t0 -> fits most (nest ks (Node (KCoalesce spm need) [t0])) ->
  distribute cfg (nest ks (Node (KCoalesce spm need) [t0])) = Ok (TDistributed d) -> runs false d 1 f ->
  tparts d = 1 /\
  exists x, runs false (nest ks (Node (KCoalesce spm need) [x])) 1 f /\
    forall g, runs false x 1 g -> Permutation (all_rows x 1 g) (meaning t0).
Proof using Hmost Hstatic Htarget Hsane Hleaf.
  intros Hks Ht Ho Hf Hsp Hs Hfits H Hrun.
  set (k := KCoalesce spm need) in *. assert (Hop : ordinary (nest ks (Node k [t0]))).
  { apply (nest_ordinary (ks ++ [k]) t0) in Ho; [now rewrite nest_app in Ho|]. apply (limits_tops ks spm need Hks). }
  destruct (distribute_inv cfg most _ _ (ordinary_no_net _ Hop) Hstatic Hfits H)
    as (p' & q & a & d1 & id & Hp' & Hq & Hd1 & Np & Fp & Hres).
  destruct Hres as [[_ Hres]|(_ & d' & Ha & Hres)]; [discriminate|]. injection Hres as <-.
  change (nest ks (Node k [t0])) with (nest ks (nest [k] t0)) in Hp'. rewrite <- nest_app in Hp'.
  apply before_nest in Hp' as (p0 & -> & Hb); [|now apply limits_tops].
  assert (Hp1 : before_injection cfg (Node (KCoalesce spm None) [t0]) = Ok (Node (KCoalesce spm None) [p0])).
  { apply (Hb [KCoalesce spm None]). split; [repeat constructor|]. intros x. cbn. lia. }
  set (t1 := Node (KCoalesce spm None) [t0]) in *. set (p1 := Node (KCoalesce spm None) [p0]) in *.
  assert (Ho1 : ordinary t1) by now repeat constructor.
  assert (Hf1 : fed t1) by (split; [exact Logic.I|now repeat constructor]).
  assert (Hsp1 : spreadable t1) by (split; [exact Logic.I|now repeat constructor]).
  assert (Hs1 : every_scan (faithful_scan cfg most) t1) by now repeat constructor.
  destruct (before_keeps cfg pr Htarget (faithful_scan cfg most) t1 p1 D Ht Ho1 Hf1 eq_refl Hp1) as ((D' & T) & M & F2 & S).
  pose proof (spreadable_placed cfg most pr t1 p1 D Htarget Ht Ho1 Hf1 eq_refl Hsp1 Hp1) as Hpl.
  apply placed_of in Hpl; [|exact F2]. pose proof (placed_node _ _ _ _ _ Hpl p0 (or_introl eq_refl)) as Hpl0.
  assert (Hc : cut true p0 <> None) by (unfold cut; destruct (is_hash_repart p0), (is_bcast p0); discriminate).
  assert (Hpl1 : placed cfg most false p0).
  { change (is_coalesce (Node (KCoalesce spm None) [p0])) with true in Hpl0. destruct (cut true p0); [exact Hpl0|contradiction]. }
  clear Hpl Hpl0 Hc. pose proof (typed_plain _ _ _ _ T) as Hplain.
  apply typed_coalesce_inv in T as (_ & Hrr & E0 & D0 & T & _ & HE).
  assert (Hs0 : every_scan (faithful_scan cfg most) p0).
  { specialize (S Hs1). refine (scans_node _ (KCoalesce spm None) [p0] ltac:(discriminate) S p0 (or_introl eq_refl)). }
  destruct (inject_deployed cfg most Hmost Hsane Hleaf _ q a d1 id Hstatic Np Fp Hq Hd1) as [_ HD].
  rewrite nest_app in HD. cbn [nest] in HD. pose proof HD as HD'. apply limits_deployed in HD as (d0 & -> & HD); [|exact Hks].
  change (push_fetch (red pr (nest ks (Node k [d0]))) = Ok d) in Ha.
  assert (Hl : limitable (red pr (nest ks (Node k [d0])))).
  { apply red_limitable. refine (proj1 (dchild_limitable cfg Q Hleaf false _ _ _ _ _ ltac:(discriminate) HD')).
    apply (deployed_limitable cfg Q Hleaf). apply plain_node in Hplain as [Hplain1 Hplain2].
    assert (plain_coalesces (Node k [p0])) by (apply plain_node; auto).
    destruct Hks as [->|(skip & fetch & ->)]; cbn [nest]; [assumption|]. apply plain_node. split; [exact Logic.I|]. now intros ? [<-|[]]. }
  unfold push_fetch in Ha. split.
  { rewrite (push_tparts _ _ _ Ha), red_tparts. destruct Hks as [->|(skip & fetch & ->)]; reflexivity. }
  apply (push_refines _ _ _ false 1 f Hl Ha) in Hrun. rewrite nest_red, red_node in Hrun. cbn [map] in Hrun.
  exists (red pr d0). split; [exact Hrun|]. intros g Hg.
  pose proof (gathered_rows pr p0 d0 E0 D0 (as_usize a) g T Hrr Hpl1 Hs0 HD Hg) as Hrows. apply HE in Hrows. rewrite Hrows.
  cbn in M. now rewrite !app_nil_r in M.
Qed.

End Limits.
End End_.
