(** Proofs: the end-to-end theorem. *)
From Verif Require Import Base NetModel NetSpec NetProofs CiuModel CiuSpec EventsModel JoinModel JoinSpec
  PlannerModel PlannerSpec PlannerProofs ExecModel ExecSpec ExecProofs ExecPasses.

Section End_.
Context {row : Type}.
Notation tree := (tree row).
Notation table := (nat -> nat -> list row).

(** ** Plans without limits are not touched by the last pass *)

Fixpoint no_fetch (t : tree) : Prop :=
  fetch_required t = None /\
  match t with
  | Node _ cs | Ciu _ _ cs => Forall (fun P => P) (map no_fetch cs)
  | Net _ _ _ _ _ i => no_fetch i
  end.

Lemma no_fetch_node k (cs : list tree) : no_fetch (Node k cs) <->
  fetch_required (Node k cs) = None /\ forall c, In c cs -> no_fetch c.
Proof. cbn [no_fetch]. rewrite Forall_map, Forall_forall. reflexivity. Qed.
Lemma no_fetch_ciu w m (cs : list tree) : no_fetch (Ciu w m cs) <-> forall c, In c cs -> no_fetch c.
Proof. cbn [no_fetch]. rewrite Forall_map, Forall_forall. cbn. tauto. Qed.

Lemma required_kind k (cs cs' : list tree) : fetch_required (Node k cs) = fetch_required (Node k cs').
Proof. destruct k as [| | | | | |[]]; reflexivity. Qed.

Lemma push_fuel_id : forall fuel t, no_fetch t -> height t <= fuel -> push_fetch_fuel fuel t = Ok t.
Proof.
  induction fuel as [|fuel IH]; intros t Hn Hh; [destruct t; cbn in Hh; lia|].
  cbn [push_fetch_fuel]. destruct t as [k cs|w m cs|b p q num ts i].
  - apply no_fetch_node in Hn as [Hr Hc]. rewrite Hr.
    rewrite (seqM_intro _ cs); [reflexivity|]. apply Forall2_map_l. apply Forall2_nth. split; [reflexivity|].
    intros i x y Hx Hy. assert (x = y) as -> by congruence. apply nth_error_In in Hy. apply IH; [auto|].
    pose proof (child_height (Node k cs) y Hy). lia.
  - pose proof (proj1 (no_fetch_ciu _ _ _) Hn) as Hc. destruct Hn as [Hr _]. rewrite Hr.
    rewrite (seqM_intro _ cs); [reflexivity|]. apply Forall2_map_l. apply Forall2_nth. split; [reflexivity|].
    intros i x y Hx Hy. assert (x = y) as -> by congruence. apply nth_error_In in Hy. apply IH; [auto|].
    pose proof (child_height (Ciu w m cs) y Hy). lia.
  - destruct Hn as [Hr Hi]. rewrite Hr. rewrite IH; [reflexivity|exact Hi|]. cbn in Hh. lia.
Qed.

Lemma push_fetch_id t : no_fetch t -> push_fetch t = Ok t.
Proof. intros H. apply push_fuel_id; [exact H|]. lia. Qed.

Lemma typed_no_fetch pr (t : tree) E D : typed pr t E D -> no_fetch t.
Proof.
  induction 1; try assumption.
  - now repeat constructor.
  - split; [reflexivity|now repeat constructor].
  - split; [reflexivity|now repeat constructor].
  - split; [reflexivity|now repeat constructor].
  - apply no_fetch_node. auto.
  - now apply no_fetch_ciu.
  - split; [|now repeat constructor]. destruct o as [| | | ? []| |]; try discriminate; reflexivity.
  - split; [|now repeat constructor]. destruct o as [| | | ? []| |]; try discriminate; reflexivity.
  - split; [|now repeat constructor]. destruct o as [| | | ? []| |]; try discriminate; reflexivity.
  - split; [reflexivity|now repeat constructor].
  - split; [reflexivity|]. constructor; [|now repeat constructor]. destruct H1 as [->| ->]; [assumption|].
    split; [reflexivity|]. repeat constructor. assumption.
Qed.

Lemma insert_head_no_fetch (h : head row) t t' : no_fetch t -> insert_head_node h t = Ok t' -> no_fetch t'.
Proof.
  intros Ht H. assert (Hs : no_fetch (strip t)).
  { destruct t as [[| | | | | |] [|c []]| |]; cbn [strip]; try exact Ht; apply no_fetch_node in Ht as [_ Ht]; apply Ht; now left. }
  unfold insert_head_node in H. destruct h; try (injection H as <-; exact Hs);
    try (injection H as <-; apply no_fetch_node; split; [reflexivity|]; now intros ? [<-|[]]).
  - destruct (tparts (strip t) =? 0); [discriminate|]. injection H as <-. apply no_fetch_node. split; [reflexivity|]. now intros ? [<-|[]].
Qed.

Section Cfg.
Variable cfg : settings row.
Variable Q : tree -> nat -> Prop.
Hypothesis Hleaf : leaf_handlers cfg.

Lemma scaled_no_fetch (t : tree) n d : no_fetch t -> scaled cfg t n d -> no_fetch d.
Proof.
  intros Ht H. unfold scaled in H. destruct (scale_up_leaf cfg t n) as [r|] eqn:Es; [|now subst].
  subst r. destruct (Hleaf t n d Es) as (l & ->). now repeat constructor.
Qed.

Lemma dchild_no_fetch below c s n d : (forall s n d, deployed cfg Q c s n d -> no_fetch d) ->
  dchild cfg Q below c (deployed cfg Q c) s n d -> no_fetch d.
Proof.
  intros IH H. unfold dchild in H. destruct (cut below c) as [b|]; [|eauto].
  destruct H as (tasks & i & Hq & Hi & H). destruct (elided cfg n tasks); [subst; eauto|].
  destruct H as (num & h & plan & _ & Hh & ->). split; [reflexivity|]. eapply insert_head_no_fetch; eauto.
Qed.

Lemma deployed_no_fetch p : no_fetch p -> forall s n d, deployed cfg Q p s n d -> no_fetch d.
Proof.
  induction p as [k cs IH|w m cs IH|b part qi num tasks i IH] using tree_ind'; intros Hp s n d H; [| |destruct H];
    rewrite Forall_forall in IH.
  - destruct cs as [|c0 cs0]; [cbn in H; eapply scaled_no_fetch; eauto|].
    apply deployed_node in H as (ds & -> & F); [|discriminate]. apply no_fetch_node in Hp as [Hr Hc].
    apply no_fetch_node. rewrite (required_kind k ds (c0 :: cs0)). split; [exact Hr|].
    intros d Hd. apply In_nth_error in Hd as (i & Hi). apply Forall2_nth in F as [L F].
    destruct (nth_error (c0 :: cs0) i) as [c|] eqn:Ec.
    + eapply dchild_no_fetch; [|exact (F i c d Ec Hi)]. intros. apply nth_error_In in Ec. eapply (IH c Ec); eauto.
    + apply nth_error_None in Ec. assert (i < List.length ds) by (apply nth_error_Some; congruence). lia.
  - destruct cs as [|c0 cs0]; [cbn in H; eapply scaled_no_fetch; eauto|].
    pose proof (proj1 (no_fetch_ciu _ _ _) Hp) as Hc.
    apply deployed_ciu in H as (w' & m' & ds & -> & _ & _ & _ & _ & L & F); [|discriminate]. apply no_fetch_ciu.
    intros d Hd. apply In_nth_error in Hd as (i & Hi).
    destruct (nth_error (c0 :: cs0) i) as [c|] eqn:Ec.
    + eapply dchild_no_fetch; [|exact (F i c d Ec Hi)]. intros. apply nth_error_In in Ec. eapply (IH c Ec); eauto.
    + apply nth_error_None in Ec. assert (i < List.length ds) by (apply nth_error_Some; congruence). lia.
Qed.

End Cfg.

Lemma reduce_net_agg b part q num tasks (i : tree) :
  reduce_shuffles (Net b part q num tasks i) = Net b part q num tasks (reduce_shuffles i) \/
  exists a, reduce_shuffles (Net b part q num tasks i) =
    Net b part q num tasks (Node (KOp (OAgg APartialReduce AnyDistribution a)) [reduce_shuffles i]).
Proof.
  cbn [reduce_shuffles]. generalize (reduce_shuffles i). clear i. intros i.
  repeat match goal with |- context [match ?x with _ => _ end] => destruct x; auto end; right; eauto.
Qed.

Lemma reduce_no_fetch (t : tree) : no_fetch t -> no_fetch (reduce_shuffles t).
Proof.
  induction t as [k cs IH|w m cs IH|b part q num tasks i IH] using tree_ind'; intros Ht.
  - apply no_fetch_node in Ht as [Hr Hc]. cbn [reduce_shuffles]. apply no_fetch_node. rewrite (required_kind k _ cs).
    split; [exact Hr|]. intros c Hin. apply in_map_iff in Hin as (c0 & <- & Hin). rewrite Forall_forall in IH. auto.
  - pose proof (proj1 (no_fetch_ciu _ _ _) Ht) as Hc. cbn [reduce_shuffles]. apply no_fetch_ciu.
    intros c Hin. apply in_map_iff in Hin as (c0 & <- & Hin). rewrite Forall_forall in IH. auto.
  - destruct Ht as [_ Hi]. specialize (IH Hi). destruct (reduce_net_agg b part q num tasks i) as [->|(a & ->)].
    + split; [reflexivity|exact IH].
    + split; [reflexivity|]. split; [reflexivity|]. repeat constructor. exact IH.
Qed.

(** ** The head stage *)

Lemma root_rows cfg most pr (p : tree) D s d (f : table) :
  typed pr p (@Permutation row) D -> (cut false p = None -> within_limits cfg most p s) ->
  dchild cfg (within_limits cfg most) false p (deployed cfg (within_limits cfg most) p) s 1 d ->
  placed cfg most (in_head p) p -> every_scan (faithful_scan cfg most) p ->
  runs false (red pr d) 1 f -> Permutation (all_rows d 1 f) (meaning p).
Proof.
  intros Ht Hw Hd Hp Hs Hr. destruct (typed_sound cfg most pr p _ _ Ht) as [H1 H2].
  pose proof (child_sound cfg most pr false p _ _ Ht H1 H2) as H.
  destruct (H true false s 1 d f) as [H' _]; auto; [|discriminate].
  split; [|split; [lia|split; [auto|unfold cut; destruct (is_hash_repart p), (is_bcast p); discriminate]]].
  intros Ec. destruct (Hw Ec) as [Hw1 Hw2]. repeat split; auto; try lia; discriminate.
Qed.

(** ** One node *)

(** A session in which nothing is distributed. *)
Definition single_node : settings row :=
  mkSettings false false false false 1 (f64_of_nat 1) 1 (Ok 1) (fun _ => Ok None) (fun _ _ => None)
    (fun _ => EUnknown) 0.

Lemma single_announced (t : tree) : forall k, In k (announced single_node t) -> k = 1.
Proof.
  induction t as [k cs IH|w m cs IH|b part q num tasks i IH] using tree_ind'; intros x Hx; [| |destruct Hx].
  - destruct cs as [|c0 cs0]; [destruct k; cbn in Hx; intuition congruence|].
    assert (Hc : forall b, In x (flat_map (fun c => match cut b c with None => announced single_node c | Some BCoalesce => [1] | Some _ => [] end) (c0 :: cs0)) -> x = 1).
    { intros b Hin. apply in_flat_map in Hin as (c & Hin & Hx'). rewrite Forall_forall in IH.
      destruct (cut b c) as [[]|]; [destruct Hx'|destruct Hx'|destruct Hx' as [<-|[]]; reflexivity|eauto]. }
    destruct k; cbn [announced single_node desired_task_count is_coalesce] in Hx; try (exact (Hc _ Hx)).
    apply in_app_iff in Hx as [[]|Hx]. apply in_app_iff in Hx as [Hx|Hx]; [|exact (Hc _ Hx)].
    destruct (one_task_join _ j); [destruct Hx as [<-|[]]; reflexivity|destruct Hx].
  - destruct cs; cbn in Hx; intuition congruence.
Qed.

Lemma single_limits t : within_limits single_node 1 t 1.
Proof. split; [lia|]. intros k Hk. rewrite (single_announced t k Hk). lia. Qed.

Lemma single_deployed (t : tree) : ordinary t -> deployed single_node (within_limits single_node 1) t 1 1 t.
Proof.
  induction t as [k cs IH|w m cs IH|b part q num tasks i IH] using tree_ind'; intros Ho; [|destruct Ho|destruct Ho].
  destruct cs as [|c0 cs0]; [reflexivity|]. apply deployed_node; [discriminate|]. exists (c0 :: cs0). split; [reflexivity|].
  apply Forall2_nth. split; [reflexivity|]. intros i x y Hx Hy. assert (x = y) as -> by congruence. apply nth_error_In in Hy.
  rewrite Forall_forall in IH. specialize (IH y Hy (ordinary_node _ _ Ho y Hy)). unfold dchild.
  destruct (cut (is_coalesce (Node k (c0 :: cs0))) y); [|exact IH]. exists 1, y. split; [apply single_limits|]. split; [exact IH|reflexivity].
Qed.

Lemma single_scans pr (t : tree) E D : typed pr t E D -> ordinary t -> every_scan (faithful_scan single_node 1) t.
Proof.
  induction 1; intros Ho; auto;
    try (apply scans_intro; [discriminate|]; intros ? [<-|[]]; apply IHtyped; exact (ordinary_node _ _ Ho c (or_introl eq_refl))).
  - intros s q Hs1 _ Hs. cbn in Hs. subst q. exists (LScan l). split; [reflexivity|]. split; [auto|].
    intros remote f n Hr. assert (n = 1) as Hn by (unfold n; destruct remote; lia). rewrite Hn in *. clear n Hn.
    apply runs_node in Hr as (fs & Hfs & Hr). inversion Hfs; subst. cbn [node_runs leaf_parts leaf_runs] in Hr.
    unfold all_rows. rewrite one_task. cbn [tparts leaf_parts]. unfold scan_rows. apply flat_map_perm_ext. intros p Hp.
    apply in_seq in Hp. rewrite (Hr 0 p ltac:(lia) ltac:(lia)). reflexivity.
  - apply scans_intro; [assumption|]. intros c Hc. apply H2; auto. eapply ordinary_node; eauto.
  - destruct Ho.
  - apply scans_intro; [discriminate|]. intros ? [<-|[<-|[]]].
    + apply IHtyped1. exact (ordinary_node _ _ Ho l (or_introl eq_refl)).
    + apply IHtyped2. exact (ordinary_node _ _ Ho r (or_intror (or_introl eq_refl))).
  - pose proof (ordinary_node _ _ Ho l (or_introl eq_refl)) as Ol.
    assert (l = x) as <-.
    { destruct H1 as [->| ->]; [reflexivity|]. inversion Ol as [|? ? HF]. destruct HF. }
    apply scans_intro; [discriminate|]. intros ? [<-|[<-|[]]]; [auto|].
    apply IHtyped2. exact (ordinary_node _ _ Ho r (or_intror (or_introl eq_refl))).
Qed.

Lemma single_placed (t : tree) : forall head, fed t -> placed single_node 1 head t.
Proof.
  induction t as [k cs IH|w m cs IH|] using tree_ind'; intros head Hf; [| |exact Logic.I].
  - destruct Hf as [Hf1 Hf2]. split.
    + destruct k as [| | | | |j c hl hr na|]; auto.
      * destruct cs as [|l [|r []]]; auto.
      * destruct cs as [|c []]; auto.
    + rewrite Forall_map, Forall_forall in *. intros c Hin. apply IH; auto.
  - cbn in Hf. split; [now right|]. rewrite Forall_map, Forall_forall in *. intros c Hin. apply IH; auto.
Qed.

Lemma ordinary_red pr (t : tree) : ordinary t -> red pr t = t.
Proof.
  intros Ho. unfold red. destruct pr; [|reflexivity]. revert Ho.
  induction t as [k cs IH|w m cs IH|] using tree_ind'; intros Ho; [|destruct Ho|destruct Ho].
  cbn [reduce_shuffles]. f_equal. rewrite <- (map_id cs) at 2. apply map_ext_in. intros c Hin.
  rewrite Forall_forall in IH. apply IH; [exact Hin|]. eapply ordinary_node; eauto.
Qed.

(** A plan executed on one node yields its meaning. *)
Lemma single_rows pr (t : tree) D (g : table) : typed pr t (@Permutation row) D -> ordinary t -> fed t ->
  runs false t 1 g -> Permutation (all_rows t 1 g) (meaning t).
Proof.
  intros Ht Ho Hf Hr. apply (root_rows single_node 1 pr t D 1 t g Ht).
  - intros _. apply single_limits.
  - unfold dchild. destruct (cut false t); [|now apply single_deployed]. exists 1, t.
    split; [apply single_limits|]. split; [now apply single_deployed|reflexivity].
  - now apply single_placed.
  - eapply single_scans; eauto.
  - now rewrite ordinary_red.
Qed.

Lemma ordinary_no_net (t : tree) : ordinary t -> has_net t = false.
Proof.
  induction t as [k cs IH|w m cs IH|] using tree_ind'; intros Ho; [|destruct Ho|destruct Ho].
  cbn. apply existsb_false. intros c Hin. rewrite Forall_forall in IH. apply IH; [exact Hin|]. eapply ordinary_node; eauto.
Qed.

(** ** The distributed plan *)

Lemma distributed_rows cfg most (t p : tree) D (d : tree) (f : table) :
  typed (partial_reduce cfg) t (@Permutation row) D -> ordinary t -> fed t -> is_round_robin t = false ->
  every_scan (faithful_scan cfg most) t -> 0 < target_partitions cfg -> dynamic_task_count cfg = false ->
  max_tasks cfg = Ok most -> sane_handlers cfg -> leaf_handlers cfg -> fits most t ->
  before_injection cfg t = Ok p -> ops_placed cfg most (in_head p) p ->
  distribute cfg t = Ok (TDistributed d) -> runs false d 1 f -> Permutation (all_rows d 1 f) (meaning t).
Proof.
  intros Ht Ho Hf Hr Hs Htp Hdyn Hmost Hsane Hleaf Hfits Hp Hplaced H Hrun.
  destruct (distribute_inv cfg most t _ (ordinary_no_net t Ho) Hdyn Hfits H)
    as (p' & q & a & d1 & id & Hp' & Hq & Hd1 & Np & Fp & Hres).
  assert (p' = p) as -> by congruence. clear Hp'.
  destruct Hres as [[_ Hres]|(_ & d' & Ha & Hres)]; [discriminate|]. injection Hres as <-.
  destruct (before_keeps cfg (partial_reduce cfg) Htp (faithful_scan cfg most) t p D Ht Ho Hf Hr Hp) as ((D' & T) & M & F2 & S).
  destruct (inject_deployed cfg most Hmost Hsane Hleaf p q a d1 id Hdyn Np Fp Hq Hd1) as [HW HD].
  assert (Hn : no_fetch d1).
  { eapply dchild_no_fetch; [|exact HD]. intros. eapply deployed_no_fetch; eauto. eapply typed_no_fetch; eauto. }
  unfold after_prepare in Ha. fold (red (partial_reduce cfg) d1) in Ha.
  rewrite push_fetch_id in Ha.
  2: { unfold red. destruct (partial_reduce cfg); [now apply reduce_no_fetch|exact Hn]. }
  injection Ha as <-. unfold all_rows. rewrite red_tparts. rewrite <- M.
  apply (root_rows cfg most (partial_reduce cfg) p D' (as_usize a) d1 f T HW HD); auto. now apply placed_of.
Qed.

(** ** Plans whose operators can be spread *)

(** [K] holds for every node, of a kind and with a number of children. *)
Fixpoint kinds (K : kind row -> nat -> Prop) (U : Prop) (t : tree) : Prop :=
  match t with
  | Node k cs => K k (List.length cs) /\ Forall (fun P => P) (map (kinds K U) cs)
  | Ciu _ _ cs => U /\ Forall (fun P => P) (map (kinds K U) cs)
  | Net _ _ _ _ _ _ => True
  end.

Lemma kinds_node K U k (cs : list tree) : kinds K U (Node k cs) <-> K k (List.length cs) /\ forall c, In c cs -> kinds K U c.
Proof. cbn [kinds]. rewrite Forall_map, Forall_forall. reflexivity. Qed.
Lemma kinds_ciu K U w m (cs : list tree) : kinds K U (Ciu w m cs) <-> U /\ forall c, In c cs -> kinds K U c.
Proof. cbn [kinds]. rewrite Forall_map, Forall_forall. reflexivity. Qed.

Lemma Forall2_in_r {A B} (R : A -> B -> Prop) l l' : Forall2 R l l' -> forall y, In y l' -> exists x, In x l /\ R x y.
Proof.
  induction 1 as [|x y l l' Hxy F IH]; intros z Hz; [destruct Hz|]. destruct Hz as [<-|Hz]; [exists x; split; [now left|exact Hxy]|].
  destruct (IH z Hz) as (x' & Hx' & Hr). exists x'. split; [now right|exact Hr].
Qed.

Lemma normalize_kinds (cfg : settings row) (K : kind row -> nat -> Prop) (U : Prop) : (forall j c hl hr na, K (KJoin j c hl hr na) 2) ->
  (forall h, K (KRepart (HashP h (target_partitions cfg))) 1) ->
  forall (t t' : tree), kinds K U t -> normalize cfg t = Ok t' -> kinds K U t'.
Proof.
  intros HJ HR t. induction t as [t IH] using tree_height_ind. intros t' Hk Hn.
  destruct t as [k cs|w m cs|b p q n ts i].
  - apply kinds_node in Hk as [Hk Hc].
    assert (IH' : forall c c', In c cs -> normalize cfg c = Ok c' -> kinds K U c').
    { intros c c' Hin E. eapply IH; [apply child_height; exact Hin| |exact E]. auto. }
    apply normalize_node in Hn as [(cs' & -> & F)|[Hn|Hn]].
    + apply kinds_node. rewrite <- (Forall2_len _ _ _ F). split; [exact Hk|]. intros c' Hin.
      destruct (Forall2_in_r _ _ _ F c' Hin) as (c & Hin' & E). eauto.
    + destruct Hn as (m & a & ty & c & hl & hr & na & l & r & l0 & l' & r' & -> & -> & Hu & _ & _ & Nl & Nr & ->).
      assert (kinds K U l').
      { destruct Hu as [->| ->]; [eapply IH'; eauto; now left|]. eapply (IH l0); [|apply (proj2 (proj1 (kinds_node _ _ _ _) (Hc _ (or_introl eq_refl)))); now left|exact Nl].
        cbn [height map list_max fold_right]. lia. }
      assert (kinds K U r') by (eapply IH'; eauto; right; now left).
      apply kinds_node. split; [apply HJ|]. intros ? [<-|[<-|[]]]; apply kinds_node; (split; [apply HR|]); now intros ? [<-|[]].
    + destruct Hn as (ty & c & hl & hr & na & l & r & l0 & l' & r' & -> & -> & Hu & _ & Nl & Nr & ->).
      assert (kinds K U l').
      { destruct Hu as [->| ->]; [eapply IH'; eauto; now left|]. eapply (IH l0); [|apply (proj2 (proj1 (kinds_node _ _ _ _) (Hc _ (or_introl eq_refl)))); now left|exact Nl].
        cbn [height map list_max fold_right]. lia. }
      assert (kinds K U r') by (eapply IH'; eauto; right; now left).
      apply kinds_node. split; [apply HJ|]. now intros ? [<-|[<-|[]]].
  - pose proof (proj1 (kinds_ciu _ _ _ _ _) Hk) as [HU Hc]. cbn [normalize] in Hn.
    destruct (seqM (map (normalize cfg) cs)) as [cs'| |] eqn:Es; cbn [bind] in Hn; try discriminate. injection Hn as <-.
    apply seqM_map_inv in Es. apply kinds_ciu. split; [exact HU|]. intros c' Hin. destruct (Forall2_in_r _ _ _ Es c' Hin) as (c & Hin' & E).
    eapply IH; [apply (child_height (Ciu w m cs)); exact Hin'| |exact E]. auto.
  - cbn [normalize] in Hn. destruct (normalize cfg i); cbn in Hn; try discriminate. injection Hn as <-. exact Logic.I.
Qed.

Lemma broadcasts_kinds (K : kind row -> nat -> Prop) (U : Prop) : (forall f, K (KCoalesce None f) 1) -> K (KBcast 1) 1 ->
  forall t : tree, kinds K U t -> kinds K U (broadcasts t).
Proof.
  intros HC HB t. induction t as [t IH] using tree_height_ind. intros Hk. destruct t as [k cs|w m cs|]; [| |exact Logic.I].
  - apply kinds_node in Hk as [Hk Hc].
    assert (IH' : forall c, In c cs -> kinds K U (broadcasts c)) by (intros c Hin; apply IH; [now apply child_height|auto]).
    destruct (broadcasts_node k cs) as [->|(j & c & hl & hr & na & l & r & -> & -> & _ & fetch & x & Hx & ->)].
    + apply kinds_node. rewrite map_length. split; [exact Hk|]. intros c' Hin. apply in_map_iff in Hin as (c & <- & Hin). auto.
    + assert (kinds K U (broadcasts x)).
      { destruct Hx as [->|[_ ->]]; [|apply IH'; now left]. apply IH; [cbn [height map list_max fold_right]; lia|].
        apply (proj2 (proj1 (kinds_node _ _ _ _) (Hc _ (or_introl eq_refl)))). now left. }
      apply kinds_node. split; [exact Hk|]. intros ? [<-|[<-|[]]]; [|apply IH'; right; now left].
      apply kinds_node. split; [apply HC|]. intros ? [<-|[]]. apply kinds_node. split; [exact HB|]. now intros ? [<-|[]].
  - pose proof (proj1 (kinds_ciu _ _ _ _ _) Hk) as [HU Hc]. cbn [broadcasts]. apply kinds_ciu. split; [exact HU|]. intros c' Hin.
    apply in_map_iff in Hin as (c & <- & Hin). apply IH; [now apply (child_height (Ciu w m cs))|auto].
Qed.

Lemma isolate_kinds (K : kind row -> nat -> Prop) (U : Prop) : forall t t' : tree, kinds K U t -> isolate t = Ok t' -> kinds K True t'.
Proof.
  intros t. induction t as [t IH] using tree_height_ind. intros t' Hk Hn. destruct t as [k cs|w m cs|b p q n ts i].
  - apply kinds_node in Hk as [Hk Hc]. apply isolate_node in Hn as (cs' & F & Ht).
    assert (F' : forall c', In c' cs' -> kinds K True c').
    { intros c' Hin. destruct (Forall2_in_r _ _ _ F c' Hin) as (c & Hin' & E). eapply IH; [apply child_height; exact Hin'| |exact E]. auto. }
    destruct Ht as [(_ & ->)|(_ & m & _ & ->)].
    + apply kinds_node. rewrite <- (Forall2_len _ _ _ F). auto.
    + apply kinds_ciu. auto.
  - pose proof (proj1 (kinds_ciu _ _ _ _ _) Hk) as [_ Hc]. cbn [isolate] in Hn.
    destruct (seqM (map isolate cs)) as [cs'| |] eqn:Es; cbn [bind] in Hn; try discriminate. injection Hn as <-.
    apply seqM_map_inv in Es. apply kinds_ciu. split; [exact Logic.I|]. intros c' Hin. destruct (Forall2_in_r _ _ _ Es c' Hin) as (c & Hin' & E).
    eapply IH; [apply (child_height (Ciu w m cs)); exact Hin'| |exact E]. auto.
  - cbn [isolate] in Hn. destruct (isolate i); cbn in Hn; try discriminate. injection Hn as <-. exact Logic.I.
Qed.

(** Unions in the head stage. *)
Fixpoint exposed (t : tree) : Prop :=
  match t with
  | Node KUnion _ | Ciu _ _ _ => True
  | Node _ cs => Exists (fun P => P) (map (fun c => cut (is_coalesce t) c = None /\ exposed c) cs)
  | Net _ _ _ _ _ _ => False
  end.

Lemma exposed_node k (cs : list tree) : exposed (Node k cs) ->
  k = KUnion \/ exists c, In c cs /\ cut (is_coalesce (Node k cs)) c = None /\ exposed c.
Proof.
  intros H. assert (HE : k = KUnion \/ Exists (fun P => P) (map (fun c => cut (is_coalesce (Node k cs)) c = None /\ exposed c) cs)).
  { destruct k; auto. }
  destruct HE as [->|HE]; [now left|right]. apply Exists_exists in HE as (P & Hin & HP). apply in_map_iff in Hin as (c & <- & Hin).
  exists c. tauto.
Qed.
Lemma exposed_intro k (cs : list tree) c : In c cs -> cut (is_coalesce (Node k cs)) c = None -> exposed c -> exposed (Node k cs).
Proof.
  intros Hin Hc He. assert (HE : Exists (fun P => P) (map (fun c => cut (is_coalesce (Node k cs)) c = None /\ exposed c) cs)).
  { apply Exists_exists. eexists. split; [apply in_map; exact Hin|]. cbn. auto. }
  destruct k; try exact HE. exact Logic.I.
Qed.

Lemma isolate_cut (c c' : tree) b : isolate c = Ok c' -> cut b c' = cut b c.
Proof.
  intros H. unfold cut. destruct c as [k cs|w m cs|? ? ? ? ? i].
  - apply isolate_node in H as (cs' & _ & [(_ & ->)|(-> & m & _ & ->)]); [|reflexivity].
    destruct k; reflexivity.
  - cbn in H. destruct (seqM _); cbn in H; try discriminate. injection H as <-. reflexivity.
  - cbn in H. destruct (isolate i); cbn in H; try discriminate. injection H as <-. reflexivity.
Qed.

Lemma isolate_exposed : forall t t' : tree, isolate t = Ok t' -> exposed t' -> exposed t.
Proof.
  induction t as [k cs IH|w m cs IH|b part q num tasks i IH] using tree_ind'; intros t' H He.
  - apply isolate_node in H as (cs' & F & [(Hk & ->)|(-> & _)]); [|exact Logic.I].
    apply exposed_node in He as [->|(c' & Hin & Hc & He)]; [congruence|].
    destruct (Forall2_in_r _ _ _ F c' Hin) as (c & Hin' & E). rewrite Forall_forall in IH.
    apply (exposed_intro k cs c Hin'); [|eauto]. rewrite (isolate_cut _ _ _ E) in Hc.
    destruct k; exact Hc.
  - exact Logic.I.
  - cbn in H. destruct (isolate i); cbn in H; try discriminate. injection H as <-. destruct He.
Qed.

(** A plan with one partition has no exposed union. *)
Definition sensible (k : kind row) (n : nat) : Prop :=
  match k with
  | KLeaf l => 1 <= leaf_parts l
  | KRepart (RoundRobin n) => 2 <= n
  | KUnion => 2 <= n
  | KOp _ => needs_whole_input k = false
  | _ => True
  end.

Lemma typed_parts pr (t : tree) E D : typed pr t E D -> kinds sensible False t -> 1 <= tparts t.
Proof.
  induction 1 as [l|h k c E D Hk Hc IH|k c E D Hk Hc IH|spm c E D Hc IH Hr|cs E Hne Ha Hc IH|w m cs E Hne Ha Hc IH
    |o c E E' D D' Hc IH Ho Ha Hre Hd Hcar|o c h k E E' D' Hc IH Ho Ha Hre Hd Hcar|o c E E' D Hc IH Ho Ha Hre Hw Hd
    |a ty c hl hr na k l r D' Hl IHl Hr IHr Hk HD|j c hl hr na l x r Dl Dr D' Hx IHx Hr IHr Hb Hj Hk Hna HD
    |p E E' D D' Hp IH Ha He HD]; intros Hs; try (apply kinds_node in Hs as [Hs Hcs]).
  - exact Hs.
  - exact Hk.
  - exact Hk.
  - cbn. lia.
  - destruct cs as [|c cs]; [congruence|]. cbn.
    specialize (IH c (or_introl eq_refl) (Hcs c (or_introl eq_refl))). lia.
  - now apply kinds_ciu in Hs.
  - cbn. apply IH. apply Hcs. now left.
  - cbn. apply IH. apply Hcs. now left.
  - cbn. apply IH. apply Hcs. now left.
  - cbn. apply IHl. apply Hcs. now left.
  - cbn. assert (1 <= tparts r) by (apply IHr; apply Hcs; right; now left).
    destruct j as [[]| |]; try discriminate; exact H.
  - auto.
Qed.

Lemma typed_hashed_parts pr (t : tree) E D : typed pr t E D -> match D with Hashed _ n => tparts t = n | Anyhow => True end.
Proof.
  induction 1 as [l|h k c E D Hk Hc IH|k c E D Hk Hc IH|spm c E D Hc IH Hr|cs E Hne Ha Hc IH|w m cs E Hne Ha Hc IH
    |o c E E' D D' Hc IH Ho Ha Hre Hd Hcar|o c h k E E' D' Hc IH Ho Ha Hre Hd Hcar|o c E E' D Hc IH Ho Ha Hre Hw Hd
    |a ty c hl hr na k l r D' Hl IHl Hr IHr Hk HD|j c hl hr na l x r Dl Dr D' Hx IHx Hr IHr Hb Hj Hk Hna HD
    |p E E' D D' Hp IH Ha He HD]; auto.
  - destruct D' as [|h' n']; [auto|]. destruct D; [destruct Hcar|]. destruct Hcar as [-> _]. exact IH.
  - destruct D' as [|h' n']; [auto|]. destruct Hcar as [-> _]. exact IH.
  - destruct D' as [|h' n']; [auto|]. destruct HD as [-> _]. exact IHl.
  - destruct D' as [|h' n']; [auto|]. destruct Dr; [destruct HD|]. destruct HD as (_ & -> & _). cbn.
    destruct j as [[]| |]; try discriminate; exact IHr.
  - destruct HD as [->| ->]; auto.
Qed.

Lemma cut_none b (c : tree) : cut b c = None -> is_hash_repart c = false /\ is_bcast c = false /\ b = false.
Proof. unfold cut. destruct (is_hash_repart c), (is_bcast c), b; try discriminate; auto. Qed.

Lemma one_hidden cfg pr (t : tree) E D : typed pr t E D -> kinds sensible False t -> fed2 cfg t -> tparts t = 1 ->
  is_hash_repart t = false -> ~ exposed t.
Proof.
  induction 1 as [l|h k c E D Hk Hc IH|k c E D Hk Hc IH|spm c E D Hc IH Hr|cs E Hne Ha Hc IH|w m cs E Hne Ha Hc IH
    |o c E E' D D' Hc IH Ho Ha Hre Hd Hcar|o c h k E E' D' Hc IH Ho Ha Hre Hd Hcar|o c E E' D Hc IH Ho Ha Hre Hw Hd
    |a ty c hl hr na k l r D' Hl IHl Hr IHr Hk HD|j c hl hr na l x r Dl Dr D' Hx IHx Hr IHr Hb Hj Hk Hna HD
    |p E E' D D' Hp IH Ha He HD]; intros Hs Hf H1 Hh He'; try discriminate Hh; try (apply kinds_node in Hs as [Hs Hcs]).
  5: now apply kinds_ciu in Hs.
  4: { destruct cs as [|c1 [|c2 cs]]; cbn in Hs; try lia. pose proof (typed_parts _ _ _ _ (Hc c1 (or_introl eq_refl)) (Hcs _ (or_introl eq_refl))).
       pose proof (typed_parts _ _ _ _ (Hc c2 (or_intror (or_introl eq_refl))) (Hcs _ (or_intror (or_introl eq_refl)))).
       cbn in H1. lia. }
  9: exact (IH Hs Hf H1 Hh He').
  all: pose proof (fed2_node _ _ _ Hf) as Hfc; apply exposed_node in He' as [He'|(c' & Hin & Hcut & He')]; try discriminate He';
    apply cut_none in Hcut as (Hh' & Hb' & Hco).
  - destruct Hin.
  - cbn in Hs, H1. lia.
  - discriminate.
  - destruct Hin as [<-|[]]. apply (IH (Hcs _ (or_introl eq_refl)) (Hfc _ (or_introl eq_refl)) H1 Hh' He').
  - destruct Hin as [<-|[]]. apply (IH (Hcs _ (or_introl eq_refl)) (Hfc _ (or_introl eq_refl)) H1 Hh' He').
  - destruct Hin as [<-|[]]. apply (IH (Hcs _ (or_introl eq_refl)) (Hfc _ (or_introl eq_refl)) H1 Hh' He').
  - pose proof (typed_hashed_parts _ _ _ _ Hl) as Pl. pose proof (typed_hashed_parts _ _ _ _ Hr) as Pr. cbn in Pl, Pr, H1.
    destruct Hin as [<-|[<-|[]]]; [eapply IHl|eapply IHr]; eauto; [apply Hcs; now left|apply Hfc; now left
      |apply Hcs; right; now left|apply Hfc; right; now left|congruence].
  - assert (Hr1 : tparts r = 1) by (cbn in H1; destruct j as [[]| |]; try discriminate; exact H1).
    destruct Hin as [<-|[<-|[]]].
    2: { apply IHr; auto; [apply Hcs; right; now left|apply Hfc; right; now left]. }
    destruct Hf as [Hf _]. destruct (Hf Hj) as [[(y & ->) _]|[Hone _]].
    + apply exposed_node in He' as [He'|(c' & Hin & Hcut & _)]; [discriminate|]. apply cut_none in Hcut as (_ & _ & Hcut). discriminate.
    + destruct Hb as [->| ->].
      * apply IHx; auto; [apply Hcs; now left|apply Hfc; now left|]. eapply one_part_tparts; eauto.
      * apply exposed_node in He' as [He'|(c' & Hin & Hcut & _)]; [discriminate|]. apply cut_none in Hcut as (_ & _ & Hcut). discriminate.
Qed.

Lemma hidden_placed cfg most (p : tree) : forall head, kinds sensible True p -> (head = true -> ~ exposed p) -> ops_placed cfg most head p.
Proof.
  induction p as [k cs IH|w m cs IH|] using tree_ind'; intros head Hk Hx; [| |exact Logic.I]; rewrite Forall_forall in IH.
  - apply kinds_node in Hk as [Hk Hc]. split.
    + destruct k; auto. intros Hw. unfold sensible in Hk. congruence.
    + apply Forall_map, Forall_forall. intros c Hin. apply IH; auto. destruct (cut _ c) eqn:Ec; [discriminate|].
      intros Hhead He. apply (Hx Hhead). eapply exposed_intro; eauto.
  - apply kinds_ciu in Hk as [_ Hc]. split.
    + left. destruct head; [destruct (Hx eq_refl Logic.I)|reflexivity].
    + apply Forall_map, Forall_forall. intros c Hin. apply IH; auto. destruct (cut _ c); [discriminate|].
      intros Hhead. destruct (Hx Hhead Logic.I).
Qed.

Lemma broadcasts_tparts (t : tree) : tparts (broadcasts t) = tparts t.
Proof.
  induction t as [t IH] using tree_height_ind. destruct t as [k cs|w m cs|]; [| |reflexivity].
  - assert (IH' : forall c, In c cs -> tparts (broadcasts c) = tparts c) by (intros c Hin; apply IH; now apply child_height).
    destruct (broadcasts_node k cs) as [->|(j & c & hl & hr & na & l & r & -> & -> & Hcan & fetch & x & Hx & ->)].
    + cbn [tparts]. rewrite map_map. rewrite (map_ext_in _ tparts cs IH'). reflexivity.
    + assert (tparts (broadcasts r) = tparts r) as Hr by (apply IH'; right; now left).
      destruct j as [[] a ty|ty|]; cbn in Hcan |- *; try discriminate; exact Hr.
  - cbn [broadcasts tparts]. rewrite map_map. rewrite (map_ext_in (fun x => tparts (broadcasts x)) tparts cs); [reflexivity|].
    intros c Hin. apply IH. now apply (child_height (Ciu w m cs)).
Qed.

Lemma spreadable_kinds (t : tree) : spreadable t -> kinds sensible False t.
Proof.
  induction t as [k cs IH|w m cs IH|] using tree_ind'; intros H; [|destruct H|destruct H].
  destruct H as [H1 H2]. apply kinds_node. rewrite Forall_forall in IH. rewrite Forall_map, Forall_forall in H2.
  split; [|auto]. destruct k as [|[]| | | | |]; auto.
Qed.

Lemma spreadable_placed cfg most pr (t p : tree) D : 0 < target_partitions cfg ->
  typed pr t (@Permutation row) D -> ordinary t -> fed t -> is_round_robin t = false -> spreadable t ->
  before_injection cfg t = Ok p -> ops_placed cfg most (in_head p) p.
Proof.
  intros Htp Ht Ho Hf Hr Hs Hp. apply spreadable_kinds in Hs. unfold before_injection in Hp.
  destruct (normalize cfg t) as [t1| |] eqn:En; cbn [bind] in Hp; try discriminate.
  destruct (normalize_keeps cfg pr Htp (fun _ => True) t _ _ Ht t1 Ho Hf En) as ((T1 & _ & _ & R1 & _) & F1 & O1).
  assert (K1 : kinds sensible False t1).
  { eapply (normalize_kinds cfg); [| |exact Hs|exact En]; intros; exact Logic.I. }
  set (t2 := if 1 <? tparts t1 then Node (KCoalesce None None) [t1] else t1) in *.
  assert (H2 : typed pr t2 (@Permutation row) Anyhow /\ fed1 cfg t2 /\ ordinary t2 /\ kinds sensible False t2 /\ tparts t2 = 1).
  { unfold t2. destruct (Nat.ltb_spec 1 (tparts t1)) as [Hlt|Hge].
    - split; [eapply ty_coalesce; eauto; congruence|]. split; [split; [exact Logic.I|now repeat constructor]|].
      split; [now repeat constructor|]. split; [|reflexivity]. apply kinds_node. split; [exact Logic.I|]. now intros ? [<-|[]].
    - pose proof (typed_parts _ _ _ _ T1 K1). split; [eapply typed_weaken_any; eauto|]. repeat (split; [assumption|]). lia. }
  destruct H2 as (T2 & F2 & O2 & K2 & P2). clearbody t2.
  set (t3 := insert_broadcasts cfg t2) in *.
  assert (H3 : typed pr t3 (@Permutation row) Anyhow /\ fed2 cfg t3 /\ kinds sensible False t3 /\ tparts t3 = 1).
  { unfold t3, insert_broadcasts. destruct (broadcast_joins cfg) eqn:Eb; cbn [negb].
    - destruct (broadcasts_keeps cfg pr (fun _ => True) t2 _ _ Eb T2 O2 F2) as ((T3 & _) & F3).
      split; [exact T3|]. split; [exact F3|]. split; [|now rewrite broadcasts_tparts].
      apply broadcasts_kinds; auto; intros; exact Logic.I.
    - split; [exact T2|]. split; [now apply no_broadcasts_fed|auto]. }
  destruct H3 as (T3 & F3 & K3 & P3). clearbody t3.
  assert (Hx : kinds sensible True p /\ (in_head p = true -> ~ exposed p)).
  { unfold insert_unions in Hp. destruct (children_isolator_unions cfg) eqn:Eu; cbn [negb] in Hp.
    - split; [eapply isolate_kinds; eauto|]. intros Hh He. unfold in_head in Hh.
      destruct (cut false p) eqn:Ec; [discriminate|]. rewrite (isolate_cut _ _ _ Hp) in Ec. apply cut_none in Ec as (Ec & _).
      exact (one_hidden _ _ _ _ _ T3 K3 F3 P3 Ec (isolate_exposed _ _ Hp He)).
    - injection Hp as <-. split.
      + clear -K3. induction t3 as [k cs IH|w m cs IH|] using tree_ind'; [| |exact Logic.I]; rewrite Forall_forall in IH.
        * apply kinds_node in K3 as [H1 H2]. apply kinds_node. auto.
        * now apply kinds_ciu in K3.
      + intros Hh. unfold in_head in Hh. destruct (cut false t3) eqn:Ec; [discriminate|]. apply cut_none in Ec as (Ec & _).
        exact (one_hidden _ _ _ _ _ T3 K3 F3 P3 Ec). }
  destruct Hx. now apply hidden_placed.
Qed.

End End_.
