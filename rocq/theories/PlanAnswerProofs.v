(** Proofs: the planner's plans can answer. *)
From Verif Require Import Base NetModel NetSpec NetProofs CiuModel CiuSpec CiuProofs EventsModel EventsSpec JoinModel JoinSpec
  JoinProofs PlannerModel PlannerSpec PlannerProofs ExecModel ExecSpec ExecProofs ExecPasses ExecEnd RunSpec RunProofs
  OrderSpec OrderProofs AnswerSpec AnswerProofs.

Section Orders.
Context {row : Type}.
Notation tree := (tree row).
Notation order_ok k := (match k with KCoalesce (Some le) _ => sorting_order le | _ => True end).

Lemma comparable_node k (cs : list tree) : comparable (Node k cs) <-> order_ok k /\ forall c, In c cs -> comparable c.
Proof. cbn [comparable]. now rewrite Forall_map, Forall_forall. Qed.
Lemma comparable_ciu w m (cs : list tree) : comparable (Ciu w m cs) <-> forall c, In c cs -> comparable c.
Proof. cbn [comparable]. now rewrite Forall_map, Forall_forall. Qed.
Lemma comparable_one k (c : tree) : order_ok k -> comparable c -> comparable (Node k [c]).
Proof. intros Hk H. apply comparable_node. split; [exact Hk|]. now intros ? [<-|[]]. Qed.
Lemma comparable_child k (c : tree) cs : comparable (Node k cs) -> In c cs -> comparable c.
Proof. intros H. apply comparable_node in H as [_ H]. auto. Qed.
Lemma comparable_map k (f : tree -> tree -> Prop) (cs cs' : list tree) : comparable (Node k cs) -> Forall2 f cs cs' ->
  (forall c c', In c cs -> f c c' -> comparable c -> comparable c') -> comparable (Node k cs').
Proof.
  intros H F Hf. apply comparable_node in H as [Hk Hc]. apply comparable_node. split; [exact Hk|]. intros c' Hc'.
  destruct (Forall2_in_r _ _ _ F c' Hc') as (c & Hin & E). eauto.
Qed.

Lemma normalize_comparable cfg (t : tree) : comparable t -> forall t', normalize cfg t = Ok t' -> comparable t'.
Proof.
  induction t as [k cs IH|w m cs IH|b part q num tasks i IH] using tree_ind'; intros Hs t' E.
  - rewrite Forall_forall in IH.
    assert (Un : forall l l0 l', In l cs -> unwrapped l l0 -> normalize cfg l0 = Ok l' -> comparable l').
    { intros l l0 l' Hl Hu El. pose proof (comparable_child _ _ _ Hs Hl) as Hsl. destruct Hu as [->| ->]; [eauto|].
      apply (comparable_child (KCoalesce None None) l' [l']); [|now left]. apply (IH _ Hl Hsl). cbn. now rewrite El. }
    apply normalize_node in E as [(cs' & -> & F)|[E|E]].
    + eapply comparable_map; [exact Hs|exact F|]. intros c c' Hc Ec Hsc. exact (IH c Hc Hsc c' Ec).
    + destruct E as (m' & a & ty' & c' & hl & hr & na & l & r & l0 & l' & r' & -> & -> & Hu & _ & _ & El & Er & ->).
      apply comparable_node. split; [exact Logic.I|]. intros x [<-|[<-|[]]]; (apply comparable_one; [exact Logic.I|]).
      * eapply (Un l); eauto. now left.
      * eapply (IH r); eauto; [right; now left|]. eapply comparable_child; [exact Hs|]. right. now left.
    + destruct E as (ty' & c' & hl & hr & na & l & r & l0 & l' & r' & -> & -> & Hu & _ & El & Er & ->).
      apply comparable_node. split; [exact Logic.I|]. intros x [<-|[<-|[]]].
      * eapply (IH r); eauto; [right; now left|]. eapply comparable_child; [exact Hs|]. right. now left.
      * eapply (Un l); eauto. now left.
  - rewrite Forall_forall in IH. cbn [normalize] in E. destruct (seqM _) as [cs'| |] eqn:Es; cbn in E; try discriminate.
    injection E as <-. apply seqM_map_inv in Es. rewrite comparable_ciu in Hs. apply comparable_ciu. intros c' Hc'.
    destruct (Forall2_in_r _ _ _ Es c' Hc') as (c & Hin & Hf). eauto.
  - cbn [normalize] in E. destruct (normalize cfg i) as [i'| |] eqn:En; cbn in E; try discriminate. injection E as <-.
    cbn [comparable] in *. auto.
Qed.

Lemma broadcasts_join' j c hl hr na (l r : tree) : exists l', broadcasts (Node (KJoin j c hl hr na) [l; r]) = Node (KJoin j c hl hr na) [l'; broadcasts r] /\
  (comparable (broadcasts l) -> comparable l').
Proof.
  cbn [broadcasts]. destruct (can_broadcast_left_input j); [|eexists; split; [reflexivity|auto]].
  eexists. split; [reflexivity|]. intros H.
  assert (G : comparable (Node (KCoalesce None None) [Node (KBcast 1) [broadcasts l]])).
  { apply comparable_one; [exact Logic.I|]. apply comparable_one; [exact Logic.I|exact H]. }
  destruct l as [[| | |[le|] fetch| | |] cs| |]; try exact G. destruct cs as [|x [|]]; try exact G.
  cbn [broadcasts map] in H. apply comparable_child with (c := broadcasts x) in H; [|now left].
  apply comparable_one; [exact Logic.I|]. apply comparable_one; [exact Logic.I|exact H].
Qed.

Lemma broadcasts_comparable (t : tree) : comparable t -> comparable (broadcasts t).
Proof.
  induction t as [k cs IH|w m cs IH|b part q num tasks i IH] using tree_ind'; intros Hs; try (rewrite Forall_forall in IH).
  - assert (G : comparable (Node k (map broadcasts cs))).
    { eapply comparable_map; [exact Hs|apply map_Forall2|]. intros c c' Hc <- Hsc. auto. }
    destruct k as [| | | | |j c hl hr na|]; try exact G. destruct cs as [|l [|r [|]]]; try exact G.
    destruct (broadcasts_join' j c hl hr na l r) as (l' & -> & Hl).
    apply comparable_node. split; [exact Logic.I|]. intros x [<-|[<-|[]]].
    + apply Hl. apply IH; [now left|]. eapply comparable_child; [exact Hs|now left].
    + apply IH; [right; now left|]. eapply comparable_child; [exact Hs|right; now left].
  - rewrite comparable_ciu in Hs. apply comparable_ciu. intros c Hin. apply in_map_iff in Hin as (c0 & <- & Hin). auto.
  - cbn [comparable broadcasts] in *. auto.
Qed.

Lemma isolate_comparable (t : tree) : comparable t -> forall t', isolate t = Ok t' -> comparable t'.
Proof.
  induction t as [k cs IH|w m cs IH|b part q num tasks i IH] using tree_ind'; intros Hs t' E; try (rewrite Forall_forall in IH).
  - apply isolate_node in E as (cs' & F & [(_ & ->)|(-> & m & _ & ->)]).
    + eapply comparable_map; [exact Hs|exact F|]. intros c c' Hc Ec Hsc. exact (IH c Hc Hsc c' Ec).
    + apply comparable_ciu. intros c' Hc'. destruct (Forall2_in_r _ _ _ F c' Hc') as (c & Hin & Hf).
      eapply IH; eauto. eapply comparable_child; eauto.
  - cbn [isolate] in E. destruct (seqM _) as [cs'| |] eqn:Es; cbn in E; try discriminate.
    injection E as <-. apply seqM_map_inv in Es. rewrite comparable_ciu in Hs. apply comparable_ciu. intros c' Hc'.
    destruct (Forall2_in_r _ _ _ Es c' Hc') as (c & Hin & Hf). eauto.
  - cbn [isolate] in E. destruct (isolate i) as [i'| |] eqn:En; cbn in E; try discriminate. injection E as <-.
    cbn [comparable] in *. auto.
Qed.

Lemma before_comparable cfg (t p : tree) : comparable t -> before_injection cfg t = Ok p -> comparable p.
Proof.
  intros Hs H. unfold before_injection in H. destruct (normalize cfg t) as [t1| |] eqn:E1; cbn [bind] in H; try discriminate.
  pose proof (normalize_comparable cfg t Hs t1 E1) as S1.
  set (t2 := if 1 <? tparts t1 then Node (KCoalesce None None) [t1] else t1) in *.
  assert (S2 : comparable t2) by (unfold t2; destruct (1 <? tparts t1); [now apply comparable_one|exact S1]).
  clearbody t2.
  assert (S3 : comparable (insert_broadcasts cfg t2)).
  { unfold insert_broadcasts. destruct (broadcast_joins cfg); [now apply broadcasts_comparable|exact S2]. }
  unfold insert_unions in H. destruct (children_isolator_unions cfg); [eapply isolate_comparable; eauto|].
  now injection H as <-.
Qed.

Section Deploy.
Variable cfg : settings row.
Variable Q : tree -> nat -> Prop.
Hypothesis Hleaf : leaf_handlers cfg.

Lemma insert_comparable (h : head row) (t t' : tree) : comparable t -> insert_head_node h t = Ok t' -> comparable t'.
Proof.
  intros Ht H. assert (Hs : comparable (strip t)).
  { destruct t as [[| | | | | |] [|c []]| |]; cbn [strip]; try exact Ht; apply (comparable_child _ _ _ Ht); now left. }
  unfold insert_head_node in H. destruct h; try (injection H as <-; exact Hs);
    try (injection H as <-; now apply comparable_one).
  destruct (tparts (strip t) =? 0); [discriminate|]. injection H as <-. now apply comparable_one.
Qed.

Lemma dchild_comparable below c s n d : (forall s n d, deployed cfg Q c s n d -> comparable d) ->
  dchild cfg Q below c (deployed cfg Q c) s n d -> comparable d.
Proof.
  intros IH H. unfold dchild in H. destruct (cut below c) as [b|]; [|eauto].
  destruct H as (tasks & i & Hq & Hi & H). destruct (elided cfg n tasks); [subst; eauto|].
  destruct H as (num & h & plan & _ & Hh & ->). cbn [comparable]. eapply insert_comparable; eauto.
Qed.

Lemma deployed_comparable (p : tree) : comparable p -> forall s n d, deployed cfg Q p s n d -> comparable d.
Proof.
  induction p as [k cs IH|w m cs IH|b part qi num tasks i IH] using tree_ind'; intros Hs s n d H; [| |destruct H];
    rewrite Forall_forall in IH.
  - destruct cs as [|c0 cs0].
    + cbn in H. unfold scaled in H. destruct (scale_up_leaf cfg (Node k []) s) as [r|] eqn:E; [|now subst].
      subst r. destruct (Hleaf _ _ _ E) as (l & ->). repeat constructor.
    + set (cs := c0 :: cs0) in *.
      apply deployed_node in H as (ds & -> & F); [|discriminate].
      eapply (comparable_map k (fun c d => dchild cfg Q (is_coalesce (Node k cs)) c (deployed cfg Q c) s n d)); [exact Hs|exact F|].
      intros c d Hc Hd Hsc. eapply dchild_comparable; [|exact Hd]. now apply IH.
  - destruct cs as [|c0 cs0].
    + cbn in H. unfold scaled in H. destruct (scale_up_leaf cfg (Ciu w m []) s) as [r|] eqn:E; [|subst; exact Hs].
      subst r. destruct (Hleaf _ _ _ E) as (l & ->). repeat constructor.
    + apply deployed_ciu in H as (w' & m' & ds & -> & _ & _ & _ & _ & L & F); [|discriminate]. rewrite comparable_ciu in Hs. apply comparable_ciu.
      intros d Hd. apply In_nth_error in Hd as (i & Hi). destruct (nth_error (c0 :: cs0) i) as [c|] eqn:Ec.
      * pose proof (nth_error_In _ _ Ec) as Hc. eapply dchild_comparable; [|exact (F i c d Ec Hi)]. now apply IH; auto.
      * apply nth_error_None in Ec. assert (i < List.length ds) by (apply nth_error_Some; congruence). lia.
Qed.
End Deploy.

Lemma reduce_comparable (t : tree) : comparable t -> comparable (reduce_shuffles t).
Proof.
  induction t as [k cs IH|w m cs IH|b part q num tasks i IH] using tree_ind'; intros Hs; try (rewrite Forall_forall in IH).
  - cbn [reduce_shuffles]. eapply (comparable_map k (fun c d => reduce_shuffles c = d)); [exact Hs|apply map_Forall2|].
    intros c c' Hc <- Hsc. auto.
  - rewrite comparable_ciu in Hs. apply comparable_ciu. intros c Hin. apply in_map_iff in Hin as (c0 & <- & Hin). auto.
  - specialize (IH Hs). destruct (reduce_net_inv b part q num tasks i) as [->|(a & h & n & req & ds & Ei & ->)]; [exact IH|].
    change (comparable (Node (KOp (OAgg APartialReduce AnyDistribution a)) [reduce_shuffles i])). now apply comparable_one.
Qed.

(** ** Right sides of joins have partitions *)

Fixpoint joins_fed (t : tree) : Prop :=
  match t with
  | Node k cs =>
      match k, cs with KJoin _ _ _ _ _, [_; r] => 1 <= tparts r | _, _ => True end /\ Forall (fun P => P) (map joins_fed cs)
  | Ciu _ _ cs => Forall (fun P => P) (map joins_fed cs)
  | Net _ _ _ _ _ i => joins_fed i
  end.
Lemma answerable_of (t : tree) : comparable t -> joins_fed t -> answerable t.
Proof.
  induction t as [k cs IH|w m cs IH|b part q num tasks i IH] using tree_ind'; intros H J.
  - cbn [comparable joins_fed answerable] in *. destruct H as [Hk Hc], J as [Jk Jc]. split.
    + destruct k as [| | |[]| | |]; try exact Logic.I; [exact Hk|exact Jk].
    + rewrite Forall_map, Forall_forall in *. auto.
  - cbn [comparable joins_fed answerable] in *. rewrite Forall_map, Forall_forall in *. auto.
  - cbn [comparable joins_fed answerable] in *. auto.
Qed.
Lemma joins_one k (c : tree) : joins_fed c -> joins_fed (Node k [c]).
Proof. intros H. cbn [joins_fed map]. split; [now destruct k|now repeat constructor]. Qed.
Lemma joins_child k (c : tree) cs : joins_fed (Node k cs) -> In c cs -> joins_fed c.
Proof. intros [_ H]. rewrite Forall_map, Forall_forall in H. auto. Qed.

Lemma insert_joins (h : head row) (t t' : tree) : joins_fed t -> insert_head_node h t = Ok t' -> joins_fed t'.
Proof.
  intros Ht H. assert (Hs : joins_fed (strip t)).
  { destruct t as [[| | | | | |] [|c []]| |]; cbn [strip]; try exact Ht; apply (joins_child _ _ _ Ht); now left. }
  unfold insert_head_node in H. destruct h; try (injection H as <-; exact Hs);
    try (injection H as <-; now apply joins_one).
  destruct (tparts (strip t) =? 0); [discriminate|]. injection H as <-. now apply joins_one.
Qed.

Lemma reduce_joins (t : tree) : joins_fed t -> joins_fed (reduce_shuffles t).
Proof.
  induction t as [k cs IH|w m cs IH|b part q num tasks i IH] using tree_ind'; intros H; try (rewrite Forall_forall in IH).
  - cbn [reduce_shuffles]. destruct H as [Hk Hc]. rewrite Forall_map, Forall_forall in Hc. split.
    + destruct k; try exact Logic.I. destruct cs as [|l [|r []]]; try exact Logic.I. cbn [map].
      pose proof (red_tparts true r) as E. unfold red in E. rewrite E. exact Hk.
    + rewrite map_map. apply Forall_map, Forall_forall. auto.
  - cbn [reduce_shuffles joins_fed] in *. rewrite map_map, Forall_map, Forall_forall in *. auto.
  - specialize (IH H). destruct (reduce_net_inv b part q num tasks i) as [->|(a & h & n & req & ds & Ei & ->)]; [exact IH|].
    change (joins_fed (Node (KOp (OAgg APartialReduce AnyDistribution a)) [reduce_shuffles i])). now apply joins_one.
Qed.
End Orders.

Section Joins.
Context {row : Type}.
Notation tree := (tree row).
Variable cfg : settings row.
Variable most : nat.
Variable pr : bool.
Notation Q := (within_limits cfg most).
Notation inv := (inv cfg most).
Notation cinv := (cinv cfg most).
Notation readable := (readable_scan cfg most).
Notation deployed := (deployed cfg Q).
Notation dchild := (dchild cfg Q).

Definition fed_when_deployed (c : tree) : Prop :=
  forall head rem s n d, every_scan readable c -> inv head rem s n c -> deployed c s n d -> joins_fed d.

Lemma child_joins below c : fed_when_deployed c ->
  forall head rem s n d, every_scan readable c -> cinv below head rem s n c -> dchild below c (deployed c) s n d -> joins_fed d.
Proof.
  intros IH head rem s n d Hs Hc H. unfold PlannerProofs.dchild in H. destruct (cut below c) as [b|] eqn:Ec.
  - destruct H as (tasks & i & Hq & Hi & H).
    pose proof (IH false true tasks tasks i Hs (inv_stage cfg most c tasks Hq) Hi) as Hp.
    destruct (elided cfg n tasks); [now subst d|]. destruct H as (num & h & plan & _ & Hh & ->).
    cbn [joins_fed]. eapply insert_joins; eauto.
  - eapply IH; eauto. now apply Hc.
Qed.

Lemma node_joins k (cs : list tree) head rem s n d : cs <> [] -> every_scan readable (Node k cs) -> inv head rem s n (Node k cs) ->
  deployed (Node k cs) s n d -> (forall c, In c cs -> fed_when_deployed c) ->
  exists ds, d = Node k ds /\ Forall2 (fun c d => dchild (is_coalesce (Node k cs)) c (deployed c) s n d) cs ds /\
    Forall (fun P => P) (map joins_fed ds).
Proof.
  intros Hne Hs Hi H IH. apply deployed_node in H as (ds & -> & F); [|exact Hne]. exists ds. split; [reflexivity|].
  split; [exact F|]. apply Forall_map, Forall_forall. intros d' Hd'. destruct (Forall2_in_r _ _ _ F d' Hd') as (c & Hc & Hd).
  eapply child_joins; [exact (IH c Hc)| | |exact Hd].
  - exact (scans_node _ k cs Hne Hs c Hc).
  - exact (inv_child _ _ _ _ _ _ _ _ _ Hi Hc).
Qed.

Lemma one_joins k (c : tree) : fed_when_deployed c -> fed_when_deployed (Node k [c]).
Proof.
  intros IH head rem s n d Hs Hi H. eapply node_joins in H as (ds & -> & F & J); eauto; [|discriminate|now intros ? [<-|[]]].
  apply Forall2_one in F as (d & -> & _). split; [now destruct k|exact J].
Qed.

Lemma deployed_joins (p : tree) E D : typed pr p E D -> fed_when_deployed p.
Proof.
  induction 1 as [l|h k c E D Hk Hc IH|k c E D Hk Hc IH|spm c E D Hc IH Hr|cs E Hne Ha Hc IH|w m cs E Hne Ha Hc IH
    |o c E E' D D' Hc IH Ho Ha Hre Hd Hcar|o c h k E E' D' Hc IH Ho Ha Hre Hd Hcar|o c E E' D Hc IH Ho Ha Hre Hw Hd
    |a ty c hl hr na k l r D' Hl IHl Hr IHr Hk HD|j c hl hr na l x r Dl Dr D' Hx IHx Hr IHr Hb Hj Hk Hna HD
    |p E E' D D' Hp IH Ha He HD]; intros head rem s n d Hs Hi H; try (now eapply IH; eauto).
  - cbn in H. destruct Hi as (H1 & H2 & _). destruct (Hs s d H1 H2 H) as (l' & -> & Hp & _). repeat constructor.
  - eapply node_joins in H as (ds & -> & F & J); eauto; [|discriminate|now intros ? [<-|[]]]. split; [exact Logic.I|exact J].
  - eapply node_joins in H as (ds & -> & F & J); eauto; [|discriminate|now intros ? [<-|[]]]. split; [exact Logic.I|exact J].
  - eapply node_joins in H as (ds & -> & F & J); eauto; [|discriminate|now intros ? [<-|[]]]. split; [exact Logic.I|exact J].
  - eapply node_joins in H as (ds & -> & F & J); eauto. split; [exact Logic.I|exact J].
  - destruct cs as [|c0 cs0]; [congruence|].
    apply deployed_ciu in H as (w' & m' & ds & -> & Es & Hg & Lw & HA & L & F); [|discriminate].
    cbn [joins_fed]. apply Forall_map, Forall_forall. intros d Hd. apply In_nth_error in Hd as (i & Hi').
    destruct (nth_error (c0 :: cs0) i) as [c|] eqn:Ec; [|apply nth_error_None in Ec; assert (i < List.length ds) by (apply nth_error_Some; congruence); lia].
    pose proof (nth_error_In _ _ Ec) as Hin. specialize (F i c d Ec Hi'). cbn zeta in F.
    set (k := nth i (map_task_counts (List.length (c0 :: cs0)) m') 0) in *.
    assert (Hlt : i < List.length (c0 :: cs0)) by (apply nth_error_Some; congruence).
    destruct (count_of_good w' s m' i Es Hg ltac:(rewrite Lw; exact Hlt)) as [E1 E2]. rewrite Lw in E1.
    pose proof Hi as (Hi1 & Hi2 & Hi3 & Hi4 & Hi5 & Hi6).
    eapply (child_joins false c (IH c Hin) false true k k d); [| |exact F].
    + eapply scans_ciu; [exact Hs|exact Hin].
    + unfold k in *. rewrite E1 in *. split; [|split; [lia|split; [discriminate|]]].
      * intros Ecut. destruct (HA i c Ec Ecut) as [A1 A2]. rewrite E1 in *. repeat split; auto; try lia; discriminate.
      * unfold cut. destruct (is_hash_repart c), (is_bcast c); discriminate.
  - eapply node_joins in H as (ds & -> & F & J); eauto; [|discriminate|now intros ? [<-|[]]]. split; [exact Logic.I|exact J].
  - eapply node_joins in H as (ds & -> & F & J); eauto; [|discriminate|now intros ? [<-|[]]]. split; [exact Logic.I|exact J].
  - eapply node_joins in H as (ds & -> & F & J); eauto; [|discriminate|now intros ? [<-|[]]]. split; [exact Logic.I|exact J].
  - eapply node_joins in H as (ds & -> & F & J); eauto; [|discriminate|now intros ? [<-|[<-|[]]]].
    apply Forall2_two in F as (dl & dr & -> & Fl & Fr). split; [|exact J].
    eapply some_part_child; [exact (some_part cfg most pr r _ _ Hr)| | |exact Fr]; [eapply scans_node; eauto; [discriminate|right; now left]|exact (inv_child _ _ _ _ _ _ _ _ _ Hi (or_intror (or_introl eq_refl)))].
  - assert (IHl : fed_when_deployed l) by (destruct Hb as [->| ->]; [exact IHx|now do 2 apply one_joins]).
    eapply node_joins in H as (ds & -> & F & J); eauto; [|discriminate|now intros ? [<-|[<-|[]]]].
    apply Forall2_two in F as (dl & dr & -> & Fl & Fr). split; [|exact J].
    eapply some_part_child; [exact (some_part cfg most pr r _ _ Hr)| | |exact Fr]; [eapply scans_node; eauto; [discriminate|right; now left]|exact (inv_child _ _ _ _ _ _ _ _ _ Hi (or_intror (or_introl eq_refl)))].
Qed.
End Joins.

(** * The planner's result *)

Section Planned.
Context {row : Type}.
Notation tree := (tree row).

Lemma planned_answerable cfg most (t : tree) D (d : tree) :
  typed (partial_reduce cfg) t (@Permutation row) D -> ordinary t -> fed t -> is_round_robin t = false ->
  every_scan (readable_scan cfg most) t -> comparable t ->
  0 < target_partitions cfg -> dynamic_task_count cfg = false ->
  max_tasks cfg = Ok most -> sane_handlers cfg -> leaf_handlers cfg -> fits most t ->
  distribute cfg t = Ok (TDistributed d) -> answerable d.
Proof.
  intros Ht Ho Hf Hr Hrd Hcmp Htp Hdyn Hmost Hsane Hleaf Hfits H.
  destruct (distribute_inv cfg most t _ (ordinary_no_net t Ho) Hdyn Hfits H)
    as (p & q & a & d1 & id & Hp & Hq & Hd1 & Np & Fp & Hres).
  destruct Hres as [[_ Hres]|(_ & d' & Ha & Hres)]; [discriminate|]. injection Hres as <-.
  destruct (before_keeps cfg (partial_reduce cfg) Htp (readable_scan cfg most) t p D Ht Ho Hf Hr Hp) as ((D' & T) & M & F2 & S).
  destruct (inject_deployed cfg most Hmost Hsane Hleaf p q a d1 id Hdyn Np Fp Hq Hd1) as [HW HD].
  assert (Hn : no_fetch d1).
  { eapply dchild_no_fetch; [|exact HD]. intros. eapply deployed_no_fetch; eauto. eapply typed_no_fetch; eauto. }
  unfold after_prepare in Ha. fold (red (partial_reduce cfg) d1) in Ha.
  rewrite push_fetch_id in Ha.
  2: { unfold red. destruct (partial_reduce cfg); [now apply reduce_no_fetch|exact Hn]. }
  injection Ha as <-.
  assert (C1 : comparable d1).
  { eapply dchild_comparable; [|exact HD]. apply deployed_comparable; [exact Hleaf|]. eapply before_comparable; eauto. }
  assert (J1 : joins_fed d1).
  { eapply (child_joins cfg most false p (deployed_joins cfg most _ p _ _ T) true false (as_usize a) 1 d1 (S Hrd)); [|exact HD].
    split; [|split; [lia|split; [auto|unfold cut; destruct (is_hash_repart p), (is_bcast p); discriminate]]].
    intros Ec. destruct (HW Ec) as [Hw1 Hw2]. repeat split; auto; try lia; discriminate. }
  assert (A : answerable (reduce_shuffles d1)) by (apply answerable_of; [now apply reduce_comparable|now apply reduce_joins]).
  unfold red. destruct (partial_reduce cfg); [exact A|now apply answerable_of].
Qed.

Lemma single_answerable pr (t : tree) D : typed pr t (@Permutation row) D -> ordinary t -> fed t -> every_scan readable t ->
  comparable t -> answerable t.
Proof.
  intros Ht Ho Hf Hr Hc. apply answerable_of; [exact Hc|].
  refine (child_joins single_node 1 false t (deployed_joins single_node 1 pr t _ _ Ht) true false 1 1 t _ _ _).
  - eapply scans_and; [|exact Hr]. exact single_readable.
  - split; [|split; [lia|split; [auto|unfold cut; destruct (is_hash_repart t), (is_bcast t); discriminate]]].
    intros Ec. destruct (single_limits t) as [Hw1 Hw2]. repeat split; auto; try lia; discriminate.
  - unfold dchild. destruct (cut false t); [|now apply single_deployed]. exists 1, t.
    split; [apply single_limits|]. split; [now apply single_deployed|reflexivity].
Qed.
End Planned.
