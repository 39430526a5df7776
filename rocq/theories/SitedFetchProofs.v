(** Proofs about limits in plans whose boundaries were placed by the user. *)
From Verif Require Import Base NetModel NetSpec NetProofs CiuModel EventsModel JoinModel JoinSpec JoinProofs
  PlannerModel PlannerSpec PlannerProofs ExecModel ExecSpec ExecProofs ExecOps ExecPasses ExecEnd FetchSpec FetchProofs
  FetchEnd FetchSort FetchMore SitedModel SitedSpec SitedProofs.
From Coq Require Import Sorting.Sorted.

Section Limits.
Context {row : Type}.
Notation tree := (tree row).
Notation table := (nat -> nat -> list row).
Variable cfg : settings row.

Lemma ready_not_coalesce n t E D : sited cfg n t E D -> is_net_coalesce t = false ->
  forall d, ready cfg n t d -> is_net_coalesce d = false.
Proof.
  induction 1; intros Hn d Hd; auto; try discriminate;
    try (apply ready_one in Hd as (d' & -> & Hd); reflexivity);
    try (apply ready_node in Hd as (ds & -> & F); [reflexivity|first [discriminate|assumption]]).
  - apply ready_leaf in Hd as (q & Hq & Hd). destruct H as [_ H]. destruct (H q Hq) as (l' & -> & _).
    now rewrite (Hd l' eq_refl).
  - apply ready_net in Hd as (d' & Hd & Fl); [|assumption]. apply ready_one in Hd as (d'' & -> & Hd).
    now destruct Fl as [(-> & -> & ->)|(h0 & plan & part' & num' & _ & _ & _ & _ & ->)].
Qed.

Lemma headless_bare (t : tree) : headless t -> bare t = true.
Proof. destruct t as [[] cs| |]; cbn; auto; contradiction. Qed.

Lemma limitable_one k (c : tree) : limitable (Node k [c]) -> limitable c.
Proof. intros H. apply limitable_node in H as [_ H]. apply H. now left. Qed.

Lemma gather_plan (h : head row) d plan part n : headless d -> producer_head_of BCoalesce part n = Ok h ->
  insert_head_node h d = Ok plan -> plan = d.
Proof.
  intros Hd Hh Hp. assert (h = HNone) as -> by (cbn in Hh; congruence). cbn in Hp. rewrite (headless_strip d Hd) in Hp. congruence.
Qed.

Lemma ready_limitable n t E D : sited cfg n t E D -> limitable t -> forall d, ready cfg n t d -> limitable d.
Proof.
  induction 1; intros Hl d Hd; auto;
    try (apply limitable_one in Hl; apply ready_one in Hd as (d' & -> & Hd); apply limitable_node; split; [exact Logic.I|intros c' [<-|[]]; auto]; fail).
  - apply ready_leaf in Hd as (q & Hq & Hd). destruct H as [_ H]. destruct (H q Hq) as (l' & -> & _).
    rewrite (Hd l' eq_refl). apply limitable_node. split; [exact Logic.I|intros c []].
  - apply ready_node in Hd as (ds & -> & F); [|assumption]. apply limitable_node in Hl as [_ Hl].
    apply limitable_node. split; [exact Logic.I|].
    intros c Hc. destruct (Forall2_in_r _ _ _ F c Hc) as (x & Hx & Hr). eapply H2; eauto.
  - apply ready_one in Hd as (d' & -> & Hd). apply limitable_node in Hl as [Hk Hl]. apply limitable_node. split.
    + destruct o; auto. inversion Hk; subst. constructor; [|constructor]. eapply ready_not_coalesce; eauto.
    + intros c' [<-|[]]. apply IHsited; [apply Hl; now left|exact Hd].
  - apply ready_one in Hd as (d' & -> & Hd). apply limitable_node in Hl as [Hk Hl]. apply limitable_node. split.
    + destruct o; auto. inversion Hk; subst. constructor; [|constructor]. eapply ready_not_coalesce; eauto.
    + intros c' [<-|[]]. apply IHsited; [apply Hl; now left|exact Hd].
  - apply ready_one in Hd as (d' & -> & Hd). apply limitable_node in Hl as [Hk Hl]. apply limitable_node. split.
    + destruct o; auto. inversion Hk; subst. constructor; [|constructor]. eapply ready_not_coalesce; eauto.
    + intros c' [<-|[]]. apply IHsited; [apply Hl; now left|exact Hd].
  - apply ready_node in Hd as (ds & -> & F); [|discriminate]. apply Forall2_two in F as (dl & dr & -> & Fl & Fr).
    apply limitable_node in Hl as [_ Hl].
    apply limitable_node. split; [exact Logic.I|]. intros x [<-|[<-|[]]]; [apply IHsited1|apply IHsited2]; auto; apply Hl; cbn; auto.
  - apply ready_node in Hd as (ds & -> & F); [|discriminate]. apply Forall2_two in F as (dl & dr & -> & Fl & Fr).
    apply limitable_node in Hl as [_ Hl].
    apply limitable_node. split; [exact Logic.I|]. intros x [<-|[<-|[]]]; [apply IHsited1|apply IHsited2]; auto; apply Hl; cbn; auto.
  - apply ready_node in Hd as (ds & -> & F); [|discriminate]. apply Forall2_two in F as (dl & dr & -> & Fl & Fr).
    apply limitable_node in Hl as [_ Hl]. pose proof (Hl _ (or_introl eq_refl)) as Hx. apply limitable_one in Hx.
    destruct Hx as [_ Hx]. apply limitable_one in Hx.
    apply ready_one in Fl as (dn & -> & Fl).
    apply limitable_node. split; [exact Logic.I|]. intros y [<-|[<-|[]]]; [|apply IHsited2; [apply Hl; cbn; auto|exact Fr]].
    apply limitable_node. split; [exact Logic.I|]. intros y [<-|[]].
    apply ready_net in Fl as (d' & Hd & Fl); [|assumption]. apply ready_one in Hd as (d'' & -> & Hd).
    assert (Hb : limitable (Node (KBcast 1) [d''])).
    { apply limitable_node. split; [exact Logic.I|]. intros y [<-|[]]. auto. }
    destruct Fl as [(-> & -> & ->)|(h0 & plan & part' & num' & _ & Hin & _ & _ & ->)]; [exact Hb|].
    split; [discriminate|]. eapply insert_head_limitable; eauto.
  - destruct Hl as [_ Hl]. apply limitable_one in Hl.
    apply ready_net in Hd as (d' & Hd & Fl); [|assumption]. apply ready_one in Hd as (d'' & -> & Hd).
    assert (Hb : limitable (Node (KRepart (HashP h k)) [d''])).
    { apply limitable_node. split; [exact Logic.I|]. intros y [<-|[]]. auto. }
    destruct Fl as [(-> & -> & ->)|(h0 & plan & part' & num' & _ & Hin & _ & _ & ->)]; [exact Hb|].
    split; [discriminate|]. eapply insert_head_limitable; eauto.
  - destruct Hl as [_ Hl]. apply ready_net in Hd as (d' & Hd & Fl); [|assumption].
    pose proof (coalescable_ready cfg _ _ _ _ H0 H1 d' Hd) as Hh.
    destruct Fl as [(-> & -> & ->)|(h0 & plan & part' & num' & Hp & Hin & _ & _ & ->)]; [auto|].
    rewrite (gather_plan h0 d' plan part n Hh Hp Hin). split; [intros _; now apply headless_bare|auto].
Qed.

(** What the planner makes of a limit above a plan whose boundaries were placed by the user. *)
Lemma planned_nest ks (t r : tree) top : Forall top_kind ks -> has_net t = true ->
  create_distributed_plan cfg (TPlan (nest ks t)) = Ok top -> body top = Some r ->
  exists d, ready cfg 1 t d /\
    (r = nest ks d /\ top = TPlan r \/ push_fetch (nest ks d) = Ok r /\ top = TDistributed r).
Proof.
  intros Hk Hnet H Hb. cbn [create_distributed_plan] in H. unfold distribute in H.
  assert (Hn : has_net (nest ks t) = true).
  { clear - Hk Hnet. induction Hk as [|k ks Hk _ IH]; [exact Hnet|]. cbn. now rewrite IH. }
  rewrite Hn in H. apply bind_inv in H as (t' & Hsc & H). apply bind_inv in H as ([d id] & Hp & H). cbn [fst] in H.
  assert (Hr : ready cfg 1 (nest ks t) d) by (exists t', 1, id; auto).
  assert (G : forall ks d, ready cfg 1 (nest ks t) d -> exists d', d = nest ks d' /\ ready cfg 1 t d').
  { clear. induction ks as [|k ks IH]; intros d Hd; [exists d; auto|]. cbn [nest] in Hd |- *.
    apply ready_one in Hd as (d' & -> & Hd). apply IH in Hd as (d'' & -> & Hd). eauto. }
  apply G in Hr as (d' & -> & Hr). exists d'. split; [exact Hr|].
  destruct (negb (has_net (nest ks d'))).
  - injection H as <-. cbn in Hb. injection Hb as <-. now left.
  - apply bind_inv in H as (p & Hpu & H). injection H as <-. cbn in Hb. injection Hb as <-. now right.
Qed.

(** There is always a plan. *)
Lemma planned_body (t : tree) top : has_net t = true -> create_distributed_plan cfg (TPlan t) = Ok top -> exists r, body top = Some r.
Proof.
  intros Hn H. cbn [create_distributed_plan] in H. unfold distribute in H. rewrite Hn in H.
  apply bind_inv in H as (t' & Hsc & H). apply bind_inv in H as ([d id] & Hp & H).
  destruct (negb _); [injection H as <-; cbn; eauto|]. apply bind_inv in H as (p & _ & H). injection H as <-. cbn. eauto.
Qed.

Lemma reads_one (top : top row) r (f : table) : body top = Some r -> tparts r = 1 -> client_reads top f = Ok (f 0 0).
Proof.
  intros Hb H1. destruct top as [t|t| |]; try discriminate; injection Hb as ->; cbn [client_reads].
  - now rewrite all_rows_one.
  - rewrite H1. cbn. now rewrite app_nil_r.
Qed.

Lemma limited_rows ks spm need (t0 : tree) D top r f : limits ks ->
  sited cfg 1 t0 (@Permutation row) D -> limitable t0 -> has_net t0 = true ->
  create_distributed_plan cfg (TPlan (nest ks (Node (KCoalesce spm need) [t0]))) = Ok top -> body top = Some r ->
  runs false r 1 f ->
  tparts r = 1 /\ exists x, runs false (nest ks (Node (KCoalesce spm need) [x])) 1 f /\
    forall g, runs false x 1 g -> Permutation (all_rows x 1 g) (meaning t0).
Proof.
  intros Hks Hs Hl Hn H Hb Hr. change (nest ks (Node (KCoalesce spm need) [t0])) with (nest ks (nest [KCoalesce spm need] t0)) in H.
  rewrite <- nest_app in H. destruct (limits_tops ks spm need Hks) as [Hk _].
  destruct (planned_nest _ t0 r top Hk Hn H Hb) as (d & Hd & Hshape).
  assert (Hlim : limitable (nest ks (Node (KCoalesce spm need) [d]))).
  { assert (limitable (Node (KCoalesce spm need) [d])).
    { apply limitable_node. split; [exact Logic.I|]. intros ? [<-|[]]. eapply ready_limitable; eauto. }
    destruct Hks as [->|(skip & fetch & ->)]; cbn [nest]; [assumption|].
    apply limitable_node. split; [exact Logic.I|]. now intros ? [<-|[]]. }
  rewrite nest_app in Hshape. cbn [nest] in Hshape.
  assert (G : tparts r = tparts (nest ks (Node (KCoalesce spm need) [d])) /\ runs false (nest ks (Node (KCoalesce spm need) [d])) 1 f).
  { destruct Hshape as [[-> _]|[Hp _]]; [auto|]. unfold push_fetch in Hp. split; [exact (push_tparts _ _ _ Hp)|exact (push_refines _ _ _ _ _ _ Hlim Hp Hr)]. }
  destruct G as [G1 G2]. split.
  - rewrite G1. destruct Hks as [->|(skip & fetch & ->)]; reflexivity.
  - exists d. split; [exact G2|]. intros g Hg.
    exact (proj1 (sited_sound cfg 1 t0 _ _ Hs d false g Hd (le_n 1) (fun _ => eq_refl) Hg)).
Qed.

(** ** Sorted *)

Variable le : row -> row -> Prop.
Hypothesis total : forall a b, le a b \/ le b a.
Hypothesis trans : forall a b c, le a b -> le b c -> le a c.

Lemma push_limits fuel ks need (c d : tree) : limits ks -> push_fetch_fuel fuel (nest ks (Node (KCoalesce (Some le) need) [c])) = Ok d ->
  exists fuel' d', push_fetch_fuel fuel' (Node (KCoalesce (Some le) need) [c]) = Ok d' /\ d = nest ks d'.
Proof.
  intros [->|(skip & fetch & ->)] H; cbn [nest] in H |- *; [eauto|].
  apply push_one in H as (fuel' & c' & H & ->). exists fuel', c'. split; [|reflexivity].
  destruct (fetch_required _); exact H.
Qed.

Lemma sorted_rows ks s need fetch tasks part q num (t0 : tree) D top r f : limits ks ->
  (forall l, Permutation (s l) l /\ StronglySorted le (s l)) -> keeps fetch need -> 1 <= tasks ->
  sited cfg tasks t0 (@Permutation row) D -> is_net_coalesce t0 = false -> partition_count part = tparts t0 * tasks ->
  create_distributed_plan cfg (TPlan (nest ks (Node (KCoalesce (Some le) need)
    [Net BCoalesce part q num tasks (Node (KOp (OSort s fetch)) [t0])]))) = Ok top -> body top = Some r ->
  ordered false r 1 f ->
  tparts r = 1 /\ exists l, Permutation l (meaning t0) /\ StronglySorted le l /\
    f 0 0 = match ks with KOp (OGlobalLimit skip lim) :: _ => limit_to lim (skipn skip (limit_to need l)) | _ => limit_to need l end.
Proof using total trans.
  intros Hks Hsort Hk Ht Hs Hc Hpc H Hb Hr.
  change (nest ks (Node (KCoalesce (Some le) need) [?x])) with (nest ks (nest [KCoalesce (Some le) need] x)) in H.
  rewrite <- nest_app in H. destruct (limits_tops ks (Some le) need Hks) as [Htk _].
  destruct (planned_nest _ (Net BCoalesce part q num tasks (Node (KOp (OSort s fetch)) [t0])) r top Htk eq_refl H Hb) as (d & Hd & Hshape). rewrite nest_app in Hshape. cbn [nest] in Hshape.
  apply ready_net in Hd as (d1 & Hd1 & Hnet); [|exact Ht]. apply ready_one in Hd1 as (x & -> & Hx).
  pose proof (ready_not_coalesce _ _ _ _ Hs Hc x Hx) as Hxc. pose proof (sited_no_fetch cfg _ _ _ _ Hs x Hx) as Hnf.
  pose proof (sited_tparts cfg _ _ _ _ Hs x Hx) as Htp.
  assert (Hdc : (d = Node (KOp (OSort s fetch)) [x] /\ tasks = 1) \/
    exists part q num, d = Net BCoalesce part q num tasks (Node (KOp (OSort s fetch)) [x]) /\ partition_count part = tparts x * tasks).
  { destruct Hnet as [(_ & -> & ->)|(h0 & plan & part' & num' & Hp & Hin & Hpp & _ & ->)]; [left; auto|right].
    rewrite (gather_plan h0 (Node (KOp (OSort s fetch)) [x]) plan part 1 Logic.I Hp Hin). exists part', (query cfg), num'. split; [reflexivity|]. rewrite Hpp, Hpc, Htp. reflexivity. }
  assert (Hst : sort_stage s fetch x d).
  { destruct Hdc as [[-> _]|(pt & qq & nm & -> & _)]; [now left|right; eauto]. }
  assert (G : exists fetch' dc', r = nest ks (Node (KCoalesce (Some le) need) [dc']) /\ keeps fetch' need /\
    match d with
    | Net b part q num tasks _ => dc' = Net b part q num tasks (Node (KOp (OSort s fetch')) [x])
    | _ => dc' = Node (KOp (OSort s fetch')) [x]
    end).
  { destruct Hshape as [[-> _]|[Hp _]].
    - exists fetch, d. split; [reflexivity|]. split; [exact Hk|]. destruct Hdc as [[-> _]|(pt & qq & nm & -> & _)]; reflexivity.
    - unfold push_fetch in Hp. apply push_limits in Hp as (fuel' & d' & Hp & ->); [|exact Hks].
      destruct (push_merge le fuel' need s fetch x d d' Hxc Hnf Hk Hst Hp) as (fetch' & dc' & -> & Hk' & Hm). eauto 6. }
  destruct G as (fetch' & dc' & -> & Hk' & Hm).
  assert (Hdc' : (dc' = Node (KOp (OSort s fetch')) [x] /\ tasks = 1) \/
    exists part q num, dc' = Net BCoalesce part q num tasks (Node (KOp (OSort s fetch')) [x]) /\ partition_count part = tparts x * tasks).
  { destruct Hdc as [[-> ->]|(pt & qq & nm & -> & Hpt)]; [left; auto|right; eauto 6]. }
  split; [destruct Hks as [->|(skip & lim & ->)]; reflexivity|].
  assert (M : forall h, ordered false (Node (KCoalesce (Some le) need) [dc']) 1 h ->
    exists l, Permutation l (meaning t0) /\ StronglySorted le l /\ h 0 0 = limit_to need l).
  { intros h (g & Hg & _ & Hl). destruct (Hl 0) as (l' & Hl' & El); [lia|].
    destruct (merge_stage le single_node 1 ltac:(cbn; lia) total trans false s need fetch' x dc' tasks g l' Hsort Hk' Ht Hdc' Hg Hl')
      as (hx & l & Rx & Hp & Hsl & E). exists l.
    split; [|split; [exact Hsl|now rewrite El, <- E]]. rewrite Hp.
    refine (proj1 (sited_sound cfg tasks t0 _ _ Hs x _ hx Hx Ht _ Rx)).
    destruct Hdc' as [[-> ->]|(pt & qq & nm & -> & _)]; [reflexivity|discriminate]. }
  destruct Hks as [->|(skip & lim & ->)]; cbn [nest] in Hr; [exact (M f Hr)|].
  destruct Hr as (g & Hg & Hf). destruct (M g Hg) as (l & Hl & Hsl & E). exists l. split; [exact Hl|]. split; [exact Hsl|].
  rewrite (Hf 0 0); [now rewrite E|lia|cbn; lia].
Qed.
End Limits.
