(** A plan that can be executed at all can be executed in an order of rows, and so over the network. *)
From Verif Require Import Base NetModel NetSpec NetProofs CiuModel CiuSpec CiuProofs EventsModel EventsSpec JoinModel JoinSpec JoinProofs PlannerModel
  PlannerSpec PlannerProofs ExecModel ExecSpec ExecProofs ExecPasses ExecEnd RunSpec RunProofs OrderModel OrderProofs PoolModel PoolSpec PoolProofs PoolProps
  DemuxModel DemuxSpec DemuxProofs DemuxProps NetRunModel NetRunProofs NetRunProps FaultModel FaultProofs CutModel CutProofs AnswerSpec.
From Coq Require Import Sorting.Sorted.

Section Merge.
Context {A : Type}.
Variable le : A -> A -> Prop.
Hypothesis Hle : sorting_order le.

(** One of the streams has a head that comes before all other heads. *)
Lemma least_head (ss : list (list A)) : Forall (eq []) ss \/
  exists pre x s post, ss = pre ++ (x :: s) :: post /\ forall y s', In (y :: s') ss -> le x y.
Proof using Hle.
  destruct Hle as [Ht Htr]. assert (Hrefl : forall a, le a a) by (intros a; destruct (Ht a a); auto).
  induction ss as [|s0 ss IH]; [left; constructor|]. destruct IH as [Hn|(pre & x & s & post & -> & Hx)].
  - destruct s0 as [|x s]; [left; constructor; auto|]. right. exists [], x, s, ss. split; [reflexivity|].
    intros y s' [E|Hin]; [injection E as <- <-; auto|]. rewrite Forall_forall in Hn. specialize (Hn _ Hin). discriminate.
  - right. destruct s0 as [|x0 s0].
    + exists ([] :: pre), x, s, post. split; [reflexivity|]. intros y s' [E|Hin]; [discriminate|eauto].
    + destruct (Ht x0 x) as [H0|H0].
      * exists [], x0, s0, (pre ++ (x :: s) :: post). split; [reflexivity|]. intros y s' [E|Hin]; [injection E as <- <-; auto|]. eauto.
      * exists ((x0 :: s0) :: pre), x, s, post. split; [reflexivity|]. intros y s' [E|Hin]; [injection E as <- <-; auto|]. eauto.
Qed.

Lemma sorted_merge n : forall ss : list (list A), list_sum (map (@List.length A) ss) = n ->
  exists out, merge_of ss out /\ (Forall (StronglySorted le) ss -> StronglySorted le out).
Proof using Hle.
  induction n as [|n IH]; intros ss Hn.
  - exists []. split; [|intros _; constructor]. constructor. clear - Hn. induction ss as [|s ss IHs]; constructor.
    + destruct s; [reflexivity|cbn in Hn; lia].
    + apply IHs. change (List.length s + list_sum (map (@List.length A) ss) = 0) in Hn. lia.
  - destruct (least_head ss) as [Hnil|(pre & x & s & post & -> & Hx)].
    + exfalso. assert (E : list_sum (map (@List.length A) ss) = 0); [|lia]. clear - Hnil. induction Hnil as [|? ? <- _ IHs]; [reflexivity|exact IHs].
    + destruct (IH (pre ++ s :: post)) as (out & Hm & Hs).
      { rewrite map_app, list_sum_app in *. cbn in *. unfold list_sum in *. cbn in *. lia. }
      exists (x :: out). split; [now constructor|]. intros F. apply Forall_app in F as [F1 F2]. inversion F2 as [|? ? Hxs F3]; subst.
      inversion Hxs as [|? ? Hs1 Hs2]; subst.
      constructor; [apply Hs; apply Forall_app; split; [exact F1|constructor; auto]|].
      apply Forall_forall. intros y Hy. apply (Permutation_in _ (merge_perm _ _ Hm)) in Hy. apply in_concat in Hy as (s' & Hin & Hy).
      destruct Hle as [Ht Htr].
      assert (G : forall s'', In s'' (pre ++ (x :: s) :: post) -> StronglySorted le s'' -> In y s'' -> le x y).
      { intros s'' Hi Hss Hys. destruct s'' as [|z s'']; [destruct Hys|]. specialize (Hx z s'' Hi). destruct Hys as [->|Hys]; [exact Hx|].
        inversion Hss as [|? ? _ Hall]; subst. rewrite Forall_forall in Hall. eauto. }
      apply in_app_iff in Hin as [Hin|[<-|Hin]].
      * apply (G s'); [apply in_app_iff; now left| |exact Hy]. rewrite Forall_forall in F1. auto.
      * rewrite Forall_forall in Hs2. auto.
      * apply (G s'); [apply in_app_iff; right; now right| |exact Hy]. rewrite Forall_forall in F3. auto.
Qed.
End Merge.

Section Answers.
Context {row : Type}.
Notation tree := (tree row).
Notation table := (nat -> nat -> list row).
Variable acts : op row -> list row -> list row -> Prop.
Hypothesis Hacts : always_answers acts.

Lemma answerable_node k (cs : list tree) : answerable (Node k cs) -> forall c, In c cs -> answerable c.
Proof. intros [_ H]. rewrite Forall_map, Forall_forall in H. exact H. Qed.
Lemma answerable_ciu w m (cs : list tree) : answerable (Ciu w m cs) -> forall c, In c cs -> answerable c.
Proof. intros H. cbn [answerable] in H. rewrite Forall_map, Forall_forall in H. exact H. Qed.

(** Joins that keep the order of the probe side. *)
Lemma probe_can j c ty np (L R : nat -> list row) (na : list row -> list row -> list row) :
  probe_order j = Some ty ->
  exists out, join_runs j c na np L R out /\ in_probe_order j c np L R out.
Proof.
  intros Hp. set (out := fun p => flat_map (fun r => join ty c (build_rows j L p) [r]) (R p)). exists out.
  assert (Hsafe : is_left_broadcast_safe ty = true /\
    match j with HashJoin false _ ty' | HashJoin true false ty' | NestedLoop ty' => ty' = ty | _ => False end).
  { destruct j as [[] [] ty'|ty'|]; cbn in Hp; try discriminate; destruct (is_left_broadcast_safe ty') eqn:E; try discriminate; injection Hp as <-; auto. }
  destruct Hsafe as [Hsafe Hj].
  assert (Ho : forall p, Permutation (out p) (join ty c (build_rows j L p) (R p))).
  { intros p. unfold out. pose proof (join_safe_split ty c (build_rows j L p) (map (fun r => [r]) (R p)) Hsafe) as H.
    rewrite flat_map_map in H. rewrite H. apply Permutation_refl'. f_equal. clear. induction (R p) as [|r l IH]; [reflexivity|]. cbn. now rewrite IH. }
  split.
  - destruct j as [[] [] ty'|ty'|]; cbn in Hj; try contradiction; subst ty'; cbn [join_runs build_rows] in *; try rewrite Hsafe; intros p _; apply Ho.
  - intros ty' E p _. assert (ty' = ty) as -> by congruence. exists (map (fun r => join ty c (build_rows j L p) [r]) (R p)).
    split; [|unfold out; apply flat_map_concat_map]. induction (R p) as [|r l IH]; constructor; auto.
Qed.

Lemma node_can remote k (cs : list tree) n (fs fs' : list table) (f : table) :
  answerable (Node k cs) -> List.length fs = List.length cs -> List.length fs' = List.length cs ->
  node_runs remote k (map tparts cs) n fs f ->
  exists f', node_delivers acts remote k (map tparts cs) n fs' f'.
Proof using Hacts.
  intros [Ha _] L L' H. destruct k as [l|part|m|spm fetch| |j c hl hr na|o]; cbn [node_runs] in H.
  - destruct fs; [|destruct H]. destruct fs'; [|cbn in L, L'; lia]. exists f. exact H.
  - destruct fs as [|g [|]]; try contradiction. destruct fs' as [|g' [|]]; try (cbn in L, L'; lia). cbn [node_delivers].
    apply (pick_table n (partition_count part) (fun i p r => exists rows, exec (SRepart part (SOther (nth 0 (map tparts cs) 0) (g' i))) p = Ok rows /\
      Permutation r rows /\ (nth 0 (map tparts cs) 0 <= 1 -> r = rows))).
    intros i p Hi Hp. destruct (H i p Hi Hp) as (rows & He & _).
    destruct (exec_any (HRepartition part) _ (g i) (g' i) _ _ p rows eq_refl eq_refl He) as (rows' & He').
    exists rows', rows'. auto.
  - destruct fs as [|g [|]]; try contradiction. destruct fs' as [|g' [|]]; try (cbn in L, L'; lia). cbn [node_delivers].
    apply (pick_table n (nth 0 (map tparts cs) 0 * m) (fun i p r => exec (SBcast m (SOther (nth 0 (map tparts cs) 0) (g' i))) p = Ok r)).
    intros i p Hi Hp. destruct (H i p Hi Hp) as (rows & He & _). cbn [exec parts] in *.
    destruct (nth 0 (map tparts cs) 0 =? 0); [discriminate|]. destruct (_ <? _); [eauto|discriminate].
  - destruct fs as [|g [|]]; try contradiction. destruct fs' as [|g' [|]]; try (cbn in L, L'; lia). cbn [node_delivers].
    destruct H as [HP _].
    destruct (pick (@nil row) n (fun i l => merge_of (map (g' i) (seq 0 (nth 0 (map tparts cs) 0))) l /\
        match spm with
        | Some le => (forall p, p < nth 0 (map tparts cs) 0 -> StronglySorted le (g' i p)) -> StronglySorted le l
        | None => True
        end)) as (out & Hout).
    { intros i _. destruct spm as [le|]; [|eexists; split; [apply merge_concat|exact I]].
      destruct (sorted_merge le Ha _ (map (g' i) (seq 0 (nth 0 (map tparts cs) 0))) eq_refl) as (out & Hm & Hs). exists out. split; [exact Hm|].
      intros Hall. apply Hs. apply Forall_map, Forall_forall. intros p Hp. apply in_seq in Hp. apply Hall. lia. }
    exists (fun i _ => limit_to fetch (out i)). split; [exact HP|]. intros i Hi. exists (out i). destruct (Hout i Hi). auto.
  - cbn [node_delivers]. destruct (pick_table n (list_sum (map tparts cs)) (fun i q rows => forall c g p, nth_error fs' c = Some g -> p < nth c (map tparts cs) 0 ->
      q = list_sum (firstn c (map tparts cs)) + p -> rows = g i p)) as (f' & Hf).
    + intros i q Hi Hq. destruct (place (map tparts cs) q Hq) as (c & p & E & Hp & Hu).
      exists (match nth_error fs' c with Some g => g i p | None => [] end). intros c' g p' Hg Hp' E'.
      destruct (Hu c' p' E' Hp') as [-> ->]. now rewrite Hg.
    + exists f'. destruct fs' as [|? []]; intros i c g p Hi Hg Hp; (apply (Hf i _ Hi (sum_before _ c p Hp) c g p); auto).
  - destruct fs as [|gl [|gr [|]]]; try contradiction. destruct fs' as [|gl' [|gr' [|]]]; try (cbn in L, L'; lia).
    destruct cs as [|cl [|cr [|]]]; try discriminate. cbn [map nth node_delivers] in *.
    destruct (Nat.eq_dec n 0) as [->|Hn].
    { exists f. split; intros i Hi; lia. }
    destruct (H 0 ltac:(lia)) as [Hshape _].
    destruct (probe_order j) as [ty|] eqn:Ep.
    + destruct (pick (fun _ : nat => @nil row) n (fun i out => join_runs j c na (tparts cr) (gl' i) (gr' i) out /\ in_probe_order j c (tparts cr) (gl' i) (gr' i) out)) as (f' & Hf).
      { intros i _. eapply probe_can; eauto. }
      exists f'. split; [|intros i Hi; now apply Hf]. intros i Hi. split; [exact Hshape|]. now apply Hf.
    + destruct (join_can remote j c hl hr na (tparts cl) (tparts cr) n gl' gr') as (f' & Hf).
      { destruct j as [[] a0 ty|ty|]; auto. }
      exists f'. split; [exact Hf|]. intros i Hi ty E. congruence.
  - destruct fs as [|g [|]]; try contradiction. destruct fs' as [|g' [|]]; try (cbn in L, L'; lia). cbn [node_delivers].
    apply (pick_table n (nth 0 (map tparts cs) 0) (fun i p r => acts o (g' i p) r)). intros i p _ _. apply Hacts.
Qed.

(** Boundaries. *)
Lemma boundary_any b (part : partitioning row) tasks P (mk : nat -> (nat -> list row) -> splan row) (g g' : table) n (f : table) :
  (forall t run, strip_head (mk t run) = SOther P run) ->
  boundary_yields b part tasks (fun t => mk t (g t)) n f ->
  exists f', boundary_delivers b part tasks P (fun t => mk t (g' t)) n f'.
Proof.
  intros Hmk H.
  assert (Hobs : exists f0, observes (boundary_execute b part tasks (fun t => mk t (g t))) n (partition_count part) f0).
  { destruct b; cbn [boundary_yields] in H; [destruct H as (f0 & H & _); eauto|eauto|eauto]. }
  destruct Hobs as (f0 & Hobs).
  apply (pick_table n (partition_count part) (fun i p r => exists canon streams,
    boundary_execute b part tasks (fun t => mk t (g' t)) (mkCtx i n) p = Ok canon /\ Forall2 (sent b P) canon streams /\ merge_of streams r)).
  intros i p Hi Hp. destruct (Hobs i p Hi Hp) as (canon & He & _).
  rewrite boundary_execute_requests in He |- *. destruct (boundary_requests b part tasks (mkCtx i n) p) as [reqs| |]; cbn [bind] in *; try discriminate.
  destruct (mapM_any _ (pool_execute (fun t => mk t (g' t)) tasks tasks) _ _ He) as (canon' & He').
  { intros r y _ Hy. exact (pool_execute_any (fun t => mk t (g t)) (fun t => mk t (g' t)) P _ _ r y tasks (Hmk _ _) (Hmk _ _) Hy). }
  exists (List.concat canon'), canon', canon'. split; [exact He'|]. split; [|apply merge_concat].
  clear. induction canon'; constructor; auto. destruct b; cbn; auto.
Qed.

(** Isolated unions. *)
Lemma isolated_any P w m (cs : list tree) (fs gs : list table) ctx p l : List.length fs = List.length cs -> List.length gs = List.length cs ->
  ciu_execute (mkCiu P (isolated_children cs fs) w m) ctx p = Ok l ->
  exists x, ciu_execute (mkCiu P (isolated_children cs gs) w m) ctx p = Ok x.
Proof.
  intros L1 L2.
  assert (Hp : forall hs : list table, List.length hs = List.length cs -> map ch_parts (isolated_children cs hs) = map tparts cs).
  { clear. unfold isolated_children. induction cs as [|c cs IH]; intros [|h hs] L; try discriminate; [reflexivity|]. cbn. f_equal. apply IH. cbn in L. lia. }
  unfold ciu_execute, ciu_delegate. cbn [task_idx_map ciu_children]. destruct (nth_error m (task_index ctx)) as [s|]; [|discriminate].
  rewrite (pick_parts (isolated_children cs fs) (isolated_children cs gs) s) by (rewrite !Hp; auto).
  destruct (CiuModel.pick (isolated_children cs gs) s p) as [[[[i cctx] q]|]| |]; cbn [bind]; try discriminate; [|eauto].
  unfold isolated_children. rewrite !nth_error_map.
  destruct (nth_error (combine cs fs) i) as [[c o]|] eqn:Eo; cbn; [|discriminate]. intros _.
  assert (i < List.length (combine cs gs)).
  { assert (i < List.length (combine cs fs)) by (apply nth_error_Some; congruence). rewrite combine_length in *. lia. }
  destruct (nth_error (combine cs gs) i) as [[c' g]|] eqn:Eg; [cbn; eauto|apply nth_error_None in Eg; lia].
Qed.

Theorem can_deliver (t : tree) : forall remote n f, answerable t -> runs remote t n f -> exists f', delivers acts remote t n f'.
Proof using Hacts.
  induction t as [k cs IH|w m cs IH|b part q num tasks i IH IH2] using tree_ind2; intros remote n f Ha H.
  - apply runs_node in H as (fs & F & Hf).
    assert (G : exists gs, Forall2 (fun c g => delivers acts remote c n g) cs gs).
    { pose proof (answerable_node k cs Ha) as Hc. clear - IH F Hc. induction F as [|c f cs fs Hcf F IHF]; [exists []; constructor|].
      destruct (IH c (or_introl eq_refl) _ _ _ (Hc c (or_introl eq_refl)) Hcf) as (g & Hg).
      destruct IHF as (gs & Hgs); [intros c0 Hc0; apply IH; now right|intros; apply Hc; now right|]. exists (g :: gs). constructor; auto. }
    destruct G as (gs & Hgs).
    assert (L1 : List.length fs = List.length cs) by (clear - F; induction F; cbn; lia).
    assert (L2 : List.length gs = List.length cs) by (clear - Hgs; induction Hgs; cbn; lia).
    destruct (node_can remote k cs n fs gs f Ha L1 L2 Hf) as (f' & Hf'). exists f'. apply delivers_node. eauto.
  - apply runs_ciu in H as (fs & [L F] & Hf). pose proof (answerable_ciu w m cs Ha) as Hc.
    destruct (@children_choice nat 0 (fun x => x) _ _ _ (fun j c f g => delivers acts remote c (nth j (map_task_counts (List.length cs) m) 0) g) cs fs L) as (gs & Lg & Hgs).
    { intros j c f0 Ec Ef. exact (IH c (nth_error_In _ _ Ec) _ _ _ (Hc c (nth_error_In _ _ Ec)) (F j c f0 Ec Ef)). }
    destruct (pick_table n (tparts (Ciu w m cs)) (fun i p r => ciu_execute (mkCiu (tparts (Ciu w m cs)) (isolated_children cs gs) w m) (mkCtx i n) p = Ok r)) as (f' & Hf').
    { intros i p Hi Hp. destruct (Hf i p Hi Hp) as (rows & He & _). exact (isolated_any _ _ _ cs fs gs _ _ rows L Lg He). }
    exists f'. apply delivers_ciu. exists gs. split; [split; [exact Lg|]|exact Hf'].
    intros j c g Ec Eg. destruct (nth_error fs j) as [f0|] eqn:Ef.
    + destruct (Hgs j c f0 Ec Ef) as (g' & E & Hd). rewrite Eg in E. now injection E as <-.
    + apply nth_error_None in Ef. assert (j < List.length gs) by (apply nth_error_Some; congruence). lia.
  - cbn [answerable] in Ha.
    destruct i as [[l|p|m|spm fetch| |j c hl hr na|oo] cs|w m cs|b' part' q' num' tasks' i].
    2, 3: destruct cs as [|c [|c' cs]].
    all: destruct H as (g0 & Hg0 & Hb0).
    all: first [destruct (IH _ _ _ Ha Hg0) as (g & Hg)|destruct (IH2 _ _ _ eq_refl (or_introl eq_refl) _ _ _ (answerable_node _ _ Ha _ (or_introl eq_refl)) Hg0) as (g & Hg)].
    all: lazymatch type of Hb0 with
      | boundary_yields _ _ _ (fun t => SRepart ?p (SOther ?P _)) _ _ =>
          destruct (boundary_any b part tasks P (fun _ run => SRepart p (SOther P run)) g0 g n f (fun _ _ => eq_refl) Hb0) as (f' & Hf')
      | boundary_yields _ _ _ (fun t => SBcast ?p (SOther ?P _)) _ _ =>
          destruct (boundary_any b part tasks P (fun _ run => SBcast p (SOther P run)) g0 g n f (fun _ _ => eq_refl) Hb0) as (f' & Hf')
      | boundary_yields _ _ _ (fun t => SOther ?P _) _ _ =>
          destruct (boundary_any b part tasks P (fun _ run => SOther P run) g0 g n f (fun _ _ => eq_refl) Hb0) as (f' & Hf')
      end.
    all: exists f'; exists g; split; assumption.
Qed.
End Answers.
