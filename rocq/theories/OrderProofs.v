(** Proofs about the order of rows. *)
From Verif Require Import Base NetModel NetSpec NetProofs CiuModel CiuSpec CiuProofs EventsModel JoinModel JoinSpec JoinProofs
  PlannerModel PlannerSpec PlannerProofs ExecModel ExecSpec ExecProofs ExecPasses ExecEnd RunProofs FetchSpec FetchProofs
  OrderModel OrderSpec.
From Coq Require Import Sorting.Sorted.

(** ** Sorted sequences *)

Section Sorted_.
Context {A : Type}.
Implicit Types le : A -> A -> Prop.

Lemma sorted_any (l : list A) : StronglySorted (fun _ _ => True) l.
Proof. induction l; constructor; auto. now apply Forall_forall. Qed.
Lemma sorted_weaken le le' (l : list A) : (forall x y, le x y -> le' x y) -> StronglySorted le l -> StronglySorted le' l.
Proof. intros H. induction 1; constructor; auto. eapply Forall_impl; [|eassumption]. auto. Qed.
Lemma sorted_filter le (f : A -> bool) l : StronglySorted le l -> StronglySorted le (filter f l).
Proof.
  induction 1 as [|x l Hl IH Hx]; cbn; [constructor|]. destruct (f x); [|exact IH]. constructor; [exact IH|].
  rewrite Forall_forall in *. intros y Hy. apply filter_In in Hy as [Hy _]. auto.
Qed.
Lemma sorted_firstn le n l : StronglySorted le l -> StronglySorted le (firstn n l).
Proof.
  intros H. revert n. induction H as [|x l Hl IH Hx]; intros [|n]; cbn; try constructor; auto.
  rewrite Forall_forall in *. intros y Hy. apply Hx. rewrite <- (firstn_skipn n l). apply in_app_iff. now left.
Qed.
Lemma sorted_app le a b : StronglySorted le a -> StronglySorted le b -> (forall x y, In x a -> In y b -> le x y) ->
  StronglySorted le (a ++ b).
Proof.
  intros Ha Hb H. induction Ha as [|x a Ha IH Hx]; cbn; [exact Hb|]. constructor.
  - apply IH. intros. apply H; [now right|assumption].
  - apply Forall_app. split; [exact Hx|]. apply Forall_forall. intros y Hy. apply H; [now left|exact Hy].
Qed.
Lemma sorted_concat {B} le (leb : B -> B -> Prop) (blocks : list (list A)) (keys : list B) (own : B -> list A -> Prop) :
  Forall2 own keys blocks -> StronglySorted leb keys ->
  (forall k b, own k b -> StronglySorted le b) ->
  (forall k k' b b' x y, leb k k' -> own k b -> own k' b' -> In x b -> In y b' -> le x y) ->
  StronglySorted le (List.concat blocks).
Proof.
  intros F Hs H1 H2. induction F as [|k b keys blocks Hk F IH]; cbn; [constructor|].
  inversion Hs as [|? ? Hs' Hk']; subst. apply sorted_app; [eauto|auto|]. intros x y Hx Hy.
  apply in_concat in Hy as (b' & Hb' & Hy). rewrite Forall_forall in Hk'.
  clear -F Hb' Hk' H2 Hk Hx Hy. induction F as [|k' b2 keys blocks Ho F IH]; [destruct Hb'|].
  destruct Hb' as [->|Hb']; [eapply (H2 k k'); eauto; apply Hk'; now left|]. apply IH; [|exact Hb']. intros. apply Hk'. now right.
Qed.
Lemma sorted_map_snd le (l : list (nat * A)) : StronglySorted (fun a b => le (snd a) (snd b)) l -> StronglySorted le (map snd l).
Proof.
  induction 1 as [|x l Hl IH Hx]; cbn; constructor; auto. apply Forall_map. exact Hx.
Qed.
Lemma sorted_combine le (ns : list nat) (l : list A) : StronglySorted le l -> StronglySorted (fun a b => le (snd a) (snd b)) (combine ns l).
Proof.
  intros H. revert ns. induction H as [|x l Hl IH Hx]; intros [|n ns]; cbn; try constructor; auto.
  rewrite Forall_forall in *. intros [m y] Hy. apply in_combine_r in Hy. cbn. auto.
Qed.
End Sorted_.

(** ** Isolated unions *)

Lemma push_own r i e r' : push_at r i e = Ok r' -> task_index (snd e) < task_count (snd e) -> own_contexts r -> own_contexts r'.
Proof.
  unfold push_at. destruct (nth_error r i) as [s|] eqn:Es; [|discriminate]. intros H He Hr. injection H as <-.
  intros s' e' Hs' He'. apply In_nth_error in Hs' as (j & Hj). rewrite upd_nth in Hj.
  destruct (Nat.eqb_spec i j) as [Eij|]; [subst j|].
  - rewrite Es in Hj. injection Hj as <-. apply in_app_iff in He' as [He'|[<-|[]]]; [|exact He].
    apply (Hr s); [eapply nth_error_In; eauto|exact He'].
  - apply (Hr s'); [eapply nth_error_In; eauto|exact He'].
Qed.
Lemma lay_child_own c k tis : forall r t r' t', (forall x, In x tis -> x < k) -> lay_child c k tis r t = Ok (r', t') ->
  own_contexts r -> own_contexts r'.
Proof.
  induction tis as [|ti tis IH]; intros r t r' t' Hk H Hr; cbn in H; [injection H as <- _; exact Hr|].
  destruct (push_at r t _) as [r1| |] eqn:E; cbn in H; try discriminate. eapply IH; [|exact H|]; [intros; apply Hk; now right|].
  eapply push_own; [exact E|apply Hk; now left|exact Hr].
Qed.
Lemma lay_out_own counts : forall c r t r' t', lay_out c counts r t = Ok (r', t') -> own_contexts r -> own_contexts r'.
Proof.
  induction counts as [|k counts IH]; intros c r t r' t' H Hr; cbn in H; [injection H as <- _; exact Hr|].
  destruct (lay_child c k (seq 0 k) r t) as [[r1 t1]| |] eqn:E; cbn in H; try discriminate. eapply IH; [exact H|].
  eapply lay_child_own; [|exact E|exact Hr]. intros x Hx. apply in_seq in Hx. lia.
Qed.
Lemma lay_zero_own counts : forall c o z r r', lay_zero c counts o z r = Ok r' -> own_contexts r -> own_contexts r'.
Proof.
  induction counts as [|k counts IH]; intros c o z r r' H Hr; cbn in H; [injection H as <-; exact Hr|].
  destruct (negb (k =? 0)); [eauto|]. destruct (push_at r _ _) as [r1| |] eqn:E; cbn in H; try discriminate.
  eapply IH; [exact H|]. eapply push_own; [exact E|cbn; lia|exact Hr].
Qed.
Lemma split_own w n m : split_children w n = Ok m -> own_contexts m.
Proof.
  unfold split_children. intros H. destruct (n =? 0); [discriminate|]. destruct (List.length w =? 0); [discriminate|].
  destruct (negb _); [discriminate|]. destruct (final_counts _ _ _ _) as [counts| |]; cbn in H; try discriminate.
  unfold layout in H. destruct (lay_out 0 counts (repeat [] n) 0) as [[r t]| |] eqn:E; cbn [bind] in H; try discriminate.
  assert (Hr : own_contexts r).
  { eapply lay_out_own; [exact E|]. intros s e Hs He. apply repeat_spec in Hs. subst. destruct He. }
  destruct (0 <? t); [eapply lay_zero_own; eauto|]. injection H as <-. exact Hr.
Qed.

Lemma fold_bump_mono es : forall counts i k, nth_error counts i = Some k ->
  exists k', nth_error (fold_left bump es counts) i = Some k' /\ k <= k'.
Proof.
  induction es as [|e es IH]; intros counts i k H; cbn; [eauto|].
  destruct (IH _ i _ (bump_nth counts e i k H)) as (k' & E & Hk). exists k'. split; [exact E|]. destruct (fst e =? i); lia.
Qed.
Lemma counts_flat n m : map_task_counts n m = fold_left bump (List.concat m) (repeat 0 n).
Proof.
  unfold map_task_counts. generalize (repeat 0 n).
  induction m as [|s m IH]; intros counts; cbn [fold_left List.concat]; [reflexivity|].
  rewrite fold_left_app, IH. f_equal. generalize counts.
  induction s as [|[i ctx] s IHs]; intros cs; cbn [fold_left]; [reflexivity|]. apply IHs.
Qed.
Lemma counts_above n m s i ctx : In s m -> In (i, ctx) s -> i < n -> task_count ctx <= nth i (map_task_counts n m) 0.
Proof.
  intros Hs He Hi. rewrite counts_flat.
  assert (Hc : In (i, ctx) (List.concat m)) by (apply in_concat; eauto).
  apply in_split in Hc as (a & b & ->). rewrite fold_left_app. cbn [fold_left].
  destruct (nth_error (fold_left bump a (repeat 0 n)) i) as [k|] eqn:E.
  2: { apply nth_error_None in E. rewrite fold_bump_length, repeat_length in E. lia. }
  pose proof (bump_nth _ (i, ctx) i k E) as Hb. cbn [fst snd] in Hb. rewrite Nat.eqb_refl in Hb.
  destruct (fold_bump_mono b _ i _ Hb) as (k' & E' & Hk'). rewrite (nth_error_nth _ _ 0 E'). lia.
Qed.

Section Pick.
Context {row : Type}.
Lemma pick_inv (children : list (child row)) : forall s p i ctx q, CiuModel.pick children s p = Ok (Some (i, ctx, q)) ->
  In (i, ctx) s /\ exists c, nth_error children i = Some c /\ q < ch_parts c.
Proof.
  induction s as [|[j cx] s IH]; intros p i ctx q H; cbn [CiuModel.pick] in H; [discriminate|].
  destruct (nth_error children j) as [c|] eqn:Ec; [|discriminate]. destruct (Nat.ltb_spec p (ch_parts c)).
  - injection H as <- <- <-. split; [now left|]. eauto.
  - destruct (IH _ _ _ _ H) as [H1 H2]. split; [now right|exact H2].
Qed.
End Pick.

Section Order.
Context {row : Type}.
Notation tree := (tree row).
Notation table := (nat -> nat -> list row).
Variable acts : op row -> list row -> list row -> Prop.
Notation delivers := (delivers acts).
Notation promises := (promises acts).

Lemma delivers_node rem k (cs : list tree) n (f : table) :
  delivers rem (Node k cs) n f <->
  exists fs, Forall2 (fun c g => delivers rem c n g) cs fs /\ node_delivers acts rem k (map tparts cs) n fs f.
Proof.
  cbn [OrderModel.delivers]. split; intros (fs & H1 & H2); exists fs; (split; [|exact H2]); now apply Forall2_map_l in H1 || apply Forall2_map_l.
Qed.
Lemma delivers_one rem k (c : tree) n (f : table) :
  delivers rem (Node k [c]) n f -> exists g, delivers rem c n g /\ node_delivers acts rem k [tparts c] n [g] f.
Proof. intros H. apply delivers_node in H as (fs & F & H). apply Forall2_one in F as (g & -> & Hg). eauto. Qed.
Lemma delivers_ciu rem w m (cs : list tree) n (f : table) :
  delivers rem (Ciu w m cs) n f <->
  exists fs, (List.length fs = List.length cs /\
    forall i c g, nth_error cs i = Some c -> nth_error fs i = Some g ->
      delivers rem c (nth i (map_task_counts (List.length cs) m) 0) g) /\
    forall i p, i < n -> p < tparts (Ciu w m cs) ->
      ciu_execute (mkCiu (tparts (Ciu w m cs)) (isolated_children cs fs) w m) (mkCtx i n) p = Ok (f i p).
Proof.
  split; intros (fs & H1 & H2); exists fs; (split; [|exact H2]).
  - exact (proj1 (combined_Forall2 (delivers rem) (fun P d => P d) cs _ fs (map_task_counts_length _ _)) H1).
  - exact (proj2 (combined_Forall2 (delivers rem) (fun P d => P d) cs _ fs (map_task_counts_length _ _)) H1).
Qed.

Lemma delivers_bare rem b part q num tasks (x : tree) N f : bare x = true ->
  delivers rem (Net b part q num tasks x) N f <->
  exists g, delivers true x tasks g /\ boundary_delivers b part tasks (tparts x) (fun t => SOther (tparts x) (g t)) N f.
Proof. destruct x as [[] cs| |]; cbn [bare]; intros E; try discriminate; reflexivity. Qed.

Lemma sent_same b P (canon streams : list (list row)) : b <> BShuffle -> Forall2 (sent b P) canon streams -> streams = canon.
Proof. intros Hb. induction 1 as [|c s cs ss H F IH]; [reflexivity|]. f_equal; [|exact IH]. destruct b; [congruence|exact H|exact H]. Qed.

Lemma delivered_coalesce part tasks P producers n (f : table) : boundary_delivers BCoalesce part tasks P producers n f ->
  observes (boundary_execute BCoalesce part tasks producers) n (partition_count part) f.
Proof.
  intros H i p Hi Hp. destruct (H i p Hi Hp) as (canon & ss & He & F & Hm). apply sent_same in F; [|discriminate]. subst. eauto.
Qed.

(** ** Promised orders are kept *)

Lemma repart_one part (g : nat -> list row) P p rows le : P <= 1 -> (p < P -> True) ->
  (forall q, q < P -> StronglySorted le (g q)) -> exec (SRepart part (SOther P g)) p = Ok rows -> StronglySorted le rows.
Proof.
  intros HP _ Hg H. cbn [exec parts] in H.
  destruct P as [|[|P]]; [| |lia].
  - cbn [seq mapM bind] in H. destruct part; try discriminate; destruct (p <? n); try discriminate; injection H as <-; constructor.
  - specialize (Hg 0 ltac:(lia)). cbn [seq mapM exec] in H. change (0 <? 1) with true in H. cbn [bind List.concat List.length] in H. rewrite app_nil_r in H.
    destruct part as [n|h n|n|n]; try discriminate; destruct (p <? n); try discriminate; injection H as <-.
    + cbn [indexed List.length seq combine flat_map]. rewrite app_nil_r. apply sorted_map_snd. apply sorted_filter.
      unfold indexed. now apply sorted_combine.
    + now apply sorted_filter.
Qed.

Lemma promises_kept single (t : tree) le : promises single t le ->
  forall rem n f, delivers rem t n f -> forall i p, i < n -> p < tparts t -> StronglySorted le (f i p).
Proof.
  induction 1 as [t|t le le' H IH Hle|l le Hl|o c le le' H IH Hk|le fetch c H IH|cs le Hne H IH|w m cs le Hne Hown H IH
    |j c hl hr na l r ty le le' Hj H IH Hk|part c le Hs Hc H IH|part q num tasks plan le Hb H IH];
    intros rem n f Hf i p Hi Hp.
  - apply sorted_any.
  - eapply sorted_weaken; eauto.
  - apply delivers_node in Hf as (fs & F & Hf). inversion F; subst. exact (Hl _ _ _ _ (Hf i p Hi Hp)).
  - apply delivers_one in Hf as (g & Hg & Hf). cbn [tparts map nth] in Hp. cbn [node_delivers nth] in Hf.
    eapply Hk; [exact (Hf i p Hi Hp)|]. eapply IH; eauto.
  - apply delivers_one in Hf as (g & Hg & Hone & Hf). cbn [tparts] in Hp. assert (p = 0) as -> by lia.
    destruct (Hf i Hi) as (l & Hm & Hl & ->). cbn [nth] in *.
    assert (Hs : StronglySorted le l) by (apply Hl; intros; eapply IH; eauto).
    destruct fetch; cbn [limit_to]; [now apply sorted_firstn|exact Hs].
  - apply delivers_node in Hf as (fs & F & Hf). cbn [tparts] in Hp.
    destruct (place (map tparts cs) p Hp) as (c & q & -> & Hq & _). apply Forall2_nth in F as [L F].
    destruct (nth_error cs c) as [tc|] eqn:Ec.
    2: { apply nth_error_None in Ec. rewrite nth_overflow in Hq by (now rewrite map_length). lia. }
    destruct (nth_error fs c) as [g|] eqn:Eg.
    2: { apply nth_error_None in Eg. assert (c < List.length cs) by (apply nth_error_Some; congruence). lia. }
    cbn [node_delivers] in Hf. rewrite (Hf i c g q Hi Eg Hq).
    eapply (IH tc); [eapply nth_error_In; eauto|exact (F c tc g Ec Eg)|exact Hi|].
    rewrite (nth_error_nth (map tparts cs) c 0 (x := tparts tc)) in Hq; [exact Hq|]. now rewrite nth_error_map, Ec.
  - apply delivers_ciu in Hf as (fs & [L F] & Hf). specialize (Hf i p Hi Hp).
    unfold ciu_execute, ciu_delegate in Hf. cbn [task_idx_map ciu_children task_index] in Hf.
    destruct (nth_error m i) as [s|] eqn:Es; [|discriminate].
    destruct (CiuModel.pick (isolated_children cs fs) s p) as [[[[j ctx] q]|]| |] eqn:Ep; cbn [bind] in Hf; try discriminate.
    2: { injection Hf as <-. constructor. }
    apply pick_inv in Ep as (Hin & ch & Ech & Hq). rewrite Ech in Hf.
    assert (Hj : j < List.length cs).
    { rewrite <- (isolated_length single_node 1 cs fs L). apply nth_error_Some. congruence. }
    destruct (isolated_nth single_node 1 cs fs j L Hj) as (tc & g & Ec & Eg & E). rewrite E in Ech. injection Ech as <-.
    cbn [ch_run ch_parts] in Hf, Hq. injection Hf as <-.
    apply nth_error_In in Es. pose proof (Hown s _ Es Hin) as Ho. cbn [snd] in Ho.
    pose proof (counts_above (List.length cs) m s j ctx Es Hin Hj) as Ha.
    eapply (IH tc); [eapply nth_error_In; eauto|exact (F j tc g Ec Eg)|lia|exact Hq].
  - apply delivers_node in Hf as (fs & F & Hf). apply Forall2_two in F as (gl & gr & -> & Fl & Fr).
    cbn [node_delivers] in Hf. destruct Hf as [Hr Hf].
    assert (Hp' : p < tparts r).
    { cbn [node_runs map nth] in Hr. destruct (Hr i Hi) as [Hpart _]. cbn [tparts map nth] in Hp.
      destruct j as [[|] ? ?|?|]; cbn in Hp, Hpart; lia. }
    destruct (Hf i Hi ty Hj p Hp') as (blocks & Fb & ->). destruct Hk as [Hk1 Hk2].
    eapply sorted_concat; [exact Fb|eapply IH; eauto| |].
    + intros k b Hb. cbn in Hb. specialize (Hk2 (build_rows j (gl i) p) k).
      assert (G : forall x y, In x b -> In y b -> le' x y).
      { intros x y Hx Hy. apply Hk2; eapply Permutation_in; eauto. }
      clear -G. induction b as [|x b IHb]; constructor; [apply IHb; intros; apply G; now right|].
      apply Forall_forall. intros y Hy. apply G; [now left|now right].
    + intros k k' b b' x y Hle Hb Hb' Hx Hy. cbn in Hb, Hb'. eapply Hk1; [exact Hle| |]; eapply Permutation_in; eauto.
  - apply delivers_one in Hf as (g & Hg & Hf). cbn [tparts] in Hp. cbn [node_delivers nth] in Hf.
    destruct (Hf i p Hi Hp) as (rows & He & _ & ->); [|exact Hc].
    eapply repart_one; [exact Hc|auto| |exact He]. intros q Hq. eapply IH; eauto.
  - apply delivers_bare in Hf as (g & Hg & Ho); [|exact Hb]. apply delivered_coalesce in Ho. cbn [tparts] in Hp.
    destruct (coalesce_hands_on (fun a _ => StronglySorted le a) part tasks (tparts plan) g g n (partition_count part) f) as (_ & _ & G); auto.
    + constructor.
    + intros t x Ht Hx. eapply IH; eauto.
Qed.

(** ** Plans that are served run as they should *)

Variable needs : op row -> option (row -> row -> Prop).
Notation serves := (serves acts needs).

Lemma serves_node single k (cs : list tree) : serves single (Node k cs) ->
  (forall o, k = KOp o -> well_behaved acts needs o /\ (forall c le, In c cs -> needs o = Some le -> promises single c le) /\
    match o with OAgg APartial _ a => well_behaved acts needs (OAgg APartialReduce AnyDistribution a) /\
      needs (OAgg APartialReduce AnyDistribution a) = None | _ => True end) /\
  (forall c, In c cs -> serves single c).
Proof.
  intros [H1 H2]. split; [intros o ->; exact H1|]. rewrite Forall_map, Forall_forall in H2. exact H2.
Qed.
Lemma serves_intro single k (cs : list tree) :
  (forall o, k = KOp o -> well_behaved acts needs o /\ (forall c le, In c cs -> needs o = Some le -> promises single c le) /\
    match o with OAgg APartial _ a => well_behaved acts needs (OAgg APartialReduce AnyDistribution a) /\
      needs (OAgg APartialReduce AnyDistribution a) = None | _ => True end) ->
  (forall c, In c cs -> serves single c) -> serves single (Node k cs).
Proof.
  intros H1 H2. cbn [OrderSpec.serves]. split; [|now apply Forall_map, Forall_forall].
  destruct k; auto.
Qed.
Lemma serves_ciu single w m (cs : list tree) : serves single (Ciu w m cs) <-> forall c, In c cs -> serves single c.
Proof. cbn [OrderSpec.serves]. now rewrite Forall_map, Forall_forall. Qed.

Lemma delivered_boundary b part tasks P producers n (f : table) : boundary_delivers b part tasks P producers n f ->
  boundary_yields b part tasks producers n f.
Proof.
  intros H. destruct b; cbn [boundary_yields].
  - assert (G : forall i p, i < n -> p < partition_count part -> exists out,
      (exists canon, boundary_execute BShuffle part tasks producers (mkCtx i n) p = Ok canon /\ merge_of canon out) /\
      Permutation (f i p) out).
    { intros i p Hi Hp. destruct (H i p Hi Hp) as (canon & ss & He & F & Hm). exists (List.concat canon).
      split; [exists canon; split; [exact He|apply merge_concat]|]. rewrite (merge_perm _ _ Hm). clear -F.
      induction F as [|c s cs ss [Hs _] F IH]; [reflexivity|]. cbn. now rewrite Hs, IH. }
    destruct (finite_choice2 [] n (partition_count part) _ G) as (f0 & Hf). exists f0. split.
    + intros i p Hi Hp. exact (proj1 (Hf i p Hi Hp)).
    + intros i p Hi Hp. exact (proj2 (Hf i p Hi Hp)).
  - intros i p Hi Hp. destruct (H i p Hi Hp) as (canon & ss & He & F & Hm). apply sent_same in F; [|discriminate]. subst. eauto.
  - now apply delivered_coalesce in H.
Qed.

(** What holds of all trees, given that it holds of their subtrees and of the children of these. *)
Lemma tree_ind2 (P : tree -> Prop) :
  (forall k cs, (forall c, In c cs -> P c) -> P (Node k cs)) ->
  (forall w m cs, (forall c, In c cs -> P c) -> P (Ciu w m cs)) ->
  (forall b part q num tasks i, P i -> (forall k cs c, i = Node k cs -> In c cs -> P c) -> P (Net b part q num tasks i)) ->
  forall t, P t.
Proof.
  intros H1 H2 H3 t. cut (P t /\ forall k cs c, t = Node k cs -> In c cs -> P c); [tauto|].
  induction t as [k cs IH|w m cs IH|b part q num tasks i IH] using tree_ind'; try (rewrite Forall_forall in IH).
  - split; [apply H1; intros c Hc; apply IH; exact Hc|]. intros k' cs' c E Hc. injection E as -> ->. apply IH; exact Hc.
  - split; [apply H2; intros c Hc; apply IH; exact Hc|]. discriminate.
  - split; [apply H3; apply IH|discriminate].
Qed.

Lemma delivers_runs single (t : tree) : serves single t -> forall rem n f, delivers rem t n f -> runs rem t n f.
Proof.
  induction t as [k cs IH|w m cs IH|b part q num tasks i IH IH2] using tree_ind2; intros Hs rem n f Hf.
  - apply serves_node in Hs as [Ho Hc]. apply delivers_node in Hf as (fs & F & Hf).
    apply runs_node. exists fs. split.
    { eapply Forall2_impl_in; [|exact F]. intros c g Hin Hg. auto. }
    destruct k as [l|part|m|spm fetch| |j c hl hr na|o]; cbn [node_delivers] in Hf.
    + destruct fs; [exact Hf|destruct Hf].
    + destruct fs as [|g [|]]; try contradiction. intros i p Hi Hp. destruct (Hf i p Hi Hp) as (rows & H1 & H2 & _). eauto.
    + destruct fs as [|g [|]]; try contradiction. intros i p Hi Hp. eauto.
    + destruct fs as [|g [|]]; try contradiction. destruct Hf as [H1 Hf]. split; [exact H1|]. intros i Hi.
      destruct (Hf i Hi) as (l & Hm & _ & E). exists l. split; [|exact E]. rewrite flat_map_concat_map. now apply merge_perm.
    + intros i c g p Hi Hg Hp. now rewrite (Hf i c g p Hi Hg Hp).
    + destruct fs as [|gl [|gr [|]]]; try contradiction. exact (proj1 Hf).
    + destruct fs as [|g [|]]; try contradiction.
      destruct cs as [|c [|]]; [inversion F| |inversion F as [|? ? ? ? ? F']; inversion F'].
      destruct (Ho o eq_refl) as (Hw & Hn & _). inversion F as [|? ? ? ? Hg _]; subst.
      intros i p Hi Hp. cbn [map nth] in Hp, Hf. exists (g i p). split; [reflexivity|]. apply Hw; [auto|].
      intros le Hle. eapply promises_kept; [exact (Hn c le (or_introl eq_refl) Hle)|exact Hg|exact Hi|exact Hp].
  - rewrite serves_ciu in Hs. apply delivers_ciu in Hf as (fs & [L F] & Hf).
    apply runs_ciu. exists fs. split; [split; [exact L|]|].
    + intros i c g Hc Hg. pose proof (nth_error_In _ _ Hc). eauto.
    + intros i p Hi Hp. eauto.
  - cbn [OrderSpec.serves] in Hs. specialize (IH Hs).
    assert (Bare : bare i = true -> runs rem (Net b part q num tasks i) n f).
    { intros B. apply delivers_bare in Hf as (g & Hg & Ho); [|exact B]. apply runs_net_bare; [exact B|]. exists g.
      split; [now apply IH|]. eapply delivered_boundary; eauto. }
    destruct i as [[l|p|m|spm fetch| |j c hl hr na|o] cs|w m cs|b' part' q' num' tasks' i]; try (apply Bare; reflexivity).
    all: destruct cs as [|c [|]]; destruct Hf as (g & Hg & Ho); exists g; (split; [|eapply delivered_boundary; eauto]);
      try (now apply IH).
    all: eapply (IH2 _ _ c eq_refl (or_introl eq_refl)); [|exact Hg]; apply serves_node in Hs as [_ Hs]; apply Hs; now left.
Qed.
End Order.

(** ** The passes of the planner *)

Section Passes.
Context {row : Type}.
Notation tree := (tree row).
Notation table := (nat -> nat -> list row).
Variable acts : op row -> list row -> list row -> Prop.
Variable needs : op row -> option (row -> row -> Prop).
Notation promises := (promises acts).
Notation serves := (serves acts needs).

Lemma promises_total single (t : tree) (le : row -> row -> Prop) : (forall x y, le x y) -> promises single t le.
Proof. intros H. apply pr_weaken with (fun _ _ => True); [apply pr_any|auto]. Qed.

Lemma promises_none (t : tree) le : promises false t le -> bare t = false -> forall x y, le x y.
Proof. induction 1; intros B; try discriminate; auto. Qed.

Lemma normalize_bare cfg (t t' : tree) : normalize cfg t = Ok t' -> bare t = true -> bare t' = true.
Proof.
  destruct t as [k cs|w m cs|b p q n ts i]; intros H B.
  - apply normalize_node in H as [(cs' & -> & _)|[H|H]].
    + destruct k; try reflexivity; discriminate.
    + destruct H as (? & ? & ? & ? & ? & ? & ? & ? & ? & ? & ? & ? & _ & _ & _ & _ & _ & _ & _ & ->). reflexivity.
    + destruct H as (? & ? & ? & ? & ? & ? & ? & ? & ? & ? & _ & _ & _ & _ & _ & _ & ->). reflexivity.
  - cbn [normalize] in H. destruct (seqM _); cbn in H; try discriminate. injection H as <-. reflexivity.
  - cbn [normalize] in H. destruct (normalize cfg i); cbn in H; try discriminate. injection H as <-. reflexivity.
Qed.

Lemma Forall2_promises (f : tree -> Res tree) (cs cs' : list tree) le : Forall2 (fun c c' => f c = Ok c') cs cs' ->
  (forall c, In c cs -> forall c', f c = Ok c' -> promises false c' le) -> forall c', In c' cs' -> promises false c' le.
Proof. intros F H c' Hc'. destruct (Forall2_in_r _ _ _ F c' Hc') as (c & Hc & E). eauto. Qed.
Lemma Forall2_nonempty {A B} (R : A -> B -> Prop) l l' : Forall2 R l l' -> l <> [] -> l' <> [].
Proof. intros F H ->. inversion F. congruence. Qed.

Lemma normalize_promises cfg (t : tree) le : promises false t le -> forall t', normalize cfg t = Ok t' -> promises false t' le.
Proof.
  induction 1 as [t|t le le' H IH Hle|l le Hl|o c le le' H IH Hk|le fetch c H IH|cs le Hne H IH|w m cs le Hne Hown H IH
    |j c hl hr na l r ty le le' Hj H IH Hk|part c le Hs Hc H IH|part q num tasks plan le Hb H IH];
    intros t' E.
  - apply pr_any.
  - eapply pr_weaken; eauto.
  - cbn in E. injection E as <-. now apply pr_leaf.
  - apply normalize_unary in E as (c' & -> & E); [|discriminate]. eapply pr_op; eauto.
  - apply normalize_unary in E as (c' & -> & E); [|discriminate]. apply pr_merge. eauto.
  - apply normalize_node in E as [(cs' & -> & F)|[E|E]].
    + apply pr_union; [eapply Forall2_nonempty; eauto|]. eapply Forall2_promises; eauto.
    + destruct E as (? & ? & ? & ? & ? & ? & ? & ? & ? & ? & ? & ? & E & _). discriminate.
    + destruct E as (? & ? & ? & ? & ? & ? & ? & ? & ? & ? & E & _). discriminate.
  - cbn [normalize] in E. destruct (seqM _) as [cs'| |] eqn:Es; cbn in E; try discriminate. injection E as <-.
    apply seqM_map_inv in Es. apply pr_isolated; [eapply Forall2_nonempty; eauto|exact Hown|]. eapply Forall2_promises; eauto.
  - apply normalize_node in E as [(cs' & -> & F)|[E|E]].
    + apply Forall2_two in F as (l' & r' & -> & _ & Er). eapply pr_join; eauto.
    + destruct E as (m' & a & ty' & c' & ? & ? & ? & ? & ? & ? & ? & ? & E & _ & _ & Hp & _). injection E as -> -> -> -> ->.
      cbn in Hj, Hp. destruct m'; [|discriminate]. cbn in Hp. destruct a; [discriminate|].
      destruct (is_left_broadcast_safe ty'); [discriminate|discriminate].
    + destruct E as (ty' & c' & ? & ? & ? & ? & ? & ? & ? & ? & E & _ & _ & Hp & _). injection E as -> -> -> -> ->.
      cbn in Hj, Hp. destruct (is_left_broadcast_safe ty'); [|discriminate]. rewrite andb_false_r in Hp. discriminate.
  - discriminate.
  - cbn [normalize] in E. destruct (normalize cfg plan) as [i'| |] eqn:En; cbn in E; try discriminate. injection E as <-.
    apply pr_coalesced; [eapply normalize_bare; eauto|]. auto.
Qed.

Lemma kop_serves (f : tree -> tree -> Prop) k (cs cs' : list tree) : serves false (Node k cs) -> Forall2 f cs cs' ->
  (forall c c' le, In c cs -> f c c' -> promises false c le -> promises false c' le) ->
  (forall c c', In c cs -> f c c' -> serves false c -> serves false c') -> serves false (Node k cs').
Proof.
  intros Hs F H1 H2. apply serves_node in Hs as [Ho Hc]. apply serves_intro.
  - intros o ->. destruct (Ho o eq_refl) as (A & B & C). split; [exact A|]. split; [|exact C].
    intros c' le Hc' Hle. destruct (Forall2_in_r _ _ _ F c' Hc') as (c & Hin & Hf). eapply H1; eauto.
  - intros c' Hc'. destruct (Forall2_in_r _ _ _ F c' Hc') as (c & Hin & Hf). eauto.
Qed.

Lemma unary_serves k (c : tree) : match k with KOp _ => False | _ => True end -> serves false c -> serves false (Node k [c]).
Proof. intros Hk H. apply serves_intro; [intros o ->; destruct Hk|]. now intros ? [<-|[]]. Qed.
Lemma serves_child k (c : tree) cs : serves false (Node k cs) -> In c cs -> serves false c.
Proof. intros H. apply serves_node in H as [_ H]. auto. Qed.

Lemma normalize_serves cfg (t : tree) : serves false t -> forall t', normalize cfg t = Ok t' -> serves false t'.
Proof.
  induction t as [k cs IH|w m cs IH|b part q num tasks i IH] using tree_ind'; intros Hs t' E.
  - rewrite Forall_forall in IH.
    assert (Un : forall l l0 l', In l cs -> unwrapped l l0 -> normalize cfg l0 = Ok l' -> serves false l').
    { intros l l0 l' Hl Hu El. pose proof (serves_child _ _ _ Hs Hl) as Hsl. destruct Hu as [->| ->]; [eauto|].
      apply (serves_child (KCoalesce None None) l' [l']); [|now left]. apply (IH _ Hl Hsl). cbn. now rewrite El. }
    apply normalize_node in E as [(cs' & -> & F)|[E|E]].
    + eapply kop_serves; [exact Hs|exact F| |].
      * intros c c' le _ Ec Hp. exact (normalize_promises cfg c le Hp c' Ec).
      * intros c c' Hc Ec Hsc. exact (IH c Hc Hsc c' Ec).
    + destruct E as (m' & a & ty' & c' & hl & hr & na & l & r & l0 & l' & r' & -> & -> & Hu & _ & _ & El & Er & ->).
      apply serves_intro; [discriminate|]. intros x [<-|[<-|[]]]; apply unary_serves; try exact Logic.I.
      * eapply (Un l); eauto. now left.
      * eapply (IH r); eauto; [right; now left|]. eapply serves_child; [exact Hs|]. right. now left.
    + destruct E as (ty' & c' & hl & hr & na & l & r & l0 & l' & r' & -> & -> & Hu & _ & El & Er & ->).
      apply serves_intro; [discriminate|]. intros x [<-|[<-|[]]].
      * eapply (IH r); eauto; [right; now left|]. eapply serves_child; [exact Hs|]. right. now left.
      * eapply (Un l); eauto. now left.
  - rewrite Forall_forall in IH. cbn [normalize] in E. destruct (seqM _) as [cs'| |] eqn:Es; cbn in E; try discriminate.
    injection E as <-. apply seqM_map_inv in Es. rewrite serves_ciu in Hs. apply serves_ciu. intros c' Hc'.
    destruct (Forall2_in_r _ _ _ Es c' Hc') as (c & Hin & Hf). eauto.
  - cbn [normalize] in E. destruct (normalize cfg i) as [i'| |] eqn:En; cbn in E; try discriminate. injection E as <-.
    cbn [OrderSpec.serves] in *. auto.
Qed.

(** insert_broadcast.rs *)

Lemma broadcasts_bare (t : tree) : bare (broadcasts t) = bare t.
Proof.
  destruct t as [k cs| |]; try reflexivity. destruct k; try reflexivity. destruct cs as [|l [|r [|]]]; try reflexivity.
  cbn [broadcasts]. destruct (can_broadcast_left_input j); reflexivity.
Qed.

Lemma broadcasts_join j c hl hr na (l r : tree) : exists l', broadcasts (Node (KJoin j c hl hr na) [l; r]) = Node (KJoin j c hl hr na) [l'; broadcasts r] /\
  (serves false (broadcasts l) -> serves false l').
Proof.
  cbn [broadcasts]. destruct (can_broadcast_left_input j); [|eexists; split; [reflexivity|auto]].
  eexists. split; [reflexivity|]. intros H.
  assert (G : serves false (Node (KCoalesce None None) [Node (KBcast 1) [broadcasts l]])).
  { apply unary_serves; [exact Logic.I|]. apply unary_serves; [exact Logic.I|exact H]. }
  destruct l as [[| | |[le|] fetch| | |] cs| |]; try exact G. destruct cs as [|x [|]]; try exact G.
  cbn [broadcasts map] in H. apply serves_child with (c := broadcasts x) in H; [|now left].
  apply unary_serves; [exact Logic.I|]. apply unary_serves; [exact Logic.I|exact H].
Qed.

Lemma broadcasts_promises (t : tree) le : promises false t le -> promises false (broadcasts t) le.
Proof.
  induction 1 as [t|t le le' H IH Hle|l le Hl|o c le le' H IH Hk|le fetch c H IH|cs le Hne H IH|w m cs le Hne Hown H IH
    |j c hl hr na l r ty le le' Hj H IH Hk|part c le Hs Hc H IH|part q num tasks plan le Hb H IH]; try discriminate.
  - apply pr_any.
  - eapply pr_weaken; eauto.
  - now apply pr_leaf.
  - eapply pr_op; eauto.
  - now apply pr_merge.
  - apply pr_union; [destruct cs; [congruence|discriminate]|]. intros c Hin. apply in_map_iff in Hin as (c0 & <- & Hin). auto.
  - apply pr_isolated; [destruct cs; [congruence|discriminate]|exact Hown|]. intros c Hin. apply in_map_iff in Hin as (c0 & <- & Hin). auto.
  - destruct (broadcasts_join j c hl hr na l r) as (l' & -> & _). eapply pr_join; eauto.
  - apply pr_coalesced; [now rewrite broadcasts_bare|exact IH].
Qed.

Lemma map_Forall2 {A B} (f : A -> B) l : Forall2 (fun x y => f x = y) l (map f l).
Proof. induction l; constructor; auto. Qed.

Lemma broadcasts_serves (t : tree) : serves false t -> serves false (broadcasts t).
Proof.
  induction t as [k cs IH|w m cs IH|b part q num tasks i IH] using tree_ind'; intros Hs; try (rewrite Forall_forall in IH).
  - assert (G : serves false (Node k (map broadcasts cs))).
    { eapply kop_serves; [exact Hs|apply map_Forall2| |].
      - intros c c' le _ <- Hp. now apply broadcasts_promises.
      - intros c c' Hc <- Hsc. auto. }
    destruct k as [| | | | |j c hl hr na|]; try exact G. destruct cs as [|l [|r [|]]]; try exact G.
    destruct (broadcasts_join j c hl hr na l r) as (l' & -> & Hl).
    apply serves_intro; [discriminate|]. intros x [<-|[<-|[]]].
    + apply Hl. apply IH; [now left|]. eapply serves_child; [exact Hs|now left].
    + apply IH; [right; now left|]. eapply serves_child; [exact Hs|right; now left].
  - rewrite serves_ciu in Hs. apply serves_ciu. intros c Hin. apply in_map_iff in Hin as (c0 & <- & Hin). auto.
  - cbn [OrderSpec.serves broadcasts] in *. auto.
Qed.

(** insert_children_isolator_union.rs *)

Lemma isolate_bare (t t' : tree) : isolate t = Ok t' -> bare t = true -> bare t' = true.
Proof.
  destruct t as [k cs|w m cs|b p q n ts i]; intros H B.
  - apply isolate_node in H as (cs' & _ & [(_ & ->)|(_ & m & _ & ->)]); [|reflexivity]. destruct k; try reflexivity; discriminate.
  - cbn [isolate] in H. destruct (seqM _); cbn in H; try discriminate. injection H as <-. reflexivity.
  - cbn [isolate] in H. destruct (isolate i); cbn in H; try discriminate. injection H as <-. reflexivity.
Qed.

Lemma isolate_promises (t : tree) le : promises false t le -> forall t', isolate t = Ok t' -> promises false t' le.
Proof.
  induction 1 as [t|t le le' H IH Hle|l le Hl|o c le le' H IH Hk|le fetch c H IH|cs le Hne H IH|w m cs le Hne Hown H IH
    |j c hl hr na l r ty le le' Hj H IH Hk|part c le Hs Hc H IH|part q num tasks plan le Hb H IH]; try discriminate;
    intros t' E.
  - apply pr_any.
  - eapply pr_weaken; eauto.
  - cbn in E. injection E as <-. now apply pr_leaf.
  - apply isolate_unary in E as (c' & -> & E); [|discriminate]. eapply pr_op; eauto.
  - apply isolate_unary in E as (c' & -> & E); [|discriminate]. apply pr_merge. eauto.
  - apply isolate_node in E as (cs' & F & [(Hn & _)|(_ & m & Es & ->)]); [congruence|].
    apply pr_isolated; [eapply Forall2_nonempty; eauto|eapply split_own; eauto|]. eapply Forall2_promises; eauto.
  - cbn [isolate] in E. destruct (seqM _) as [cs'| |] eqn:Es; cbn in E; try discriminate. injection E as <-.
    apply seqM_map_inv in Es. apply pr_isolated; [eapply Forall2_nonempty; eauto|exact Hown|]. eapply Forall2_promises; eauto.
  - apply isolate_node in E as (cs' & F & [(_ & ->)|(E & _)]); [|discriminate].
    apply Forall2_two in F as (l' & r' & -> & _ & Er). eapply pr_join; eauto.
  - cbn [isolate] in E. destruct (isolate plan) as [i'| |] eqn:En; cbn in E; try discriminate. injection E as <-.
    apply pr_coalesced; [eapply isolate_bare; eauto|]. auto.
Qed.

Lemma isolate_serves (t : tree) : serves false t -> forall t', isolate t = Ok t' -> serves false t'.
Proof.
  induction t as [k cs IH|w m cs IH|b part q num tasks i IH] using tree_ind'; intros Hs t' E; try (rewrite Forall_forall in IH).
  - apply isolate_node in E as (cs' & F & [(_ & ->)|(-> & m & _ & ->)]).
    + eapply kop_serves; [exact Hs|exact F| |].
      * intros c c' le _ Ec Hp. exact (isolate_promises c le Hp c' Ec).
      * intros c c' Hc Ec Hsc. exact (IH c Hc Hsc c' Ec).
    + apply serves_ciu. intros c' Hc'. destruct (Forall2_in_r _ _ _ F c' Hc') as (c & Hin & Hf).
      eapply IH; eauto. eapply serves_child; eauto.
  - cbn [isolate] in E. destruct (seqM _) as [cs'| |] eqn:Es; cbn in E; try discriminate.
    injection E as <-. apply seqM_map_inv in Es. rewrite serves_ciu in Hs. apply serves_ciu. intros c' Hc'.
    destruct (Forall2_in_r _ _ _ Es c' Hc') as (c & Hin & Hf). eauto.
  - cbn [isolate] in E. destruct (isolate i) as [i'| |] eqn:En; cbn in E; try discriminate. injection E as <-.
    cbn [OrderSpec.serves] in *. auto.
Qed.

Lemma before_serves cfg (t p : tree) : serves false t -> before_injection cfg t = Ok p ->
  serves false p /\ forall le, (forall t1, normalize cfg t = Ok t1 -> tparts t1 <= 1) -> promises false t le -> promises false p le.
Proof.
  intros Hs H. unfold before_injection in H. destruct (normalize cfg t) as [t1| |] eqn:E1; cbn [bind] in H; try discriminate.
  set (t2 := if 1 <? tparts t1 then Node (KCoalesce None None) [t1] else t1) in *.
  assert (S2 : serves false t2).
  { pose proof (normalize_serves cfg t Hs t1 E1). unfold t2. destruct (1 <? tparts t1); [|assumption]. now apply unary_serves. }
  assert (P2 : forall le, (forall t1', Ok t1 = Ok t1' -> tparts t1' <= 1) -> promises false t le -> promises false t2 le).
  { intros le Hone Hp. specialize (Hone t1 eq_refl). unfold t2. destruct (Nat.ltb_spec 1 (tparts t1)); [lia|].
    eapply normalize_promises; eauto. }
  clearbody t2.
  assert (S3 : serves false (insert_broadcasts cfg t2)).
  { unfold insert_broadcasts. destruct (broadcast_joins cfg); [now apply broadcasts_serves|exact S2]. }
  assert (P3 : forall le, promises false t2 le -> promises false (insert_broadcasts cfg t2) le).
  { intros le Hp. unfold insert_broadcasts. destruct (broadcast_joins cfg); [now apply broadcasts_promises|exact Hp]. }
  unfold insert_unions in H. destruct (children_isolator_unions cfg).
  - split; [eapply isolate_serves; eauto|]. intros le Hone Hp. eapply isolate_promises; [|exact H]. auto.
  - injection H as <-. split; [exact S3|]. auto.
Qed.

(** ** Injection *)

Section Deploy.
Variable cfg : settings row.
Variable Q : tree -> nat -> Prop.
Hypothesis Hleaf : leaf_handlers cfg.
Notation kept := (every_scan (order_kept cfg)).

Lemma scans_child (P : leaf_node row -> Prop) k (cs : list tree) c : every_scan P (Node k cs) -> In c cs -> every_scan P c.
Proof.
  intros H Hc. assert (HF : Forall (fun P => P) (map (every_scan P) cs)).
  { destruct k; try exact H. destruct cs; [destruct Hc|exact H]. }
  rewrite Forall_map, Forall_forall in HF. auto.
Qed.
Lemma scans_isolated (P : leaf_node row -> Prop) w m (cs : list tree) c : every_scan P (Ciu w m cs) -> In c cs -> every_scan P c.
Proof. intros H Hc. cbn in H. rewrite Forall_map, Forall_forall in H. auto. Qed.

Lemma strip_bare (i : tree) : bare i = true -> strip i = i.
Proof. destruct i as [[] cs| |]; cbn; try discriminate; reflexivity. Qed.
Lemma insert_none (i plan : tree) : insert_head_node HNone i = Ok plan -> plan = strip i.
Proof. cbn. now intros [= <-]. Qed.

Lemma dchild_promises below c le : promises false c le -> (forall s n d, deployed cfg Q c s n d -> promises false d le) ->
  forall s n d, dchild cfg Q below c (deployed cfg Q c) s n d -> promises false d le.
Proof.
  intros Hc IH s n d H. unfold dchild in H. destruct (cut below c) as [b|] eqn:Ec; [|eauto].
  destruct H as (tasks & i & Hq & Hi & H). destruct (elided cfg n tasks); [subst; eauto|].
  destruct H as (num & h & plan & Hh & Hp & ->). specialize (IH _ _ _ Hi).
  assert (B : bare c = false -> promises false (Net b (boundary_partitioning b i tasks) (query cfg) num tasks plan) le).
  { intros B. apply promises_total. exact (promises_none c le Hc B). }
  unfold cut in Ec. destruct (is_hash_repart c) eqn:E1.
  { apply B. destruct c as [[|[]| | | | |] ?| |]; try discriminate; reflexivity. }
  destruct (is_bcast c) eqn:E2.
  { apply B. destruct c as [[] ?| |]; try discriminate; reflexivity. }
  destruct below; [|discriminate]. injection Ec as <-. cbn in Hh. injection Hh as <-. apply insert_none in Hp. subst plan.
  destruct (bare i) eqn:Bi.
  - rewrite (strip_bare i Bi). now apply pr_coalesced.
  - apply promises_total. exact (promises_none i le IH Bi).
Qed.

Lemma deployed_promises (p : tree) le : promises false p le -> kept p -> forall s n d, deployed cfg Q p s n d -> promises false d le.
Proof.
  induction 1 as [t|t le le' H IH Hle|l le Hl|o c le le' H IH Hk|le fetch c H IH|cs le Hne H IH|w m cs le Hne Hown H IH
    |j c hl hr na l r ty le le' Hj H IH Hk|part c le Hs Hc H IH|part q num tasks plan le Hb H IH]; try discriminate;
    intros Ho s n d Hd.
  - apply pr_any.
  - eapply pr_weaken; eauto.
  - cbn in Hd. unfold scaled in Hd. cbn in Ho. destruct (scale_up_leaf cfg (Node (KLeaf l) []) s) as [r|] eqn:E.
    + subst r. destruct (Hleaf _ _ _ E) as (l' & ->). apply pr_leaf. apply (Ho s l' le); [|exact Hl]. unfold scaled. now rewrite E.
    + subst d. now apply pr_leaf.
  - apply deployed_node in Hd as (ds & -> & F); [|discriminate]. apply Forall2_one in F as (d & -> & F).
    eapply pr_op; [|exact Hk]. eapply dchild_promises; [exact H| |exact F]. apply IH. eapply scans_child; [exact Ho|now left].
  - apply deployed_node in Hd as (ds & -> & F); [|discriminate]. apply Forall2_one in F as (d & -> & F).
    apply pr_merge. eapply dchild_promises; [exact H| |exact F]. apply IH. eapply scans_child; [exact Ho|now left].
  - apply deployed_node in Hd as (ds & -> & F); [|exact Hne]. apply pr_union; [eapply Forall2_nonempty; eauto|].
    intros d Hd. destruct (Forall2_in_r _ _ _ F d Hd) as (c & Hc & F'). eapply dchild_promises; [eauto| |exact F'].
    apply IH; [exact Hc|]. eapply scans_child; eauto.
  - apply deployed_ciu in Hd as (w' & m' & ds & -> & Es & _ & _ & _ & L & F); [|exact Hne].
    apply pr_isolated; [destruct ds, cs; cbn in L; congruence|eapply split_own; eauto|].
    intros d Hd. apply In_nth_error in Hd as (i & Hi). destruct (nth_error cs i) as [c|] eqn:Ec.
    + pose proof (nth_error_In _ _ Ec) as Hc. eapply dchild_promises; [eauto| |exact (F i c d Ec Hi)].
      apply IH; [exact Hc|]. eapply scans_isolated; eauto.
    + apply nth_error_None in Ec. assert (i < List.length ds) by (apply nth_error_Some; congruence). lia.
  - apply deployed_node in Hd as (ds & -> & F); [|discriminate]. apply Forall2_two in F as (dl & dr & -> & Fl & Fr).
    eapply pr_join; [exact Hj| |exact Hk]. eapply dchild_promises; [exact H| |exact Fr]. apply IH.
    eapply scans_child; [exact Ho|right; now left].
  - destruct Hd.
Qed.

Lemma insert_serves (h : head row) (t t' : tree) : serves false t -> insert_head_node h t = Ok t' -> serves false t'.
Proof.
  intros Ht H. assert (Hs : serves false (strip t)).
  { destruct t as [[| | | | | |] [|c []]| |]; cbn [strip]; try exact Ht; apply (serves_child _ _ _ Ht); now left. }
  unfold insert_head_node in H. destruct h; try (injection H as <-; exact Hs);
    try (injection H as <-; now apply unary_serves).
  destruct (tparts (strip t) =? 0); [discriminate|]. injection H as <-. now apply unary_serves.
Qed.

Lemma dchild_serves below c s n d : (forall s n d, deployed cfg Q c s n d -> serves false d) ->
  dchild cfg Q below c (deployed cfg Q c) s n d -> serves false d.
Proof.
  intros IH H. unfold dchild in H. destruct (cut below c) as [b|]; [|eauto].
  destruct H as (tasks & i & Hq & Hi & H). destruct (elided cfg n tasks); [subst; eauto|].
  destruct H as (num & h & plan & _ & Hh & ->). cbn [OrderSpec.serves]. eapply insert_serves; eauto.
Qed.

Lemma scaled_serves k s (d : tree) : serves false (Node k []) -> scaled cfg (Node k []) s d -> serves false d.
Proof.
  intros Hs H. unfold scaled in H. destruct (scale_up_leaf cfg (Node k []) s) as [r|] eqn:E; [|now subst].
  subst r. destruct (Hleaf _ _ _ E) as (l & ->). repeat constructor.
Qed.

Lemma deployed_serves (p : tree) : serves false p -> kept p -> forall s n d, deployed cfg Q p s n d -> serves false d.
Proof.
  induction p as [k cs IH|w m cs IH|b part qi num tasks i IH] using tree_ind'; intros Hs Ho s n d H; [| |destruct H];
    rewrite Forall_forall in IH.
  - destruct cs as [|c0 cs0]; [cbn in H; eapply scaled_serves; eauto|]. set (cs := c0 :: cs0) in *.
    apply deployed_node in H as (ds & -> & F); [|discriminate].
    eapply (kop_serves (fun c d => dchild cfg Q (is_coalesce (Node k cs)) c (deployed cfg Q c) s n d)); [exact Hs|exact F| |].
    + intros c d le Hc Hd Hp. eapply dchild_promises; [exact Hp| |exact Hd]. apply deployed_promises; [exact Hp|].
      eapply scans_child; eauto.
    + intros c d Hc Hd Hsc. eapply dchild_serves; [|exact Hd]. apply IH; [exact Hc|exact Hsc|]. eapply scans_child; eauto.
  - destruct cs as [|c0 cs0].
    + cbn in H. unfold scaled in H. destruct (scale_up_leaf cfg (Ciu w m []) s) as [r|] eqn:E; [|subst; exact Hs].
      subst r. destruct (Hleaf _ _ _ E) as (l & ->). repeat constructor.
    + apply deployed_ciu in H as (w' & m' & ds & -> & _ & _ & _ & _ & L & F); [|discriminate]. rewrite serves_ciu in Hs. apply serves_ciu.
      intros d Hd. apply In_nth_error in Hd as (i & Hi). destruct (nth_error (c0 :: cs0) i) as [c|] eqn:Ec.
      * pose proof (nth_error_In _ _ Ec) as Hc. eapply dchild_serves; [|exact (F i c d Ec Hi)].
        apply IH; [exact Hc|auto|]. eapply scans_isolated; eauto.
      * apply nth_error_None in Ec. assert (i < List.length ds) by (apply nth_error_Some; congruence). lia.
Qed.
End Deploy.

(** ** partial_reduce_below_network_shuffles.rs *)

Lemma reduce_bare (t : tree) : bare (reduce_shuffles t) = bare t.
Proof.
  destruct t as [k cs|w m cs|b part q num tasks i]; try reflexivity.
  destruct (reduce_net_agg b part q num tasks i) as [->|(a & ->)]; reflexivity.
Qed.
Lemma reduce_bare_net b part q num tasks (i : tree) : bare i = true ->
  reduce_shuffles (Net b part q num tasks i) = Net b part q num tasks (reduce_shuffles i).
Proof.
  intros H. cbn [reduce_shuffles]. rewrite <- reduce_bare in H. destruct (reduce_shuffles i) as [[] cs| |]; try reflexivity; discriminate.
Qed.

Lemma reduce_promises (t : tree) le : promises false t le -> promises false (reduce_shuffles t) le.
Proof.
  induction 1 as [t|t le le' H IH Hle|l le Hl|o c le le' H IH Hk|le fetch c H IH|cs le Hne H IH|w m cs le Hne Hown H IH
    |j c hl hr na l r ty le le' Hj H IH Hk|part c le Hs Hc H IH|part q num tasks plan le Hb H IH]; try discriminate.
  - apply pr_any.
  - eapply pr_weaken; eauto.
  - now apply pr_leaf.
  - eapply pr_op; eauto.
  - now apply pr_merge.
  - apply pr_union; [destruct cs; [congruence|discriminate]|]. intros c Hin. apply in_map_iff in Hin as (c0 & <- & Hin). auto.
  - apply pr_isolated; [destruct cs; [congruence|discriminate]|exact Hown|]. intros c Hin. apply in_map_iff in Hin as (c0 & <- & Hin). auto.
  - eapply pr_join; eauto.
  - rewrite reduce_bare_net by exact Hb. apply pr_coalesced; [now rewrite reduce_bare|exact IH].
Qed.

Lemma reduce_net_inv b part q num tasks (i : tree) :
  reduce_shuffles (Net b part q num tasks i) = Net b part q num tasks (reduce_shuffles i) \/
  exists a h n req ds, reduce_shuffles i = Node (KRepart (HashP h n)) [Node (KOp (OAgg APartial req a)) ds] /\
    reduce_shuffles (Net b part q num tasks i) =
    Net b part q num tasks (Node (KOp (OAgg APartialReduce AnyDistribution a)) [reduce_shuffles i]).
Proof.
  cbn [reduce_shuffles]. generalize (reduce_shuffles i). clear i. intros i.
  repeat match goal with |- context [match ?x with _ => _ end] => destruct x; auto end; right; eauto 10.
Qed.

Lemma reduce_serves (t : tree) : serves false t -> serves false (reduce_shuffles t).
Proof.
  induction t as [k cs IH|w m cs IH|b part q num tasks i IH] using tree_ind'; intros Hs; try (rewrite Forall_forall in IH).
  - cbn [reduce_shuffles]. eapply (kop_serves (fun c d => reduce_shuffles c = d)); [exact Hs|apply map_Forall2| |].
    + intros c c' le _ <- Hp. now apply reduce_promises.
    + intros c c' Hc <- Hsc. auto.
  - rewrite serves_ciu in Hs. apply serves_ciu. intros c Hin. apply in_map_iff in Hin as (c0 & <- & Hin). auto.
  - specialize (IH Hs). destruct (reduce_net_inv b part q num tasks i) as [->|(a & h & n & req & ds & Ei & ->)]; [exact IH|].
    change (serves false (Node (KOp (OAgg APartialReduce AnyDistribution a)) [reduce_shuffles i])). assert (Hi := IH). rewrite Ei in Hi. apply serves_child with (c := Node (KOp (OAgg APartial req a)) ds) in Hi; [|now left].
    apply serves_node in Hi as [Ho _]. destruct (Ho _ eq_refl) as (_ & _ & Hw & Hn).
    apply serves_intro; [|now intros ? [<-|[]]]. intros o [= <-]. split; [exact Hw|]. split; [congruence|exact Logic.I].
Qed.
End Passes.
