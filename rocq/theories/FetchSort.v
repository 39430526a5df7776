(** Proofs: ORDER BY with a limit in distributed plans. *)
From Verif Require Import Base NetModel NetSpec NetProofs CiuModel EventsModel JoinModel JoinSpec PlannerModel PlannerSpec PlannerProofs
  ExecModel ExecSpec ExecProofs ExecPasses ExecEnd FetchSpec FetchProofs FetchEnd.
From Coq Require Import Sorting.Sorted NArith.

Section Sorted_.
Context {row : Type}.
Notation tree := (tree row).
Notation table := (nat -> nat -> list row).
Variable le : row -> row -> Prop.

(** ** Merging sorted streams *)

Section Merge.
Hypothesis total : forall a b, le a b \/ le b a.
Hypothesis trans : forall a b c, le a b -> le b c -> le a c.

Lemma sorted_cons x l : StronglySorted le l -> (forall y, In y l -> le x y) -> StronglySorted le (x :: l).
Proof using. intros Hl Hx. constructor; [exact Hl|]. now apply Forall_forall. Qed.
Lemma sorted_inv x l : StronglySorted le (x :: l) -> StronglySorted le l /\ forall y, In y l -> le x y.
Proof using. intros H. apply StronglySorted_inv in H as [H1 H2]. rewrite Forall_forall in H2. auto. Qed.

Lemma merge_two : forall n a b, List.length a + List.length b <= n -> StronglySorted le a -> StronglySorted le b ->
  exists l, merge_of [a; b] l /\ StronglySorted le l.
Proof using total trans.
  induction n as [|n IH]; intros a b Hn Ha Hb.
  - destruct a, b; cbn in Hn; try lia. exists []. split; [now repeat constructor|constructor].
  - assert (Pa : forall x a', a = x :: a' -> (forall y, In y b -> le x y) -> exists l, merge_of [a; b] l /\ StronglySorted le l).
    { intros x a' -> Hx. apply sorted_inv in Ha as [Ha Hxa]. destruct (IH a' b) as (l & Hl & Hs); auto; [cbn in Hn; lia|].
      exists (x :: l). split; [exact (merge_step [] x a' [b] l Hl)|]. apply sorted_cons; [exact Hs|]. intros y Hy.
      apply merge_perm in Hl. apply (Permutation_in _ Hl) in Hy. cbn in Hy. rewrite app_nil_r in Hy. apply in_app_iff in Hy as [Hy|Hy]; auto. }
    assert (Pb : forall y b', b = y :: b' -> (forall x, In x a -> le y x) -> exists l, merge_of [a; b] l /\ StronglySorted le l).
    { intros y b' -> Hy. apply sorted_inv in Hb as [Hb Hyb]. destruct (IH a b') as (l & Hl & Hs); auto; [cbn in Hn; lia|].
      exists (y :: l). split; [exact (merge_step [a] y b' [] l Hl)|]. apply sorted_cons; [exact Hs|]. intros x Hx.
      apply merge_perm in Hl. apply (Permutation_in _ Hl) in Hx. cbn in Hx. rewrite app_nil_r in Hx. apply in_app_iff in Hx as [Hx|Hx]; auto. }
    destruct a as [|x a]; [destruct b as [|y b]; [exists []; split; [now repeat constructor|constructor]|]|].
    + apply (Pb y b eq_refl). intros ? [].
    + destruct b as [|y b]; [apply (Pa x a eq_refl); intros ? []|].
      destruct (total x y) as [H|H].
      * apply (Pa x a eq_refl). apply sorted_inv in Hb as [_ Hb]. intros z [<-|Hz]; eauto.
      * apply (Pb y b eq_refl). apply sorted_inv in Ha as [_ Ha]. intros z [<-|Hz]; eauto.
Qed.

Lemma merge_compose (s l0 l : list row) ss : merge_of [s; l0] l -> merge_of ss l0 -> merge_of (s :: ss) l.
Proof using.
  intros H. remember [s; l0] as p eqn:Ep. revert s l0 ss Ep.
  induction H as [p Hp|pre x s' post o H IH]; intros s l0 ss Ep Hm; subst.
  - inversion Hp as [|? ? E1 Hp']; subst. inversion Hp' as [|? ? E2 _]; subst. inversion Hm; subst.
    constructor. constructor; auto.
  - destruct pre as [|y pre]; cbn in Ep.
    + injection Ep as <- ->. apply (merge_step [] x s' ss). cbn. eapply IH; [reflexivity|exact Hm].
    + destruct pre as [|y' pre]; cbn in Ep; [|destruct pre; discriminate]. injection Ep as -> <- ->.
      inversion Hm as [|pre' ? s'' post' ? Hm']; subst. apply (merge_step (s :: pre') x s'' post'). cbn.
      eapply IH; [reflexivity|exact Hm'].
Qed.

Lemma merge_exists ss : Forall (StronglySorted le) ss -> exists l, sorted_merge le ss l.
Proof using total trans.
  induction 1 as [|s ss Hs _ IH]; [exists []; split; repeat constructor|].
  destruct IH as (l0 & Hm & Hl0). destruct (merge_two _ s l0 (le_n _) Hs Hl0) as (l & Hl & Hsl).
  exists l. split; [eapply merge_compose; eauto|exact Hsl].
Qed.

(** [a] has the first rows of [b], all of them unless there are [n]. *)
Definition pre (n : nat) (a b : list row) : Prop := exists r, b = a ++ r /\ (List.length a < n -> r = []).

Lemma merge_in ss (l : list row) x : merge_of ss l -> (In x l <-> exists s, In s ss /\ In x s).
Proof using.
  intros H. apply merge_perm in H. split.
  - intros Hx. apply (Permutation_in _ H) in Hx. now apply in_concat in Hx.
  - intros Hx. apply (Permutation_in _ (Permutation_sym H)). now apply in_concat.
Qed.

Lemma pre_mono n m a b : m <= n -> pre n a b -> pre m a b.
Proof using. intros Hm (r & -> & Hr). exists r. split; [reflexivity|]. intros H. apply Hr. lia. Qed.

(** Merging the first [n] rows of every stream finds the first [n] rows of all. *)
Lemma merge_lift : forall n l' ss' ss, Forall2 (pre n) ss' ss -> merge_of ss' l' -> StronglySorted le l' ->
  Forall (StronglySorted le) ss -> exists l, sorted_merge le ss l /\ firstn n l = firstn n l'.
Proof using total trans.
  induction n as [|n IH]; intros l' ss' ss F Hm Hs Hss.
  - destruct (merge_exists ss Hss) as (l & Hl). exists l. split; [exact Hl|reflexivity].
  - inversion Hm as [? Hnil|p x s' q o Hm']; subst.
    + assert (ss = ss') as ->.
      { clear -F Hnil. induction F as [|a b ? ? (r & -> & Hr) F IH]; [reflexivity|]. inversion Hnil; subst. cbn in Hr |- *. rewrite Hr by lia. f_equal. auto. }
      exists []. split; [|reflexivity]. split; [exact Hm|constructor].
    + apply sorted_inv in Hs as [Hs Hx].
      apply Forall2_app_inv_l in F as (bp & bq' & Fp & F & ->). inversion F as [|? b ? bq Hpre Fq]; subst. clear F.
      destruct Hpre as (r & -> & Hr). cbn in Hr.
      assert (Hss' : Forall (StronglySorted le) (bp ++ (s' ++ r) :: bq)).
      { apply Forall_app in Hss as [H1 H2]. inversion H2 as [|? ? H3 H4]; subst. apply Forall_app. split; [exact H1|].
        constructor; [|exact H4]. now apply sorted_inv in H3. }
      destruct (IH o (p ++ s' :: q) (bp ++ (s' ++ r) :: bq)) as (l & [Hl1 Hl2] & Hl3); auto.
      { apply Forall2_app; [eapply Forall2_impl_in; [|exact Fp]; intros; eapply pre_mono; [|eassumption]; lia|].
        constructor; [|eapply Forall2_impl_in; [|exact Fq]; intros; eapply pre_mono; [|eassumption]; lia].
        exists r. split; [reflexivity|]. intros H. apply Hr. lia. }
      exists (x :: l). split; [|cbn; now rewrite Hl3]. split; [exact (merge_step bp x (s' ++ r) bq l Hl1)|].
      apply sorted_cons; [exact Hl2|]. intros y Hy. apply (merge_in _ _ _ Hl1) in Hy as (t & Ht & Hy).
      assert (Side : forall ps bs, Forall2 (pre (S n)) ps bs -> (forall t, In t ps -> In t (p ++ s' :: q)) ->
                In t bs -> StronglySorted le t -> le x y).
      { intros ps bs Fb Hin Htb Hts. destruct (Forall2_in_r _ _ _ Fb t Htb) as (a & Ha & r' & -> & Hr').
        apply in_app_iff in Hy as [Hy|Hy].
        - apply Hx. apply (merge_in _ _ _ Hm'). exists a. auto.
        - destruct a as [|z a]; [rewrite Hr' in Hy by (cbn; lia); destruct Hy|].
          apply trans with z; [apply Hx; apply (merge_in _ _ _ Hm'); exists (z :: a); split; [auto|now left]|].
          cbn in Hts. apply sorted_inv in Hts as [_ Hts]. apply Hts. apply in_app_iff. now right. }
      apply Forall_app in Hss as [S1 S2]. inversion S2 as [|? ? S3 S4]; subst. rewrite Forall_forall in S1, S4.
      apply in_app_iff in Ht as [Ht|[<-|Ht]].
      * apply (Side p bp Fp); auto. intros. apply in_app_iff. now left.
      * apply sorted_inv in S3 as [_ S3]. auto.
      * apply (Side q bq Fq); auto. intros. apply in_app_iff. right. now right.
Qed.
End Merge.

(** ** Executions with row order are executions *)

Lemma ordered_runs (x : tree) : forall rem n f, ordered rem x n f -> runs rem x n f.
Proof using.
  induction x as [k cs IH|w m cs IH|b part q num tasks i IH] using tree_ind'; intros rem n f H; [| |].
  - assert (Op : forall o c, k = KOp o -> cs = [c] -> (exists g, ordered rem c n g /\
      forall i p, i < n -> p < tparts c -> f i p = op_fun o (g i p)) -> runs rem (Node k cs) n f).
    { intros o c -> -> (g & Hg & Hf). apply runs_op. exists g. rewrite Forall_forall in IH.
      split; [apply IH; [now left|exact Hg]|]. intros i p Hi Hp. exists (g i p). split; [reflexivity|]. now rewrite Hf. }
    destruct k as [| | |spm fetch| | |[h| | |s fetch|skip fetch|l]]; try exact H; destruct cs as [|c [|]]; try exact H;
      try (eapply Op; [reflexivity|reflexivity|exact H]).
    destruct H as (g & Hg & Hc & Hf). apply runs_coalesce. exists g. rewrite Forall_forall in IH. split; [apply IH; [now left|exact Hg]|]. split; [exact Hc|].
    intros i Hi. destruct (Hf i Hi) as (l & Hl & E). exists l. split; [|exact E]. rewrite flat_map_concat_map.
    apply merge_perm. destruct spm; [exact (proj1 Hl)|exact Hl].
  - exact H.
  - cbn [ordered] in H. destruct b; try exact H. destruct (bare i) eqn:B; [|exact H].
    destruct H as (g & Hg & Ho). apply runs_net_bare; [exact B|]. eauto.
Qed.

(** ** The planned sort *)

Lemma push_no_fetch : forall fuel (t d : tree), no_fetch t -> push_fetch_fuel fuel t = Ok d -> d = t.
Proof using.
  induction fuel as [|fuel IH]; intros t d Hn H; [discriminate|]. rewrite push_unfold in H. unfold step_of in H.
  assert (G : forall cs cs' : list tree, (forall c, In c cs -> no_fetch c) -> seqM (map (push_fetch_fuel fuel) cs) = Ok cs' -> cs' = cs).
  { intros cs cs' Hc E. apply seqM_map_inv in E. induction E as [|c d' cs ds Ec E IHE]; [reflexivity|].
    f_equal; [apply IH; [apply Hc; now left|exact Ec]|]. apply IHE. intros. apply Hc. now right. }
  destruct t as [k cs|w m cs|b p q num ts i].
  - apply no_fetch_node in Hn as [Hr Hc]. rewrite Hr in H. destruct (seqM _) as [cs'| |] eqn:E; cbn in H; try discriminate.
    injection H as <-. now rewrite (G _ _ Hc E).
  - pose proof (proj1 (no_fetch_ciu _ _ _) Hn) as Hc. cbn in H. destruct (seqM _) as [cs'| |] eqn:E; cbn in H; try discriminate.
    injection H as <-. now rewrite (G _ _ Hc E).
  - destruct Hn as [_ Hi]. cbn in H. destruct (push_fetch_fuel fuel i) as [i'| |] eqn:E; cbn in H; try discriminate.
    injection H as <-. now rewrite (IH _ _ Hi E).
Qed.

Lemma push_one fuel k (c d : tree) : push_fetch_fuel fuel (Node k [c]) = Ok d ->
  exists fuel' c', push_fetch_fuel fuel' match fetch_required (Node k [c]) with Some n => push_child n c | None => c end = Ok c' /\
    d = Node k [c'].
Proof using.
  destruct fuel as [|fuel]; [discriminate|]. rewrite push_unfold. unfold step_of.
  destruct (fetch_required (Node k [c])) as [n|]; cbn [map seqM]; intros H;
    destruct (push_fetch_fuel fuel _) as [c'| |] eqn:E; cbn in H; try discriminate; injection H as <-; eauto.
Qed.
Lemma push_net fuel b part q num tasks (i d : tree) : push_fetch_fuel fuel (Net b part q num tasks i) = Ok d ->
  exists fuel' i', push_fetch_fuel fuel' i = Ok i' /\ d = Net b part q num tasks i'.
Proof using.
  destruct fuel as [|fuel]; [discriminate|]. rewrite push_unfold. cbn. destruct (push_fetch_fuel fuel i) as [i'| |] eqn:E; cbn; try discriminate.
  intros H. injection H as <-. eauto.
Qed.

(** The sort keeps at least as many rows as are asked for. *)
Definition keeps (fetch need : option nat) : Prop :=
  match fetch with None => True | Some m => exists n, need = Some n /\ n <= m end.

Lemma push_sort fuel s fetch (c d : tree) : is_net_coalesce c = false -> no_fetch c ->
  push_fetch_fuel fuel (Node (KOp (OSort s fetch)) [c]) = Ok d -> d = Node (KOp (OSort s fetch)) [c].
Proof using.
  intros Hc Hn H. apply push_one in H as (fuel' & c' & H & ->). f_equal. f_equal. apply (push_no_fetch fuel'); [exact Hn|].
  destruct (fetch_required _); [|exact H]. destruct c as [| |[]]; try exact H. discriminate.
Qed.

(** What becomes of a sort below a merge. *)
Definition sort_stage (s : list row -> list row) (fetch : option nat) (x dc : tree) : Prop :=
  dc = Node (KOp (OSort s fetch)) [x] \/
  exists part q num tasks, dc = Net BCoalesce part q num tasks (Node (KOp (OSort s fetch)) [x]).

Lemma push_merge fuel need s fetch (x dc d : tree) : is_net_coalesce x = false -> no_fetch x -> keeps fetch need ->
  sort_stage s fetch x dc ->
  push_fetch_fuel fuel (Node (KCoalesce (Some le) need) [dc]) = Ok d ->
  exists fetch' dc', d = Node (KCoalesce (Some le) need) [dc'] /\ keeps fetch' need /\
    match dc with
    | Net b part q num tasks _ => dc' = Net b part q num tasks (Node (KOp (OSort s fetch')) [x])
    | _ => dc' = Node (KOp (OSort s fetch')) [x]
    end.
Proof using.
  intros Hx Hn Hk Hs H. apply push_one in H as (fuel' & c' & H & ->). cbn [fetch_required fetch_of] in H.
  destruct Hs as [->|(part & q & num & tasks & ->)].
  - exists fetch. exists c'. split; [reflexivity|]. split; [exact Hk|].
    apply (push_sort fuel'); [exact Hx|exact Hn|]. destruct need; exact H.
  - destruct need as [n|].
    + cbn [push_child fetch_through_projection] in H. apply push_net in H as (f2 & i' & H & ->).
      assert (E : exists fetch', bounded (Node (KOp (OSort s fetch)) [x]) n = Node (KOp (OSort s fetch')) [x] /\ keeps fetch' (Some n)).
      { unfold bounded. cbn. destruct fetch as [m|]; [|exists (Some n); split; [reflexivity|exists n; auto]].
        destruct (Nat.leb_spec m n); [exists (Some m)|exists (Some n)]; split; auto. exists n; auto. }
      destruct E as (fetch' & E & Hk'). rewrite E in H. apply push_sort in H; [|exact Hx|exact Hn].
      subst i'. eauto 10.
    + apply push_net in H as (f2 & i' & H & ->). apply push_sort in H; [|exact Hx|exact Hn]. subst i'. eauto 10.
Qed.

Lemma typed_sort_inv pr s (c : tree) E D : typed pr (Node (KOp (OSort s None)) [c]) E D -> (forall l, Permutation (s l) l) ->
  (forall a b, E a b -> Permutation a b) -> exists E0 D0, typed pr c E0 D0 /\ forall a b, E0 a b -> Permutation a b.
Proof using.
  intros H Hs. remember (Node (KOp (OSort s None)) [c]) as t eqn:Et. induction H; intros HE; try discriminate.
  - injection Et as -> ->. exists E, D. split; [assumption|]. intros a b Hab. destruct H3 as [H3 _]. apply H3 in Hab. apply HE in Hab.
    cbn in Hab. now rewrite !Hs in Hab.
  - injection Et as -> ->. exists E, (Hashed h n). split; [assumption|]. intros a b Hab. destruct H3 as [H3 _]. apply H3 in Hab. apply HE in Hab.
    cbn in Hab. now rewrite !Hs in Hab.
  - injection Et as -> ->. exists E, D. split; [assumption|]. intros a b Hab. apply H4 in Hab. apply HE in Hab.
    cbn in Hab. now rewrite !Hs in Hab.
  - auto.
Qed.

Section Planned.
Variable cfg : settings row.
Variable most : nat.
Notation Q := (within_limits cfg most).
Notation pr := (partial_reduce cfg).
Hypothesis Hmost : max_tasks cfg = Ok most.
Hypothesis Hstatic : dynamic_task_count cfg = false.
Hypothesis Htarget : 0 < target_partitions cfg.
Hypothesis Hsane : sane_handlers cfg.
Hypothesis Hleaf : leaf_handlers cfg.
Hypothesis total : forall a b, le a b \/ le b a.
Hypothesis trans : forall a b c, le a b -> le b c -> le a c.

(** The sort of a plan, deployed: every task sorts its part of the rows. *)
Lemma sort_deployed r s fetch (p0 dc : tree) E D k : typed r p0 E D -> (forall a b, E a b -> Permutation a b) ->
  placed cfg most false p0 -> every_scan (faithful_scan cfg most) p0 -> no_fetch p0 ->
  dchild cfg Q true (Node (KOp (OSort s fetch)) [p0]) (deployed cfg Q (Node (KOp (OSort s fetch)) [p0])) k 1 dc ->
  exists x tasks, is_net_coalesce x = false /\ no_fetch x /\ 1 <= tasks /\ 
    (forall h, runs (match dc with Net _ _ _ _ _ _ => true | _ => false end) x tasks h -> Permutation (consumer_rows tasks (tparts x) h) (meaning p0)) /\
    ((red r dc = Node (KOp (OSort s fetch)) [x] /\ tasks = 1) \/
     exists part q num, red r dc = Net BCoalesce part q num tasks (Node (KOp (OSort s fetch)) [x]) /\ partition_count part = tparts x * tasks).
Proof using Hleaf Htarget.
  intros Ht HE Hp Hs Hnf H. destruct (typed_sound cfg most r p0 E D Ht) as [H1 H2].
  pose proof (child_sound cfg most r false p0 E D Ht H1 H2) as HS. unfold dchild in H.
  change (cut true (Node (KOp (OSort s fetch)) [p0])) with (Some BCoalesce) in H. cbv iota in H.
  destruct H as (tasks & i & Hq & Hi & H). apply deployed_node in Hi as (ds & -> & F); [|discriminate].
  apply Forall2_one in F as (d0 & -> & F). cbn [is_coalesce] in F.
  assert (Hn0 : no_fetch (red r d0)).
  { assert (no_fetch d0) by (eapply (dchild_no_fetch cfg Q); [intros; eapply (deployed_no_fetch cfg Q Hleaf); eauto|exact F]).
    unfold red. destruct r; [now apply reduce_no_fetch|assumption]. }
  assert (Hnet : is_net_coalesce (red r d0) = false).
  { assert (E0 : is_net_coalesce d0 = false).
    { refine (proj2 (dchild_limitable cfg Q Hleaf false p0 _ _ d0 _ ltac:(discriminate) F) eq_refl).
      apply (deployed_limitable cfg Q Hleaf). eapply typed_plain; eauto. }
    unfold red. destruct r; [|exact E0]. destruct d0 as [| |b pa q num ts i]; try reflexivity.
    destruct (reduce_net_agg b pa q num ts i) as [->|(a & ->)]; exact E0. }
  assert (Rows : forall rem, (rem = true \/ tasks = 1) -> forall h, runs rem (red r d0) tasks h ->
    Permutation (consumer_rows tasks (tparts (red r d0)) h) (meaning p0)).
  { intros rem Hrem h Hh. apply HE. rewrite red_tparts.
    refine (proj1 (HS false rem tasks tasks d0 h F _ _ Hs _ Hh)); [|destruct (cut false p0); exact Hp|discriminate].
    assert (Hinv : inv cfg most false rem tasks tasks (Node (KOp (OSort s fetch)) [p0])).
    { destruct Hrem as [->| ->]; [now apply inv_stage|now apply inv_elided]. }
    exact (inv_child _ _ _ _ _ _ _ _ _ Hinv (or_introl eq_refl)). }
  destruct Hq as [Hq1 Hq2]. exists (red r d0), tasks. split; [exact Hnet|]. split; [exact Hn0|]. split; [lia|].
  destruct (elided cfg 1 tasks) eqn:E1.
  - subst dc. apply elided_true in E1 as [_ E1]. split; [intros h; apply Rows; auto|].
    left. split; [now rewrite red_node|exact E1].
  - destruct H as (num & h & plan & Hh & Hplan & ->). cbn in Hh. injection Hh as <-. cbn in Hplan. injection Hplan as <-.
    split; [intros; eapply Rows; eauto|]. right.
    exists (boundary_partitioning BCoalesce (Node (KOp (OSort s fetch)) [d0]) tasks), (query cfg), num.
    rewrite headless_net by exact Logic.I. rewrite red_node. split; [reflexivity|]. rewrite red_tparts.
    exact (boundary_partitioning_count BCoalesce (Node (KOp (OSort s fetch)) [d0]) tasks).
Qed.

Lemma limit_pre need fetch l : keeps fetch need -> match need with Some n => pre n (limit_to fetch l) l | None => limit_to fetch l = l end.
Proof.
  unfold keeps. destruct fetch as [m|]; cbn.
  - intros (n & -> & Hn). exists (skipn m l). split; [now rewrite firstn_skipn|]. rewrite firstn_length. intros H.
    apply skipn_all2. lia.
  - intros _. destruct need as [n|]; [|reflexivity]. exists []. split; [now rewrite app_nil_r|auto].
Qed.

(** Merging what is left of sorted streams. *)
Lemma merge_limited need (ss' ss : list (list row)) l' :
  Forall2 (fun a b => match need with Some n => pre n a b | None => a = b end) ss' ss ->
  sorted_merge le ss' l' -> Forall (StronglySorted le) ss -> exists l, sorted_merge le ss l /\ limit_to need l = limit_to need l'.
Proof using Htarget most total trans.
  intros F [Hm Hs] Hss. destruct need as [n|].
  - destruct (merge_lift total trans n l' ss' ss F Hm Hs Hss) as (l & Hl & E). eauto.
  - assert (ss' = ss) as -> by (clear -F; induction F; congruence). exists l'. split; [split; assumption|reflexivity].
Qed.

Lemma flat_sorted s tasks P (h : table) : (forall l, Permutation (s l) l) ->
  Permutation (consumer_rows tasks P (fun i p => s (h i p))) (consumer_rows tasks P h).
Proof.
  intros Hs. unfold consumer_rows. apply flat_map_perm_ext. intros i _. apply flat_map_perm_ext. intros p _. apply Hs.
Qed.

Lemma consumer_one P (f : table) : consumer_rows 1 P f = flat_map (f 0) (seq 0 P).
Proof. unfold consumer_rows. cbn. apply app_nil_r. Qed.

Lemma Forall2_map_seq {A} (R : A -> A -> Prop) (f g : nat -> A) n : (forall p, p < n -> R (f p) (g p)) ->
  Forall2 R (map f (seq 0 n)) (map g (seq 0 n)).
Proof.
  intros H. assert (G : forall l, (forall p, In p l -> p < n) -> Forall2 R (map f l) (map g l)).
  { induction l as [|x l IH]; intros Hl; constructor; [apply H; apply Hl; now left|]. apply IH. intros. apply Hl. now right. }
  apply G. intros p Hp. apply in_seq in Hp. lia.
Qed.

(** The first rows that the merge returns are the first rows of all. *)
Lemma merge_stage rem s need fetch (x dc : tree) tasks g l' : (forall l, Permutation (s l) l /\ StronglySorted le (s l)) ->
  keeps fetch need -> 1 <= tasks ->
  (dc = Node (KOp (OSort s fetch)) [x] /\ tasks = 1 \/
   exists part q num, dc = Net BCoalesce part q num tasks (Node (KOp (OSort s fetch)) [x]) /\ partition_count part = tparts x * tasks) ->
  ordered rem dc 1 g -> sorted_merge le (map (g 0) (seq 0 (tparts dc))) l' ->
  exists h l, runs (match dc with Net _ _ _ _ _ _ => true | _ => rem end) x tasks h /\
    Permutation l (consumer_rows tasks (tparts x) h) /\ StronglySorted le l /\ limit_to need l = limit_to need l'.
Proof using Htarget most total trans.
  intros Hs Hk Htasks Hdc Hg Hl.
  assert (Fin : forall N (F : nat -> list row) h, (forall p, p < N -> (match need with Some n => pre n (g 0 p) (F p) | None => g 0 p = F p end) /\ StronglySorted le (F p)) ->
    Permutation (flat_map F (seq 0 N)) (consumer_rows tasks (tparts x) h) -> tparts dc = N ->
    exists l, Permutation l (consumer_rows tasks (tparts x) h) /\ StronglySorted le l /\ limit_to need l = limit_to need l').
  { intros N F h HF Hp HN. rewrite HN in Hl.
    edestruct (merge_limited need (map (g 0) (seq 0 N)) (map F (seq 0 N)) l') as (l & [Hm Hsl] & E); [|exact Hl| |].
    - apply (Forall2_map_seq (fun a b => match need with Some n => pre n a b | None => a = b end)). intros p Hp'. exact (proj1 (HF p Hp')).
    - apply Forall_map, Forall_forall. intros p Hp'. apply in_seq in Hp'. apply HF. lia.
    - exists l. split; [|auto]. rewrite <- Hp, flat_map_concat_map. now apply merge_perm. }
  destruct Hdc as [[-> ->]|(part & q & num & -> & Hpc)].
  - destruct Hg as (h & Hh & Hg). exists h.
    destruct (Fin (tparts x) (fun p => s (h 0 p)) h) as (l & Hl1 & Hl2 & Hl3).
    + intros p Hp. rewrite (Hg 0 p ltac:(lia) Hp). split; [now apply limit_pre|apply Hs].
    + rewrite <- (flat_sorted s 1 (tparts x) h); [|intros; apply Hs]. now rewrite consumer_one.
    + reflexivity.
    + exists l. split; [now apply ordered_runs|auto].
  - cbn [ordered bare] in Hg. destruct Hg as (g' & (h & Hh & Hg') & Ho). cbn [tparts map nth] in Ho.
    destruct (coalesce_hands_on (fun a b => match need with Some n => pre n a b | None => a = b end /\ StronglySorted le b)
      part tasks (tparts x) g' (fun i p => s (h i p)) 1 (partition_count part) g) as (F & HF & HR); [| |exact Ho|].
    { split; [|constructor]. destruct need; [|reflexivity]. exists []. auto. }
    { intros i p Hi Hp. rewrite (Hg' i p Hi Hp). split; [now apply limit_pre|apply Hs]. }
    exists h. destruct (Fin (partition_count part) (F 0) h) as (l & Hl1 & Hl2 & Hl3).
    + intros p Hp. apply HR; [lia|exact Hp].
    + rewrite <- (flat_sorted s tasks (tparts x) h); [|intros; apply Hs].
      rewrite <- (boundary_coalesce cfg most part tasks (tparts x) _ F Htasks Hpc HF). rewrite consumer_one, Hpc. reflexivity.
    + reflexivity.
    + exists l. split; [now apply ordered_runs|auto].
Qed.

Lemma sort_limit_rows ks s need fetch (t0 d : tree) D f : limits ks -> (forall l, Permutation (s l) l /\ StronglySorted le (s l)) ->
  keeps fetch need ->
  typed pr t0 (@Permutation row) D -> ordinary t0 -> fed t0 -> spreadable t0 ->
  every_scan (faithful_scan cfg most) t0 -> fits most (nest ks (Node (KCoalesce (Some le) need) [Node (KOp (OSort s fetch)) [t0]])) ->
  distribute cfg (nest ks (Node (KCoalesce (Some le) need) [Node (KOp (OSort s fetch)) [t0]])) = Ok (TDistributed d) ->
  ordered false d 1 f ->
  exists l, Permutation l (meaning t0) /\ StronglySorted le l /\
    f 0 0 = match ks with KOp (OGlobalLimit skip lim) :: _ => limit_to lim (skipn skip (limit_to need l)) | _ => limit_to need l end.
Proof using Hmost Hstatic Htarget Hsane Hleaf total trans.
  intros Hks Hsort Hk Ht0 Ho Hf Hsp Hs Hfits H Hrun.
  set (k := KCoalesce (Some le) need) in *. set (ko := KOp (OSort s fetch)) in *.
  assert (Hkt : Forall top_kind (ks ++ [k; ko])).
  { apply Forall_app. split; [destruct Hks as [->|(? & ? & ->)]; repeat constructor|repeat constructor]. }
  assert (Htop : tops (ks ++ [k; ko])).
  { split; [exact Hkt|]. intros x. destruct Hks as [->|(? & ? & ->)]; cbn; lia. }
  assert (Hop : ordinary (nest ks (Node k [Node ko [t0]]))).
  { pose proof (nest_ordinary (ks ++ [k; ko]) t0 Hkt Ho) as X. now rewrite nest_app in X. }
  destruct (distribute_inv cfg most _ _ (ordinary_no_net _ Hop) Hstatic Hfits H)
    as (p' & q & a & d1 & id & Hp' & Hq & Hd1 & Np & Fp & Hres).
  destruct Hres as [[_ Hres]|(_ & d' & Ha & Hres)]; [discriminate|]. injection Hres as <-.
  change (nest ks (Node k [Node ko [t0]])) with (nest ks (nest [k; ko] t0)) in Hp'. rewrite <- nest_app in Hp'.
  apply before_nest in Hp' as (p0 & -> & Hb); [|exact Htop].
  set (ks1 := [KCoalesce (Some le) None; KOp (OSort s None)]).
  assert (Hp1 : before_injection cfg (nest ks1 t0) = Ok (nest ks1 p0)).
  { apply Hb. split; [repeat constructor|]. intros x. cbn. lia. }
  assert (Ht : typed pr (nest ks1 t0) (@Permutation row) Anyhow).
  { eapply ty_coalesce; [|reflexivity]. eapply ty_distributive with (D' := Anyhow); [exact Ht0|reflexivity|apply perm_additive|exact Logic.I| |exact Logic.I].
    cbn. split; [|split].
    - intros x y Hxy. now rewrite (proj1 (Hsort x)), (proj1 (Hsort y)).
    - apply Hsort.
    - intros x y. now rewrite (proj1 (Hsort (x ++ y))), (proj1 (Hsort x)), (proj1 (Hsort y)). }
  assert (Ho1 : ordinary (nest ks1 t0)) by (apply nest_ordinary; [repeat constructor|exact Ho]).
  assert (Hf1 : fed (nest ks1 t0)) by (split; [exact Logic.I|]; repeat constructor; try exact Hf; discriminate).
  assert (Hsp1 : spreadable (nest ks1 t0)) by (repeat (split; [exact Logic.I||reflexivity|]; repeat constructor); exact Hsp).
  assert (Hs1 : every_scan (faithful_scan cfg most) (nest ks1 t0)) by now repeat constructor.
  destruct (before_keeps cfg pr Htarget (faithful_scan cfg most) _ _ _ Ht Ho1 Hf1 eq_refl Hp1) as ((D' & T) & M & F2 & S).
  pose proof (spreadable_placed cfg most pr _ _ _ Htarget Ht Ho1 Hf1 eq_refl Hsp1 Hp1) as Hpl.
  apply placed_of in Hpl; [|exact F2]. pose proof (placed_node _ _ _ _ _ Hpl _ (or_introl eq_refl)) as Hpl0.
  change (placed cfg most false (Node (KOp (OSort s None)) [p0])) in Hpl0.
  pose proof (placed_node _ _ _ _ _ Hpl0 _ (or_introl eq_refl)) as Hpl1.
  assert (Hplaced : placed cfg most false p0) by (destruct (cut _ p0); exact Hpl1). clear Hpl Hpl0 Hpl1.
  apply typed_coalesce_inv in T as (_ & _ & E1 & D1 & T & _ & HE1).
  destruct (typed_sort_inv _ _ _ _ _ T (fun l => proj1 (Hsort l)) HE1) as (E0 & D0 & T0 & HE0).
  assert (Hs0 : every_scan (faithful_scan cfg most) p0).
  { specialize (S Hs1). pose proof (scans_node _ (KCoalesce (Some le) None) [nest [KOp (OSort s None)] p0] ltac:(discriminate) S _ (or_introl eq_refl)) as S'.
    exact (scans_node _ (KOp (OSort s None)) [p0] ltac:(discriminate) S' _ (or_introl eq_refl)). }
  assert (Hm : Permutation (meaning p0) (meaning t0)).
  { change (Permutation (s (meaning p0 ++ []) ++ []) (s (meaning t0 ++ []) ++ [])) in M || change (Permutation (s (meaning p0) ++ []) (s (meaning t0) ++ [])) in M.
    rewrite !app_nil_r in M. now rewrite !(proj1 (Hsort _)) in M. }
  destruct (inject_deployed cfg most Hmost Hsane Hleaf _ q a d1 id Hstatic Np Fp Hq Hd1) as [_ HD].
  rewrite nest_app in HD. cbn [nest] in HD. apply limits_deployed in HD as (dc & -> & HD); [|exact Hks].
  change (push_fetch (red pr (nest ks (Node k [dc]))) = Ok d) in Ha. rewrite nest_red, red_node in Ha. cbn [map] in Ha.
  destruct (sort_deployed pr s fetch p0 dc E0 D0 _ T0 HE0 Hplaced Hs0 (typed_no_fetch _ _ _ _ T0) HD)
    as (x & tasks & Hx & Hnx & Htasks & Hrows & Hshape).
  assert (Hst : sort_stage s fetch x (red pr dc)).
  { destruct Hshape as [[-> _]|(part & qq & num & -> & _)]; [now left|right; eauto]. }
  assert (Hrem : (match dc with Net _ _ _ _ _ _ => true | _ => false end) = match red pr dc with Net _ _ _ _ _ _ => true | _ => false end).
  { destruct dc as [| |b pa qq num ts i]; [rewrite red_node|rewrite red_ciu|]; try reflexivity.
    unfold red. destruct pr; [|reflexivity]. destruct (reduce_net_agg b pa qq num ts i) as [->|(aa & ->)]; reflexivity. }
  rewrite Hrem in Hrows. clear Hrem.
  assert (Core : exists fetch' dc', keeps fetch' need /\ d = nest ks (Node k [dc']) /\
    (dc' = Node (KOp (OSort s fetch')) [x] /\ tasks = 1 \/
     exists part q num, dc' = Net BCoalesce part q num tasks (Node (KOp (OSort s fetch')) [x]) /\ partition_count part = tparts x * tasks) /\
    (match dc' with Net _ _ _ _ _ _ => true | _ => false end) = match red pr dc with Net _ _ _ _ _ _ => true | _ => false end).
  { assert (C1 : forall fuel d, push_fetch_fuel fuel (Node k [red pr dc]) = Ok d ->
      exists fetch' dc', keeps fetch' need /\ d = Node k [dc'] /\
    (dc' = Node (KOp (OSort s fetch')) [x] /\ tasks = 1 \/
     exists part q num, dc' = Net BCoalesce part q num tasks (Node (KOp (OSort s fetch')) [x]) /\ partition_count part = tparts x * tasks) /\
    (match dc' with Net _ _ _ _ _ _ => true | _ => false end) = match red pr dc with Net _ _ _ _ _ _ => true | _ => false end).
    { intros fuel dd Hdd. destruct (push_merge fuel need s fetch x (red pr dc) dd Hx Hnx Hk Hst Hdd) as (fetch' & dc' & -> & Hk' & E).
      exists fetch', dc'. split; [exact Hk'|]. split; [reflexivity|].
      destruct Hshape as [[Er Et]|(part & qq & num & Er & Ep)]; rewrite Er in E |- *; subst dc'.
      - split; [left; auto|reflexivity].
      - split; [right; eauto|reflexivity]. }
    unfold push_fetch in Ha. destruct Hks as [->|(skip & lim & ->)]; cbn [nest] in Ha |- *.
    - exact (C1 _ _ Ha).
    - apply push_one in Ha as (fuel' & c' & Ha & ->).
      assert (Ha' : push_fetch_fuel fuel' (Node k [red pr dc]) = Ok c') by (destruct (fetch_required _); exact Ha).
      destruct (C1 _ _ Ha') as (fetch' & dc' & H1 & -> & H2). eauto. }
  destruct Core as (fetch' & dc' & Hk' & -> & Hshape' & Hrem). rewrite <- Hrem in Hrows.
  assert (Fin : forall g, ordered false (Node k [dc']) 1 g ->
    exists l, Permutation l (meaning t0) /\ StronglySorted le l /\ g 0 0 = limit_to need l).
  { intros g (g1 & Hg1 & Hg). destruct (proj2 Hg 0 ltac:(lia)) as (l' & Hl' & Eg).
    destruct (merge_stage false s need fetch' x dc' tasks g1 l' Hsort Hk' Htasks Hshape' Hg1 Hl') as (h & l & Hh & Hl1 & Hl2 & Hl3).
    exists l. split; [|split; [exact Hl2|now rewrite Eg, Hl3]]. now rewrite Hl1, (Hrows h Hh), Hm. }
  destruct Hks as [->|(skip & lim & ->)]; cbn [nest] in Hrun.
  - exact (Fin f Hrun).
  - destruct Hrun as (g & Hg & Hfg). destruct (Fin g Hg) as (l & H1 & H2 & H3). exists l. split; [exact H1|]. split; [exact H2|].
    rewrite (Hfg 0 0); [|lia|cbn; lia]. now rewrite H3.
Qed.

End Planned.
End Sorted_.
