(** The overview of the console: lemmas. *)
From Coq Require Import QArith Qabs Lqa Sorting.Sorted.
From Verif Require Import Base ConsoleModel ConsoleSpec ConsoleProofs OverviewModel OverviewSpec.
Close Scope Q_scope.

(** * Sorting *)
Lemma insert_perm cmp x l : Permutation (x :: l) (insert cmp x l).
Proof.
  induction l as [|y r IH]; cbn; [apply Permutation_refl|].
  destruct (cmp x y); try apply Permutation_refl.
  eapply Permutation_trans; [apply perm_swap|]. constructor. exact IH.
Qed.
Lemma stable_sort_perm cmp l : Permutation l (stable_sort cmp l).
Proof.
  induction l as [|x l IH]; cbn; [constructor|]. eapply Permutation_trans; [apply perm_skip, IH|apply insert_perm].
Qed.

Definition before_ (cmp : nat -> nat -> comparison) (a b : nat) : Prop := cmp a b = Lt \/ (cmp a b = Eq /\ a < b).

Lemma insert_sorted cmp all x l : total_order cmp all -> In x all -> incl l all -> Forall (lt x) l ->
  StronglySorted (before_ cmp) l -> StronglySorted (before_ cmp) (insert cmp x l).
Proof.
  intros (A & T & E) Hx. induction l as [|y r IH]; intros Hl Lx Hs; cbn; [repeat constructor|].
  inversion Hs as [|? ? Hs' Hy]; subst. inversion Lx as [|? ? Lxy Lxr]; subst.
  assert (Hyin : In y all) by (apply Hl; left; reflexivity).
  assert (Hr : incl r all) by (intros z Hz; apply Hl; right; exact Hz).
  assert (Keep : cmp x y <> Gt -> StronglySorted (before_ cmp) (x :: y :: r)).
  { intros N. constructor; [constructor; assumption|]. constructor.
    - unfold before_. destruct (cmp x y) eqn:C; [right; auto|left; auto|contradiction].
    - rewrite Forall_forall in *. intros z Hz. pose proof (Hy z Hz) as Byz. pose proof (Lxr z Hz) as Lz.
      assert (Nyz : cmp y z <> Gt) by (destruct Byz as [B|[B _]]; rewrite B; discriminate).
      pose proof (T x y z Hx Hyin (Hr z Hz) N Nyz) as Nxz. unfold before_.
      destruct (cmp x z); [right; auto|left; reflexivity|contradiction]. }
  destruct (cmp x y) eqn:C; [apply Keep; discriminate|apply Keep; discriminate|]. clear Keep.
  constructor; [apply IH; auto|].
  rewrite Forall_forall. intros z Hz. eapply Permutation_in in Hz; [|apply Permutation_sym, insert_perm].
  destruct Hz as [<-|Hz]; [left; rewrite (A x y Hx Hyin), C; reflexivity|].
  rewrite Forall_forall in Hy. auto.
Qed.

Lemma stable_sort_sorted cmp l all : total_order cmp all -> incl l all -> StronglySorted lt l ->
  StronglySorted (before_ cmp) (stable_sort cmp l).
Proof.
  intros Ht. induction l as [|x l IH]; intros Hi Hs; cbn; [constructor|].
  inversion Hs as [|? ? Hs' Hx]; subst. apply (insert_sorted cmp all); auto.
  - apply Hi. left. reflexivity.
  - intros z Hz. apply Hi. right. eapply Permutation_in; [apply Permutation_sym, stable_sort_perm|exact Hz].
  - rewrite Forall_forall in *. intros z Hz. apply Hx. eapply Permutation_in; [apply Permutation_sym, stable_sort_perm|exact Hz].
  - apply IH; auto. intros z Hz. apply Hi. right. exact Hz.
Qed.

Lemma seq_sorted n m : StronglySorted lt (seq n m).
Proof.
  revert n. induction m as [|m IH]; intros n; cbn; constructor; auto.
  rewrite Forall_forall. intros x Hx. apply in_seq in Hx. lia.
Qed.

Lemma sorted_above (R : nat -> nat -> Prop) l : StronglySorted R l -> forall a b, above l a b -> R a b.
Proof.
  induction 1 as [|x l Hs IH Hx]; intros a b (i & j & L & Ha & Hb).
  - destruct i; discriminate.
  - destruct i as [|i]; destruct j as [|j]; try lia; cbn in *.
    + injection Ha as <-. rewrite Forall_forall in Hx. apply Hx. eapply nth_error_In; eassumption.
    + apply (IH a b). exists i, j. repeat split; auto. lia.
Qed.

Lemma compare_total (f : nat -> nat) l : total_order (fun a b => Nat.compare (f a) (f b)) l.
Proof.
  split; [|split].
  - intros a b _ _. apply Nat.compare_antisym.
  - intros a b c _ _ _ H1 H2. apply Nat.compare_le_iff. apply Nat.compare_le_iff in H1, H2. lia.
  - intros a b c _ _ _ H1 H2. apply Nat.compare_eq_iff. apply Nat.compare_eq_iff in H1, H2. lia.
Qed.
Lemma opp_total cmp l : total_order cmp l -> total_order (fun a b => CompOpp (cmp a b)) l.
Proof.
  intros (A & T & E). split; [|split].
  - intros a b Ha Hb. rewrite (A a b Ha Hb). destruct (cmp a b); reflexivity.
  - intros a b c Ha Hb Hc H1 H2 H3. apply (T c b a Hc Hb Ha).
    + rewrite (A b c Hb Hc). exact H2.
    + rewrite (A a b Ha Hb). exact H1.
    + rewrite (A a c Ha Hc). exact H3.
  - intros a b c Ha Hb Hc H1 H2. rewrite (E a b c Ha Hb Hc); [reflexivity| |].
    + destruct (cmp a b); cbn in H1; congruence.
    + destruct (cmp b c); cbn in H2; congruence.
Qed.
Lemma ext_total cmp cmp' l : (forall a b, In a l -> In b l -> cmp a b = cmp' a b) -> total_order cmp' l -> total_order cmp l.
Proof.
  intros H (A & T & E). split; [|split].
  - intros a b Ha Hb. rewrite !H by assumption. auto.
  - intros a b c Ha Hb Hc. rewrite !H by assumption. eauto.
  - intros a b c Ha Hb Hc. rewrite !H by assumption. eauto.
Qed.
Lemma column_total cpu rss ws c l : (c = CCpu -> forall i, In i l -> cpu i <> None) -> total_order (column_cmp cpu rss ws c) l.
Proof.
  intros H. destruct c; try (apply compare_total).
  apply (ext_total _ (fun a b => Nat.compare (match cpu a with Some x => x | None => 0 end) (match cpu b with Some x => x | None => 0 end)));
    [|apply compare_total].
  intros a b Ha Hb. pose proof (H eq_refl a Ha). pose proof (H eq_refl b Hb). unfold column_cmp, partial_cmp.
  destruct (cpu a), (cpu b); try congruence; reflexivity.
Qed.

Lemma sorted_rows cpu rss c d ws out : (c = CCpu -> forall i, i < List.length ws -> cpu i <> None) ->
  sorted_worker_indices cpu rss c d ws out ->
  exists rows, out = Ok rows /\ Permutation rows (seq 0 (List.length ws)) /\
    forall a b, above rows a b ->
      match d with
      | Unsorted => a < b
      | Ascending => before_ (column_cmp cpu rss ws c) a b
      | Descending => before_ (fun a b => CompOpp (column_cmp cpu rss ws c a b)) a b
      end.
Proof.
  intros H S. assert (T : total_order (column_cmp cpu rss ws c) (seq 0 (List.length ws))).
  { apply column_total. intros E i Hi. apply in_seq in Hi. apply H; [exact E|lia]. }
  unfold sorted_worker_indices in S. destruct d.
  - subst out. eexists. split; [reflexivity|]. split; [apply Permutation_refl|]. apply sorted_above, seq_sorted.
  - inversion S as [_ Eq| ? N _ Eq|N Eq]; try contradiction.
    eexists. split; [reflexivity|]. split; [apply Permutation_sym, stable_sort_perm|].
    apply sorted_above. apply (stable_sort_sorted _ _ (seq 0 (List.length ws))); [exact T|intros x Hx; exact Hx|apply seq_sorted].
  - apply opp_total in T. inversion S as [_ Eq| ? N _ Eq|N Eq]; try contradiction.
    eexists. split; [reflexivity|]. split; [apply Permutation_sym, stable_sort_perm|].
    apply sorted_above. apply (stable_sort_sorted _ _ (seq 0 (List.length ws))); [exact T|intros x Hx; exact Hx|apply seq_sorted].
Qed.

(** * Numbers *)
Lemma rebuild_shown ws : exists l, queries_shown ws l /\ rebuild_queries ws = List.length l.
Proof.
  eexists. split; [|reflexivity]. split; [apply NoDup_nodup|]. intros q. rewrite nodup_In, in_flat_map. split.
  - intros (w & Hw & Hq). apply in_map_iff in Hq as (k & Hk & Hin). unfold keys in Hin. apply in_flat_map in Hin as (t & Ht & Hkt).
    exists w, t, k. destruct (l_key t) eqn:E; [destruct Hkt as [->|[]]; auto|destruct Hkt].
  - intros (w & t & k & Hw & Ht & Hk & Hq). exists w. split; [exact Hw|]. apply in_map_iff. exists k. split; [exact Hq|].
    unfold keys. apply in_flat_map. exists t. split; [exact Ht|]. rewrite Hk. left. reflexivity.
Qed.
Lemma distinct_shown w : exists l, queries_shown [w] l /\ distinct_query_count w = List.length l.
Proof.
  destruct (rebuild_shown [w]) as (l & H & E). exists l. split; [exact H|]. rewrite <- E. unfold rebuild_queries, distinct_query_count.
  cbn. rewrite app_nil_r. reflexivity.
Qed.
Lemma queries_shown_same ws ws' l : map tasks ws = map tasks ws' -> queries_shown ws l -> queries_shown ws' l.
Proof.
  intros E (N & H). split; [exact N|]. intros q. rewrite H.
  assert (G : forall us vs, map tasks us = map tasks vs -> forall w, In w us -> exists v, In v vs /\ tasks v = tasks w).
  { intros us vs Eq w Hw. apply (in_map tasks) in Hw. rewrite Eq in Hw. apply in_map_iff in Hw as (v & Hv & Hin). eauto. }
  split; intros (w & t & k & Hw & Ht & Hk).
  - destruct (G _ _ E w Hw) as (v & Hv & Ev). exists v, t, k. rewrite Ev. auto.
  - destruct (G _ _ (eq_sym E) w Hw) as (v & Hv & Ev). exists v, t, k. rewrite Ev. auto.
Qed.

Lemma stats_fold ws s : let r := fold_left count_worker ws s in
  total r = total s /\ active_queries r = active_queries s /\
  active_count r = active_count s + with_status (fun x => match x with Active => true | _ => false end) ws /\
  idle_count r = idle_count s + with_status (fun x => match x with Idle => true | _ => false end) ws /\
  connecting_count r = connecting_count s + with_status (fun x => match x with Connecting => true | _ => false end) ws /\
  disconnected_count r = disconnected_count s + with_status (fun x => match x with Disconnected => true | _ => false end) ws /\
  total_tasks r = total_tasks s + list_sum (map (fun w => List.length (tasks w)) ws) /\
  total_completed r = total_completed s + list_sum (map (fun w => List.length (completed w)) ws).
Proof.
  revert s. induction ws as [|w ws IH]; intros s; cbn [fold_left]; [cbn; repeat split; lia|].
  destruct (IH (count_worker s w)) as (H1 & H2 & H3 & H4 & H5 & H6 & H7 & H8). cbn in *.
  unfold list_sum in *. destruct (st w); cbn in *; repeat split; try congruence; lia.
Qed.
Lemma status_sum ws :
  with_status (fun x => match x with Active => true | _ => false end) ws +
  with_status (fun x => match x with Idle => true | _ => false end) ws +
  with_status (fun x => match x with Connecting => true | _ => false end) ws +
  with_status (fun x => match x with Disconnected => true | _ => false end) ws = List.length ws.
Proof. induction ws as [|w ws IH]; cbn; [reflexivity|]. destruct (st w); cbn; lia. Qed.

Lemma clear_tasks cleared ws :
  map tasks (map (fun x : bool * conn => if fst x then clear_completed (snd x) else snd x)
    (combine (cleared ++ repeat false (List.length ws)) ws)) = map tasks ws.
Proof.
  revert cleared. induction ws as [|w ws IH]; intros cleared; [destruct cleared; reflexivity|].
  destruct cleared as [|b cleared].
  - cbn. f_equal. apply (IH []).
  - cbn [Datatypes.app combine map]. f_equal; [destruct b; reflexivity|].
    assert (E : repeat false (List.length (w :: ws)) = repeat false (List.length ws) ++ [false]).
    { cbn [List.length]. rewrite <- repeat_cons. reflexivity. }
    rewrite E, app_assoc. specialize (IH cleared).
    assert (K : forall (l : list bool) (us : list conn) x, List.length us <= List.length l -> combine (l ++ [x]) us = combine l us).
    { induction l as [|y l IHl]; intros [|u us] x L; cbn in *; try reflexivity; try lia. f_equal. apply IHl. lia. }
    rewrite K; [exact IH|]. rewrite app_length, repeat_length. lia.
Qed.

Lemma queries_invariant l : let o := overview_after l in exists q, queries_shown (o_workers o) q /\ o_queries o = List.length q.
Proof.
  induction l as [|h l IH] using rev_ind; cbn.
  - exists []. split; [|reflexivity]. split; [constructor|]. intros q. split; [intros []|intros (w & _ & _ & [] & _)].
  - unfold overview_after in *. rewrite fold_left_app. cbn. destruct IH as (q & Hq & E). destruct h as [now ws| |cleared]; cbn.
    + destruct (o_paused _); [eauto|]. cbn. apply rebuild_shown.
    + eauto.
    + exists q. split; [|exact E]. eapply queries_shown_same; [|exact Hq]. symmetry. apply clear_tasks.
Qed.

(** * Rates *)
Lemma per_bound a b (r : Q) : 0 < b -> (inject_Z (Z.of_nat a) <= r * inject_Z (Z.of_nat b))%Q -> (0 <= per a b /\ per a b <= r)%Q.
Proof.
  intros Hb H. assert (P : (0 < inject_Z (Z.of_nat b))%Q) by (unfold Qlt; cbn; lia).
  assert (Z0 : (0 <= inject_Z (Z.of_nat a))%Q) by (unfold Qle; cbn; lia). unfold per. split.
  - apply Qle_shift_div_l; [exact P|]. rewrite Qmult_0_l. exact Z0.
  - apply Qle_shift_div_r; assumption.
Qed.

Lemma per_eq a b (r : Q) : 0 < b -> (inject_Z (Z.of_nat a) == r * inject_Z (Z.of_nat b))%Q -> (per a b == r)%Q.
Proof.
  intros Hb H. assert (P : (0 < inject_Z (Z.of_nat b))%Q) by (unfold Qlt; cbn; lia).
  unfold per. rewrite H. field. intro E. rewrite E in P. apply (Qlt_irrefl 0 P).
Qed.

Lemma ticks_snoc rs x : overview_after (ticks (rs ++ [x])) = happens (overview_after (ticks rs)) (Tick (fst x) (snd x)).
Proof. unfold overview_after, ticks. rewrite map_app, fold_left_app. reflexivity. Qed.
Lemma ticks_run rs : o_paused (overview_after (ticks rs)) = false.
Proof.
  induction rs as [|y rs IH] using rev_ind; [reflexivity|]. rewrite ticks_snoc. cbn [happens]. rewrite IH. first [exact IH|reflexivity].
Qed.
Lemma ticked rs x : let o := overview_after (ticks (rs ++ [x])) in
  o_paused o = false /\ o_workers o = snd x /\ m_time (o_meter o) = Some (fst x) /\ m_total (o_meter o) = rows_shown (snd x).
Proof.
  cbn zeta. rewrite ticks_snoc. cbn [happens]. rewrite ticks_run. repeat split.
Qed.
Lemma tick_more rs x y : let o := overview_after (ticks (rs ++ [x])) in let o' := overview_after (ticks ((rs ++ [x]) ++ [y])) in
  m_rate (o_meter o') =
    (if 0 <? fst y - fst x
     then ((7 # 10) * per (rows_shown (snd y) - rows_shown (snd x)) (fst y - fst x) + (3 # 10) * m_rate (o_meter o))%Q
     else m_rate (o_meter o)).
Proof.
  cbn zeta. rewrite (ticks_snoc (rs ++ [x]) y). destruct (ticked rs x) as (P & _ & T & R).
  cbn [happens]. rewrite P. cbn [o_meter update_throughput m_rate]. rewrite T, R. reflexivity.
Qed.

Lemma rate_bounded rs r : (0 <= r)%Q ->
  (forall x y, successive rs x y ->
     fst x < fst y /\ (inject_Z (Z.of_nat (rows_shown (snd y) - rows_shown (snd x))) <= r * inject_Z (Z.of_nat (fst y - fst x)))%Q) ->
  (0 <= m_rate (o_meter (overview_after (ticks rs))) /\ m_rate (o_meter (overview_after (ticks rs))) <= r)%Q.
Proof.
  intros R0. induction rs as [|y rs IH] using rev_ind; intros H; [cbn; split; [apply Qle_refl|exact R0]|].
  destruct rs as [|x rs _] using rev_ind.
  - cbn. split; [apply Qle_refl|exact R0].
  - rewrite tick_more. destruct (H x y) as (L & D). { exists rs, []. rewrite <- app_assoc. reflexivity. }
    assert (L' : 0 < fst y - fst x) by lia. destruct (Nat.ltb_spec 0 (fst y - fst x)); [|lia].
    destruct (per_bound _ _ r L' D) as (P1 & P2).
    destruct IH as (I1 & I2).
    { intros a b (l & l' & E). apply H. exists l, (l' ++ [y]). rewrite E. rewrite <- app_assoc. reflexivity. }
    set (p := per _ _) in *. set (m := m_rate _) in *. clearbody p m. clear - P1 P2 I1 I2. split; lra.
Qed.

Lemma rate_steady rs x ys r : (forall a b, successive (x :: ys) a b -> grows r a b) ->
  (m_rate (o_meter (overview_after (ticks (rs ++ x :: ys)))) ==
   r + share (List.length ys) * (m_rate (o_meter (overview_after (ticks (rs ++ [x])))) - r))%Q.
Proof.
  revert rs x. induction ys as [|y ys IH]; intros rs x H.
  - cbn [List.length share]. ring.
  - assert (E : rs ++ x :: y :: ys = (rs ++ [x]) ++ y :: ys) by (rewrite <- app_assoc; reflexivity).
    rewrite E, (IH (rs ++ [x]) y).
    + rewrite tick_more. destruct (H x y) as (L & _ & D). { exists [], ys. reflexivity. }
      assert (L' : 0 < fst y - fst x) by lia. destruct (Nat.ltb_spec 0 (fst y - fst x)); [|lia].
      rewrite (per_eq _ _ r L' D). cbn [List.length share]. ring.
    + intros a b (l & l' & Eq). apply H. exists (x :: l), l'. rewrite Eq. reflexivity.
Qed.

Lemma delta_sum ws ws' : Forall2 (fun w w' => rows_total w <= rows_total w') ws ws' ->
  rows_shown ws' - rows_shown ws = list_sum (map (fun p => rows_total (snd p) - rows_total (fst p)) (combine ws ws')) /\
  rows_shown ws <= rows_shown ws'.
Proof.
  unfold rows_shown. induction 1 as [|w w' ws ws' L F (IH & Le)]; cbn; [auto|]. unfold list_sum in *. lia.
Qed.

Lemma paused_ticks l rs : o_paused (overview_after l) = true -> overview_after (l ++ ticks rs) = overview_after l.
Proof.
  intros P. unfold overview_after. rewrite fold_left_app. fold (overview_after l). induction rs as [|x rs IH]; [reflexivity|].
  cbn [ticks map fold_left happens]. rewrite P. exact IH.
Qed.

(** * Durations *)
Lemma sum_bounds (l : list nat) lo hi : (forall x, In x l -> lo <= x <= hi) ->
  lo * List.length l <= list_sum l /\ list_sum l <= hi * List.length l.
Proof.
  unfold list_sum. induction l as [|x l IH]; intros H; cbn; [lia|].
  pose proof (H x (or_introl eq_refl)). destruct IH; [intros y Hy; apply H; right; exact Hy|]. lia.
Qed.
Lemma inject_le a b : a <= b -> (inject_Z (Z.of_nat a) <= inject_Z (Z.of_nat b))%Q.
Proof. intros H. unfold Qle. cbn. lia. Qed.
Lemma average_bounds (l : list nat) lo hi : l <> [] -> (forall x, In x l -> lo <= x <= hi) ->
  (inject_Z (Z.of_nat lo) <= per (list_sum l) (List.length l) /\ per (list_sum l) (List.length l) <= inject_Z (Z.of_nat hi))%Q.
Proof.
  intros N H. destruct (sum_bounds l lo hi H) as (B1 & B2).
  assert (P : 0 < List.length l) by (destruct l; [contradiction|cbn; lia]).
  assert (PQ : (0 < inject_Z (Z.of_nat (List.length l)))%Q) by (unfold Qlt; cbn; lia).
  unfold per. split.
  - apply Qle_shift_div_l; [exact PQ|]. rewrite <- inject_Z_mult, <- Nat2Z.inj_mul. apply inject_le, B1.
  - apply Qle_shift_div_r; [exact PQ|]. rewrite <- inject_Z_mult, <- Nat2Z.inj_mul. apply inject_le, B2.
Qed.

Lemma list_max_in (l : list nat) : (forall x, In x l -> x <= list_max l) /\ (0 < list_max l -> In (list_max l) l).
Proof.
  unfold list_max. induction l as [|x l (IH1 & IH2)]; cbn; [split; [intros _ []|lia]|]. split.
  - intros y [<-|Hy]; [lia|]. specialize (IH1 y Hy). lia.
  - intros H. destruct (Nat.max_dec x (fold_right Nat.max 0 l)) as [E|E]; rewrite E in *; auto.
Qed.

(** A task has one time since when it is known. *)
Lemma nodup_filter {A B} (f : A -> B) g l : NoDup (map f l) -> NoDup (map f (filter g l)).
Proof.
  induction l as [|x l IH]; cbn; intros H; [constructor|]. inversion H as [|? ? N H']; subst. destruct (g x); cbn; auto.
  constructor; auto. intro I. apply N. apply in_map_iff in I as (y & E & Hy). apply filter_In in Hy as (Hy & _). rewrite <- E.
  apply in_map, Hy.
Qed.
Lemma seen_none l k : seen_at l k = None -> ~ In k (map fst l).
Proof.
  unfold seen_at. destruct (find _ l) as [[k' t]|] eqn:F; [discriminate|]. intros _ I. apply in_map_iff in I as (x & E & Hx).
  pose proof (find_none _ _ F x Hx) as N. cbn in N. rewrite E, key_eqb_refl in N. discriminate.
Qed.
Lemma seen_in_map l k t : NoDup (map fst l) -> In (k, t) l -> seen_at l k = Some t.
Proof.
  unfold seen_at. induction l as [|[k' t'] l IH]; cbn; intros N I; [destruct I|]. inversion N as [|? ? Nin N']; subst.
  destruct I as [E|I].
  - injection E as -> ->. rewrite key_eqb_refl. reflexivity.
  - destruct (key_eqb k k') eqn:C; [|apply IH; assumption].
    apply key_eqb_eq in C. subst k'. exfalso. apply Nin. apply (in_map fst) in I. exact I.
Qed.
Lemma nodup_snoc {A} (l : list A) x : NoDup l -> ~ In x l -> NoDup (l ++ [x]).
Proof.
  intros N H. apply NoDup_rev in N. rewrite <- (rev_involutive (l ++ [x])). apply NoDup_rev. rewrite rev_app_distr. cbn.
  constructor; [rewrite <- in_rev; exact H|exact N].
Qed.
Lemma note_nodup now new seen : NoDup (map fst seen) -> NoDup (map fst (fold_left (note_seen now) new seen)).
Proof.
  revert seen. induction new as [|t new IH]; intros seen N; cbn; [exact N|]. apply IH. unfold note_seen.
  destruct (l_key t) as [k|]; [|exact N]. destruct (seen_at seen k) eqn:S; [exact N|].
  rewrite map_app. cbn. apply nodup_snoc; [exact N|apply seen_none, S].
Qed.
Lemma complete_nodup now new old done seen : NoDup (map fst seen) ->
  NoDup (map fst (snd (fold_left (complete now new) old (done, seen)))).
Proof.
  revert done seen. induction old as [|t old IH]; intros done seen N; cbn [fold_left]; [exact N|].
  unfold complete at 2. destruct (l_running t); [|apply IH, N]. destruct (l_key t) as [k|]; [|apply IH, N].
  destruct (has k new); [apply IH, N|]. apply IH, nodup_filter, N.
Qed.
Lemma seen_nodup u l : NoDup (map fst (first_seen (after u l))).
Proof.
  induction l as [|e l IH] using rev_ind; [constructor|]. rewrite after_app. destruct e as [now ok|now r|]; cbn [apply_event].
  - destruct (should_retry now (after u l)); [|exact IH]. unfold try_connect. destruct ok; cbn; [constructor|exact IH].
  - unfold poll. destruct (client (after u l)); [|exact IH]. destruct r as [a|]; [|constructor].
    pose proof (complete_nodup now (keys (a_tasks a)) (tasks (after u l)) (completed (after u l)) (first_seen (after u l)) IH) as C.
    destruct (fold_left (complete now (keys (a_tasks a))) (tasks (after u l)) (completed (after u l), first_seen (after u l))) as [done seen].
    cbn in C |- *. apply nodup_filter, note_nodup, C.
  - exact IH.
Qed.
