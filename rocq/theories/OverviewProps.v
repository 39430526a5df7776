(** C102. The console's overview adds up and orders what its workers show. *)
From Coq Require Import QArith.
From Verif Require Import Base ConsoleModel ConsoleSpec ConsoleProofs OverviewModel OverviewSpec OverviewProofs.
Close Scope Q_scope.

(** Every worker has one row; the rows are in the order of the column chosen, and rows with the same value in the order in which the
    workers were discovered. Missing: CPU usages that are no numbers ([C102_rows_in_order_refuted]). *)
Theorem C102_rows_in_order_partial cpu rss c d ws out :
  (c = CCpu -> forall i, i < List.length ws -> cpu i <> None) ->
  sorted_worker_indices cpu rss c d ws out ->
  exists rows, out = Ok rows /\ Permutation rows (seq 0 (List.length ws)) /\
    (forall i, In i rows -> exists v, shows cpu rss ws c i v) /\
    forall a b v w, above rows a b -> shows cpu rss ws c a v -> shows cpu rss ws c b w ->
      match d with
      | Unsorted => a < b
      | Ascending => v < w \/ (v = w /\ a < b)
      | Descending => w < v \/ (v = w /\ a < b)
      end.
Proof.
  intros H S. destruct (sorted_rows cpu rss c d ws out H S) as (rows & -> & P & O).
  exists rows. split; [reflexivity|]. split; [exact P|]. split.
  - intros i Hi. eapply Permutation_in in Hi; [|exact P]. apply in_seq in Hi. destruct (nth_error ws i) as [w|] eqn:E.
    2: { apply nth_error_None in E. lia. }
    unfold shows. rewrite E. destruct c; try (eexists; exists w; split; reflexivity).
    + destruct (st w) eqn:Es; eexists; exists w; (split; [reflexivity|]); rewrite Es; reflexivity.
    + destruct (distinct_shown w) as (l & Hl & _). exists (List.length l), w. split; [reflexivity|]. exists l. auto.
    + destruct (cpu i) as [v|] eqn:C; [|exfalso; apply (H eq_refl i); [lia|exact C]]. exists v, w. auto.
  - intros a b v w A Va Vb. specialize (O a b A).
    assert (E : column_cmp cpu rss ws c a b = Nat.compare v w).
    { destruct Va as (x & Ex & Va), Vb as (y & Ey & Vb). unfold column_cmp. destruct c; rewrite ?Ex, ?Ey.
      - subst. reflexivity.
      - destruct (st x), (st y); subst; reflexivity.
      - subst. reflexivity.
      - destruct Va as (l & Hl & ->), Vb as (l' & Hl' & ->).
        destruct (distinct_shown x) as (m & Hm & ->), (distinct_shown y) as (m' & Hm' & ->).
        assert (G : forall us p q, queries_shown us p -> queries_shown us q -> List.length p = List.length q).
        { intros us p q (Np & Hp) (Nq & Hq). apply Permutation_length. apply NoDup_Permutation; auto. intros z. rewrite Hp, Hq. tauto. }
        rewrite (G _ _ _ Hm Hl), (G _ _ _ Hm' Hl'). reflexivity.
      - rewrite Va, Vb. reflexivity.
      - subst. reflexivity. }
    destruct d; [exact O| |].
    + destruct O as [O|[O L]]; rewrite E in O; [left; apply Nat.compare_lt_iff, O|right; split; [apply Nat.compare_eq_iff, O|exact L]].
    + destruct O as [O|[O L]]; rewrite E in O.
      * left. destruct (Nat.compare v w) eqn:C; cbn in O; try discriminate. apply Nat.compare_gt_iff, C.
      * right. split; [|exact L]. destruct (Nat.compare v w) eqn:C; cbn in O; try discriminate. apply Nat.compare_eq_iff, C.
Qed.
Print Assumptions C102_rows_in_order_partial.

Module OverviewEx.
  Definition task (q : nat) rows := mkListed (Some (q, 1, 0)) true rows.
  (** Two workers polled once, a third one that does not answer. *)
  Definition a := after 30 [EConnect 1 true; EPoll 2 (Some (mkAnswer [task 7 10; task 7 20] 100 3))].
  Definition b := after 10 [EConnect 1 true; EPoll 2 (Some (mkAnswer [task 8 5] 200 4))].
  Definition c := after 20 [EConnect 1 false].
  Definition ws := [a; b; c].
  Definition cpu (i : nat) : option nat := nth_error [300; 400; 0] i.
  Definition rss (i : nat) : nat := nth i [100; 200; 0] 0.
  (** By status, then by number of tasks in descending order. *)
  Example C102_rows_case :
    sorted_worker_indices cpu rss CStatus Ascending ws (Ok [2; 0; 1]) /\
    sorted_worker_indices cpu rss CTasks Descending ws (Ok [0; 1; 2]) /\
    sorted_worker_indices cpu rss CCpu Ascending ws (Ok [2; 0; 1]).
  Proof.
    split; [|split].
    - change [2; 0; 1] with (stable_sort (column_cmp cpu rss ws CStatus) (seq 0 3)). constructor. apply column_total. discriminate.
    - change [0; 1; 2] with (stable_sort (fun a b => CompOpp (column_cmp cpu rss ws CTasks a b)) (seq 0 3)). constructor.
      apply opp_total, column_total. discriminate.
    - change [2; 0; 1] with (stable_sort (column_cmp cpu rss ws CCpu) (seq 0 3)). constructor. apply column_total.
      intros _ i Hi. cbn in Hi. destruct Hi as [<-|[<-|[<-|[]]]]; cbn; discriminate.
  Qed.
End OverviewEx.

(** A worker that answers with a CPU usage that is no number may crash the console when its user sorts by CPU. *)
Theorem C102_rows_in_order_refuted : exists cpu rss ws,
  (forall i w, nth_error ws i = Some w -> exists u l, w = after u l /\ st w = Active) /\
  (exists m, sorted_worker_indices cpu rss CCpu Ascending ws (Panic m)) /\
  exists rows a b v w, sorted_worker_indices cpu rss CCpu Ascending ws (Ok rows) /\
    above rows a b /\ shows cpu rss ws CCpu a v /\ shows cpu rss ws CCpu b w /\ w < v.
Proof.
  set (x := after 1 [EConnect 1 true; EPoll 2 (Some (mkAnswer [OverviewEx.task 7 10] 100 3))]).
  exists (fun i => nth i [Some 9; None; Some 1] None), (fun _ => 0), [x; x; x].
  assert (N : ~ total_order (column_cmp (fun i => nth i [Some 9; None; Some 1] None) (fun _ => 0) [x; x; x] CCpu) (seq 0 3)).
  { intros (_ & _ & E). specialize (E 0 1 2). cbn in E. discriminate E; auto. }
  split; [|split].
  - intros i w H. assert (w = x) as ->. { apply nth_error_In in H. destruct H as [H|[H|[H|[]]]]; symmetry; exact H. }
    exists 1, [EConnect 1 true; EPoll 2 (Some (mkAnswer [OverviewEx.task 7 10] 100 3))]. split; reflexivity.
  - eexists. apply sort_panic. exact N.
  - exists [0; 1; 2], 0, 2, 9, 1. split; [apply sort_any; [exact N|apply Permutation_refl]|].
    split; [exists 0, 2; repeat split; lia|]. split; [exists x; split; reflexivity|]. split; [exists x; split; reflexivity|lia].
Qed.
Print Assumptions C102_rows_in_order_refuted.

(** The numbers of workers by status add up to all workers; tasks, completed tasks and queries are those of all workers, whatever
    was polled, paused and cleared. *)
Theorem C102_totals l :
  let o := overview_after l in let s := cluster_stats (o_workers o) (o_queries o) in
  total s = List.length (o_workers o) /\
  active_count s + idle_count s + connecting_count s + disconnected_count s = total s /\
  active_count s = with_status (fun x => match x with Active => true | _ => false end) (o_workers o) /\
  idle_count s = with_status (fun x => match x with Idle => true | _ => false end) (o_workers o) /\
  connecting_count s = with_status (fun x => match x with Connecting => true | _ => false end) (o_workers o) /\
  disconnected_count s = with_status (fun x => match x with Disconnected => true | _ => false end) (o_workers o) /\
  total_tasks s = list_sum (map (fun w => List.length (tasks w)) (o_workers o)) /\
  total_completed s = list_sum (map (fun w => List.length (completed w)) (o_workers o)) /\
  exists q, queries_shown (o_workers o) q /\ active_queries s = List.length q.
Proof.
  cbn zeta. set (o := overview_after l).
  destruct (stats_fold (o_workers o) (mkStats (List.length (o_workers o)) 0 0 0 0 0 0 (o_queries o)))
    as (H1 & H2 & H3 & H4 & H5 & H6 & H7 & H8).
  unfold cluster_stats. cbn [total active_count idle_count connecting_count disconnected_count total_tasks total_completed active_queries Nat.add] in *.
  pose proof (status_sum (o_workers o)) as Sum. destruct (queries_invariant l) as (q & Hq & Eq). fold o in Hq, Eq.
  repeat split; try assumption; try lia. exists q. split; [exact Hq|]. rewrite H2. exact Eq.
Qed.
Print Assumptions C102_totals.
Example C102_totals_case :
  let s := cluster_stats OverviewEx.ws (o_queries (overview_after [Tick 3 OverviewEx.ws; Pause; Tick 4 []; Clear [true]])) in
  active_count s = 2 /\ disconnected_count s = 1 /\ total_tasks s = 3 /\ active_queries s = 2.
Proof. vm_compute. auto. Qed.

(** The average duration lies between the shortest and the longest of the completed tasks shown, and there is none without such. *)
Theorem C102_average ws :
  (cluster_avg_task_duration ws = None <-> forall w, In w ws -> completed w = []) /\
  forall avg lo hi, cluster_avg_task_duration ws = Some avg ->
    (forall w k d, In w ws -> In (k, d) (completed w) -> lo <= d <= hi) ->
    (inject_Z (Z.of_nat lo) <= avg /\ avg <= inject_Z (Z.of_nat hi))%Q.
Proof.
  unfold cluster_avg_task_duration. set (l := flat_map (fun w => map snd (completed w)) ws).
  assert (I : forall d, In d l -> exists w k, In w ws /\ In (k, d) (completed w)).
  { intros d H. apply in_flat_map in H as (w & Hw & Hd). apply in_map_iff in Hd as ([k d'] & E & Hd). cbn in E. subst. eauto. }
  split.
  - split.
    + intros H w Hw. destruct l as [|x l'] eqn:E; [|discriminate]. destruct (completed w) as [|[k d] r] eqn:C; [reflexivity|].
      exfalso. assert (In d l) by (apply in_flat_map; exists w; rewrite C; split; [exact Hw|left; reflexivity]). rewrite E in H0. exact H0.
    + intros H. destruct l as [|x l'] eqn:E; [reflexivity|]. destruct (I x) as (w & k & Hw & Hd); [left; reflexivity|].
      rewrite (H w Hw) in Hd. destruct Hd.
  - intros avg lo hi E H. destruct l as [|x l'] eqn:El; [discriminate|]. assert (Ea : avg = per (list_sum l) (List.length l)) by (rewrite El; congruence). rewrite Ea. clear E.
    apply average_bounds; [rewrite El; discriminate|]. intros d Hd. rewrite <- El in I. destruct (I d Hd) as (w & k & Hw & Hk). eapply H; eassumption.
Qed.
Print Assumptions C102_average.

(** The longest time shown is at least the time since any task shown was seen first, and a task shown has been seen for that long. *)
Theorem C102_longest hs now : (forall u l, In (u, l) hs -> proper l) ->
  let ws := map (fun h => after (fst h) (snd h)) hs in
  let d := cluster_longest_active_task now ws in
  (forall u l t k, In (u, l) hs -> In t (tasks (after u l)) -> l_key t = Some k -> exists t0, listed_since u l k t0 /\ now - t0 <= d) /\
  (0 < d -> exists u l t k t0, In (u, l) hs /\ In t (tasks (after u l)) /\ l_key t = Some k /\ listed_since u l k t0 /\ d = now - t0).
Proof.
  intros P ws d. unfold d, cluster_longest_active_task, longest_task_duration.
  assert (L : forall u l t k, In (u, l) hs -> In t (tasks (after u l)) -> l_key t = Some k ->
            exists t0, seen_at (first_seen (after u l)) k = Some t0 /\ listed_since u l k t0).
  { intros u l t k Hin Ht Hk. destruct (g_seen _ _ _ (good_after u l (P u l Hin)) t k Ht Hk) as (t0 & S & l0 & a0 & l1 & E & C & A & K & _).
    exists t0. split; [exact S|]. exists l0, a0, l1. auto. }
  destruct (list_max_in (map (fun w => list_max (map (fun x => now - snd x) (first_seen w))) ws)) as (U & A). split.
  - intros u l t k Hin Ht Hk. destruct (L u l t k Hin Ht Hk) as (t0 & S & Ls). exists t0. split; [exact Ls|].
    eapply Nat.le_trans; [|apply U; apply in_map; unfold ws; apply (in_map (fun h => after (fst h) (snd h)) hs (u, l)) in Hin; exact Hin].
    cbn [fst snd]. apply list_max_in. apply in_map_iff. exists (k, t0). split; [reflexivity|].
    unfold seen_at in S. destruct (find _ _) as [[k' t']|] eqn:F; [|discriminate]. injection S as ->.
    apply find_some in F as (F & E). cbn in E. apply key_eqb_eq in E. subst k'. exact F.
  - intros Pos. specialize (A Pos). apply in_map_iff in A as (w & Ew & Hw). rewrite <- Ew in Pos |- *.
    destruct (list_max_in (map (fun x => now - snd x) (first_seen w))) as (_ & A). specialize (A Pos).
    apply in_map_iff in A as ([k t0] & Ek & Hk). cbn in Ek. unfold ws in Hw. apply in_map_iff in Hw as ([u l] & Eh & Hin). cbn in Eh. subst w.
    pose proof (seen_in_map _ _ _ (seen_nodup u l) Hk) as S.
    pose proof (g_keys _ _ _ (good_after u l (P u l Hin)) k t0 S) as K. apply in_keys in K as (t & Ht & Hkt).
    destruct (L u l t k Hin Ht Hkt) as (t1 & S1 & Ls). rewrite S in S1. injection S1 as <-.
    exists u, l, t, k, t0. repeat split; auto.
Qed.
Print Assumptions C102_longest.
Example C102_longest_case : cluster_longest_active_task 9 OverviewEx.ws = 7.
Proof. vm_compute. reflexivity. Qed.

(** The rate shown is never negative and never above the fastest growth between two readings; at a steady growth it comes closer to
    it with every reading; paused, it stays. *)
Theorem C102_rate_bounded rs r : (0 <= r)%Q ->
  (forall x y, successive rs x y ->
     fst x < fst y /\ (inject_Z (Z.of_nat (rows_shown (snd y) - rows_shown (snd x))) <= r * inject_Z (Z.of_nat (fst y - fst x)))%Q) ->
  let shown := m_rate (o_meter (overview_after (ticks rs))) in (0 <= shown /\ shown <= r)%Q.
Proof. apply rate_bounded. Qed.
Print Assumptions C102_rate_bounded.
Theorem C102_rate_approaches rs x ys r : (forall a b, successive (x :: ys) a b -> grows r a b) ->
  (m_rate (o_meter (overview_after (ticks (rs ++ x :: ys)))) ==
   r + share (List.length ys) * (m_rate (o_meter (overview_after (ticks (rs ++ [x])))) - r))%Q.
Proof. apply rate_steady. Qed.
Print Assumptions C102_rate_approaches.
Theorem C102_paused l rs : o_paused (overview_after l) = true -> overview_after (l ++ ticks rs) = overview_after l.
Proof. apply paused_ticks. Qed.
Print Assumptions C102_paused.
(** If no worker lists fewer rows than at the last reading, the rows counted are those that the workers have added. Otherwise not
    ([C102_rate_refuted]). *)
Theorem C102_rate_counts_partial rs x y : fst x < fst y ->
  Forall2 (fun w w' => rows_total w <= rows_total w') (snd x) (snd y) ->
  (m_rate (o_meter (overview_after (ticks ((rs ++ [x]) ++ [y])))) ==
   (7 # 10) * (inject_Z (Z.of_nat (list_sum (map (fun p => (rows_total (snd p) - rows_total (fst p))%nat) (combine (snd x) (snd y))))) /
               inject_Z (Z.of_nat (fst y - fst x))) +
   (3 # 10) * m_rate (o_meter (overview_after (ticks (rs ++ [x])))))%Q.
Proof.
  intros L F. rewrite tick_more. destruct (delta_sum _ _ F) as (E & _). rewrite E.
  destruct (Nat.ltb_spec 0 (fst y - fst x)); [|lia]. reflexivity.
Qed.
Print Assumptions C102_rate_counts_partial.

Module RateEx.
  Definition w (rows : nat) := after 1 [EConnect 1 true; EPoll 2 (Some (mkAnswer [OverviewEx.task 7 rows] 100 3))].
  (** Ten rows per unit of time, read four times. *)
  Definition rs : list reading := [(2, [w 10]); (3, [w 20]); (4, [w 30]); (6, [w 50])].
  Example C102_rate_case : (forall a b, successive rs a b -> grows 10 a b) /\
    (m_rate (o_meter (overview_after (ticks rs))) == 10 - (27 # 100))%Q /\
    (m_rate (o_meter (overview_after (ticks (firstn 2 rs)))) == 7)%Q.
  Proof.
    split; [|split; vm_compute; reflexivity].
    intros a b (l & l' & E). unfold rs in E.
    destruct l as [|? [|? [|? [|? [|? l]]]]]; cbn in E; try discriminate; injection E; intros; subst; repeat split; cbn; lia.
  Qed.
End RateEx.

(** The rows of a task that started after the last reading are not counted if another one has ended. *)
Theorem C102_rate_refuted : exists x y t k, fst x < fst y /\
  (forall w, In w (snd x) -> exists u l, w = after u l) /\ (forall w, In w (snd y) -> exists u l, w = after u l) /\
  (exists w, In w (snd y) /\ In t (tasks w)) /\ l_key t = Some k /\ 0 < l_rows t /\
  (forall w t', In w (snd x) -> In t' (tasks w) -> l_key t' <> Some k) /\
  (m_rate (o_meter (overview_after (ticks [x; y]))) == 0)%Q.
Proof.
  set (l := [EConnect 1 true; EPoll 2 (Some (mkAnswer [OverviewEx.task 7 100] 100 3))]).
  set (l' := l ++ [EPoll 3 (Some (mkAnswer [OverviewEx.task 8 50] 100 3))]).
  exists (2, [after 1 l]), (3, [after 1 l']), (OverviewEx.task 8 50), (8, 1, 0).
  split; [cbn; lia|]. split; [intros w [<-|[]]; eauto|]. split; [intros w [<-|[]]; eauto|].
  split; [exists (after 1 l'); split; [left; reflexivity|left; reflexivity]|]. split; [reflexivity|]. split; [cbn; lia|].
  split; [|vm_compute; reflexivity].
  intros w t' [<-|[]] Ht. cbn in Ht. destruct Ht as [<-|[]]. cbn. discriminate.
Qed.
Print Assumptions C102_rate_refuted.

(** Every column can be chosen, Left undoes Right, and three times Space is as none. *)
Theorem C102_order_keys c d :
  press_left (press_right c) = c /\ press_right (press_left c) = c /\
  (forall c', exists n, n < 6 /\ Nat.iter n press_right c = c') /\ In c (columns true) /\
  next_direction (next_direction (next_direction d)) = d /\ (forall d', exists n, n < 3 /\ Nat.iter n next_direction d = d').
Proof.
  split; [destruct c; reflexivity|]. split; [destruct c; reflexivity|]. split.
  { intros c'. destruct c, c'; solve [exists 0; split; [lia|reflexivity] | exists 1; split; [lia|reflexivity] | exists 2; split; [lia|reflexivity]
      | exists 3; split; [lia|reflexivity] | exists 4; split; [lia|reflexivity] | exists 5; split; [lia|reflexivity]]. }
  split; [destruct c; cbn; auto 10|]. split; [destruct d; reflexivity|].
  intros d'. destruct d, d'; solve [exists 0; split; [lia|reflexivity] | exists 1; split; [lia|reflexivity] | exists 2; split; [lia|reflexivity]].
Qed.
Print Assumptions C102_order_keys.

(** On a narrow terminal the rows may be in the order of a column that is not drawn: the keys do not skip it there, although
    [SortColumn::next] and [prev] could. *)
Theorem C102_order_is_visible_refuted :
  (exists n, ~ In (Nat.iter n press_right CWorker) (columns false)) /\
  (forall c, In (next_column false c) (columns false) /\ In (prev_column false c) (columns false)).
Proof.
  split; [exists 3; cbn; intuition discriminate|]. intros c. destruct c; cbn; auto 10.
Qed.
Print Assumptions C102_order_is_visible_refuted.

(** Enter opens the worker in the row chosen. *)
Theorem C102_enter_opens_the_row cpu rss c d a rows i r :
  help a = false -> current a = Overview -> cursor a = Some i ->
  sorted_worker_indices cpu rss c d (workers a) (Ok rows) -> nth_error rows i = Some r ->
  exists a', handle_key (fun _ => rows) a KEnter = Ok a' /\ current a' = Detail /\ worker_idx a' = r /\ workers a' = workers a /\
    r < List.length (workers a).
Proof.
  intros H C I S R.
  assert (P : Permutation (seq 0 (List.length (workers a))) rows).
  { unfold sorted_worker_indices in S. destruct d; [injection S as <-; apply Permutation_refl| |];
      inversion S; subst; try apply stable_sort_perm; assumption. }
  assert (L : r < List.length (workers a)).
  { apply nth_error_In in R. eapply Permutation_in in R; [|apply Permutation_sym, P]. apply in_seq in R. lia. }
  unfold handle_key. rewrite H, C. unfold cluster_key. destruct (Nat.eqb_spec (List.length (workers a)) 0); [lia|]. rewrite I, R.
  eexists. split; [reflexivity|]. cbn. auto.
Qed.
Print Assumptions C102_enter_opens_the_row.

(** The row chosen stays, not the worker in it: after the next poll another worker may be there. *)
Theorem C102_chosen_worker_moves_refuted : exists cpu rss c d ws ws' i rows rows' w w',
  map url ws = map url ws' /\ (forall x, In x (ws ++ ws') -> exists u l, x = after u l) /\
  sorted_worker_indices cpu rss c d ws (Ok rows) /\ sorted_worker_indices cpu rss c d ws' (Ok rows') /\
  (exists r, nth_error rows i = Some r /\ nth_error ws r = Some w) /\ (exists r, nth_error rows' i = Some r /\ nth_error ws' r = Some w') /\
  url w <> url w'.
Proof.
  set (p := fun u ts => after u [EConnect 1 true; EPoll 2 (Some (mkAnswer ts 100 3))]).
  set (t := OverviewEx.task 7 10).
  exists (fun _ => None), (fun _ => 0), CTasks, Ascending, [p 1 []; p 2 [t]], [p 1 [t]; p 2 []], 0, [0; 1], [1; 0], (p 1 []), (p 2 []).
  split; [reflexivity|]. split.
  { intros x H. cbn [Datatypes.app] in H. destruct H as [<-|[<-|[<-|[<-|[]]]]]; unfold p; eauto. }
  split. { change [0; 1] with (stable_sort (column_cmp (fun _ => None) (fun _ => 0) [p 1 []; p 2 [t]] CTasks) (seq 0 2)).
    apply sort_stable. apply column_total. discriminate. }
  split. { change [1; 0] with (stable_sort (column_cmp (fun _ => None) (fun _ => 0) [p 1 [t]; p 2 []] CTasks) (seq 0 2)).
    apply sort_stable. apply column_total. discriminate. }
  split; [exists 0; split; reflexivity|]. split; [exists 1; split; reflexivity|]. cbn. discriminate.
Qed.
Print Assumptions C102_chosen_worker_moves_refuted.
