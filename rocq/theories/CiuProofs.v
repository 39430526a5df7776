(** Proofs about ChildrenIsolatorUnionExec. *)
From Verif Require Import Base NetModel CiuModel CiuSpec.

(** ** List update *)

Lemma upd_length {A} (l : list A) i v : List.length (upd l i v) = List.length l.
Proof. revert i; induction l as [|x l IH]; intros [|i]; cbn; auto. Qed.

Lemma upd_nth {A} (l : list A) i j v :
  nth_error (upd l i v) j =
  if i =? j then (match nth_error l i with Some _ => Some v | None => None end) else nth_error l j.
Proof.
  revert i j. induction l as [|x l IH]; intros i j; cbn.
  - destruct i, j; cbn; try reflexivity. destruct (i =? j); reflexivity.
  - destruct i as [|i], j as [|j]; cbn; try reflexivity. apply IH.
Qed.

Lemma upd_split {A} (l : list A) i v x : nth_error l i = Some x ->
  exists l1 l2, l = l1 ++ x :: l2 /\ List.length l1 = i /\ upd l i v = l1 ++ v :: l2.
Proof.
  revert i. induction l as [|y l IH]; intros [|i]; cbn; intros H; try discriminate.
  - injection H as ->. exists [], l. auto.
  - destruct (IH i H) as (l1 & l2 & -> & Hl & Hu). exists (y :: l1), l2. cbn. rewrite Hl, Hu. auto.
Qed.

Lemma upd_sum l i k : nth_error l i = Some k -> list_sum (upd l i (k + 1)) = list_sum l + 1.
Proof.
  intros H. destruct (upd_split l i (k + 1) k H) as (l1 & l2 & -> & _ & ->).
  rewrite !list_sum_app. cbn. lia.
Qed.

(** ** Sorting *)

Lemma insert_by_perm le x l : Permutation (insert_by le x l) (x :: l).
Proof.
  induction l as [|y l IH]; cbn; [reflexivity|]. destruct (le x y); [reflexivity|].
  rewrite IH. apply perm_swap.
Qed.

Lemma sort_by_perm le l : Permutation (sort_by le l) l.
Proof.
  induction l as [|x l IH]; cbn; [reflexivity|]. rewrite insert_by_perm. now apply perm_skip.
Qed.

(** ** The remainder passes *)

Definition caps_ok (children : list ChildWeight) (counts : list nat) : Prop :=
  forall i c k, nth_error children i = Some c -> nth_error counts i = Some k ->
    forall m, cw_max c = Some m -> k <= m.

Lemma pass_spec children order : forall counts lft progress,
  List.length counts = List.length children ->
  (forall i, In i order -> i < List.length children) ->
  caps_ok children counts ->
  exists counts' lft' progress',
    pass children order counts lft progress = Ok (counts', lft', progress') /\
    List.length counts' = List.length children /\ caps_ok children counts' /\
    list_sum counts' + lft' = list_sum counts + lft /\ lft' <= lft /\
    (progress' = false -> progress = false /\ counts' = counts /\ lft' = lft /\
       (lft = 0 \/ forall i c k, In i order -> nth_error children i = Some c ->
                     nth_error counts i = Some k -> at_cap c k = true)) /\
    (progress = false -> progress' = true -> lft' < lft).
Proof.
  induction order as [|idx rest IH]; intros counts lft progress Hlen Hin Hcap; cbn [pass].
  - exists counts, lft, progress. repeat split; auto; congruence.
  - destruct (Nat.eqb_spec lft 0) as [->|Hne].
    { exists counts, 0, progress. repeat split; auto; congruence. }
    assert (Hidx : idx < List.length children) by (apply Hin; now left).
    destruct (nth_error children idx) as [c|] eqn:Ec.
    2: { apply nth_error_None in Ec. lia. }
    destruct (nth_error counts idx) as [k|] eqn:Ek.
    2: { apply nth_error_None in Ek. lia. }
    destruct (at_cap c k) eqn:Ecap.
    + destruct (IH counts lft progress Hlen) as (c' & l' & p' & E & H1 & H2 & H3 & H4 & H5 & H6).
      { intros; apply Hin; now right. } { assumption. }
      exists c', l', p'. do 5 (split; [assumption|]). split; [|assumption].
      intros Hp. destruct (H5 Hp) as (-> & -> & -> & [?|Hall]); repeat (split; [reflexivity|]); auto.
      right. intros i c0 k0 [<-|Hi] Hc0 Hk0; [|eauto].
      rewrite Ec in Hc0. rewrite Ek in Hk0. congruence.
    + destruct (IH (upd counts idx (k + 1)) (lft - 1) true) as (c' & l' & p' & E & H1 & H2 & H3 & H4 & H5 & H6).
      { now rewrite upd_length. } { intros; apply Hin; now right. }
      { intros i c0 k0 Hc0 Hk0 m Hm. rewrite upd_nth in Hk0.
        destruct (Nat.eqb_spec idx i) as [<-|Hni].
        - rewrite Ek in Hk0. injection Hk0 as <-. rewrite Ec in Hc0. injection Hc0 as <-.
          unfold at_cap in Ecap. rewrite Hm in Ecap. apply Nat.leb_gt in Ecap. lia.
        - eauto. }
      exists c', l', p'. split; [exact E|]. split; [assumption|]. split; [assumption|].
      rewrite (upd_sum _ _ _ Ek) in H3. split; [lia|]. split; [lia|]. split.
      * intros Hp. destruct (H5 Hp) as [? _]. discriminate.
      * intros _ _. lia.
Qed.

Lemma hand_out_spec children order fuel : forall counts lft,
  lft <= fuel ->
  List.length counts = List.length children ->
  (forall i, In i order <-> i < List.length children) ->
  caps_ok children counts ->
  exists counts',
    hand_out fuel children order counts lft = Ok counts' /\
    List.length counts' = List.length children /\ caps_ok children counts' /\
    list_sum counts' <= list_sum counts + lft /\
    (list_sum counts' = list_sum counts + lft \/
     forall i c k, nth_error children i = Some c -> nth_error counts' i = Some k -> at_cap c k = true).
Proof.
  induction fuel as [|fuel IH]; intros counts lft Hf Hlen Hin Hcap; cbn [hand_out].
  - destruct (Nat.eqb_spec lft 0); [|lia]. exists counts. repeat split; auto; lia.
  - destruct (Nat.eqb_spec lft 0) as [->|Hne].
    { exists counts. repeat split; auto; lia. }
    destruct (pass_spec children order counts lft false Hlen) as
      (c' & l' & p' & E & H1 & H2 & H3 & H4 & H5 & H6); [intros; now apply Hin|assumption|].
    rewrite E. cbn [bind]. destruct p'.
    + destruct (IH c' l') as (c'' & E' & G1 & G2 & G3 & G4); auto.
      { specialize (H6 eq_refl eq_refl). lia. }
      exists c''. repeat split; auto; [lia|]. destruct G4; [left; lia|now right].
    + destruct (H5 eq_refl) as (_ & -> & -> & [?|Hall]); [lia|].
      exists counts. repeat split; auto; [lia|]. right. intros i c k Hc Hk. eapply Hall; eauto.
      apply Hin. apply nth_error_Some. congruence.
Qed.

Lemma init_counts_length children sh : List.length sh = List.length children ->
  List.length (init_counts children sh) = List.length children.
Proof. intros H. unfold init_counts. rewrite map_length, combine_length. lia. Qed.

Lemma shares_length children budget : List.length (shares children budget) = List.length children.
Proof.
  unfold shares. destruct (f64_lt _ _); [apply map_length|apply repeat_length].
Qed.

Lemma init_counts_caps children : forall sh, caps_ok children (init_counts children sh).
Proof.
  unfold init_counts, caps_ok. induction children as [|c cs IH]; intros sh i c0 k Hc Hk m Hm.
  - destruct i; discriminate.
  - destruct sh as [|s sh]; [destruct i; discriminate|]. cbn in Hk. destruct i as [|i]; cbn in *.
    + injection Hc as <-. injection Hk as <-. unfold capped_floor. rewrite Hm. lia.
    + eapply IH; eauto.
Qed.

Lemma final_counts_spec children budget :
  forallb valid_weight children = true -> children <> [] -> 0 < budget ->
  floors_fit children budget ->
  exists counts,
    final_counts children budget (shares children budget)
      (init_counts children (shares children budget)) = Ok counts /\
    List.length counts = List.length children /\ caps_ok children counts /\
    0 < list_sum counts <= budget /\
    (list_sum counts = budget \/
     forall i c k, nth_error children i = Some c -> nth_error counts i = Some k -> cw_max c = Some k).
Proof.
  intros Hv Hne Hb Hfit. unfold floors_fit in Hfit. unfold final_counts.
  set (c0 := init_counts children (shares children budget)) in *.
  assert (Hl : List.length c0 = List.length children)
    by (apply init_counts_length, shares_length).
  assert (Hc : caps_ok children c0) by apply init_counts_caps.
  destruct (Nat.ltb_spec 0 (budget - list_sum c0)) as [Hlt|Hge].
  2: { exists c0. split; [reflexivity|]. split; [assumption|]. split; [assumption|].
       split; [lia|]. left. lia. }
  destruct (hand_out_spec children
      (sort_by (order_le (shares children budget)) (seq 0 (List.length children)))
      budget c0 (budget - list_sum c0)) as (c' & E & H1 & H2 & H3 & H4); auto; [lia| |].
  { intros i. split; intros Hi.
    - eapply Permutation_in in Hi; [|apply sort_by_perm]. apply in_seq in Hi. lia.
    - eapply Permutation_in; [symmetry; apply sort_by_perm|]. apply in_seq. lia. }
  exists c'. split; [exact E|]. split; [assumption|]. split; [assumption|].
  destruct H4 as [H4|H4]; [split; [lia|left; lia]|].
  assert (Hcap : forall i c k, nth_error children i = Some c -> nth_error c' i = Some k -> cw_max c = Some k).
  { intros i c k Ec Ek. pose proof (H4 i c k Ec Ek) as Hcap. unfold at_cap in Hcap.
    destruct (cw_max c) as [m|] eqn:Em; [|discriminate]. apply Nat.leb_le in Hcap.
    pose proof (H2 i c k Ec Ek m Em). f_equal. lia. }
  split; [|right; assumption]. split; [|lia].
  destruct children as [|c cs]; [contradiction|]. destruct c' as [|k ks]; [cbn in H1; lia|].
  specialize (Hcap 0 c k eq_refl eq_refl). cbn in Hv. apply andb_prop in Hv. destruct Hv as [Hv _].
  unfold valid_weight in Hv. rewrite Hcap in Hv. destruct k; [discriminate|]. cbn. lia.
Qed.

(** ** Layout *)

Fixpoint entries (child : nat) (counts : list nat) : slot :=
  match counts with
  | [] => []
  | k :: rest => map (fun t => (child, mkCtx t k)) (seq 0 k) ++ entries (child + 1) rest
  end.

Definition singles (E : slot) : list slot := map (fun e => [e]) E.

Lemma push_at_single E r e :
  0 < r ->
  push_at (singles E ++ repeat [] r) (List.length E) e = Ok (singles (E ++ [e]) ++ repeat [] (r - 1)).
Proof.
  intros Hr. destruct r as [|r]; [lia|]. cbn [repeat]. replace (S r - 1) with r by lia.
  assert (Hl : List.length (singles E) = List.length E) by apply map_length.
  assert (Hs : singles (E ++ [e]) = singles E ++ [[e]]) by apply map_app.
  rewrite Hs, <- Hl, <- app_assoc. cbn [app]. generalize (singles E). clear.
  intros l. unfold push_at.
  assert (Hn : nth_error (l ++ [] :: repeat [] r) (List.length l) = Some ([] : slot)).
  { rewrite nth_error_app2, Nat.sub_diag; [reflexivity|apply le_n]. }
  rewrite Hn. cbn [app]. f_equal. clear Hn.
  induction l as [|x l IH]; cbn; [reflexivity|]. now rewrite IH.
Qed.

Lemma lay_child_spec child k tis : forall E r,
  List.length tis <= r ->
  lay_child child k tis (singles E ++ repeat [] r) (List.length E) =
  Ok (singles (E ++ map (fun t => (child, mkCtx t k)) tis) ++ repeat [] (r - List.length tis),
      List.length E + List.length tis).
Proof.
  induction tis as [|t tis IH]; intros E r Hr; cbn [lay_child map List.length] in *.
  - now rewrite app_nil_r, Nat.sub_0_r, Nat.add_0_r.
  - rewrite push_at_single by lia. cbn [bind].
    replace (List.length E + 1) with (List.length (E ++ [(child, mkCtx t k)])) by (rewrite app_length; cbn; lia).
    rewrite IH by lia. rewrite <- app_assoc. cbn [app]. rewrite app_length. cbn [List.length].
    f_equal. f_equal; [f_equal; f_equal; lia|lia].
Qed.

Lemma lay_out_spec counts : forall child E r,
  list_sum counts <= r ->
  lay_out child counts (singles E ++ repeat [] r) (List.length E) =
  Ok (singles (E ++ entries child counts) ++ repeat [] (r - list_sum counts),
      List.length E + list_sum counts).
Proof.
  induction counts as [|k counts IH]; intros child E r Hr; cbn [lay_out entries] in *.
  - change (list_sum []) with 0. now rewrite app_nil_r, Nat.sub_0_r, Nat.add_0_r.
  - change (list_sum (k :: counts)) with (k + list_sum counts) in *.
    rewrite lay_child_spec by (rewrite seq_length; lia). cbn [bind]. rewrite seq_length.
    replace (List.length E + k) with
      (List.length (E ++ map (fun t => (child, mkCtx t k)) (seq 0 k)))
      by (rewrite app_length, map_length, seq_length; lia).
    rewrite IH by lia. rewrite <- app_assoc. rewrite app_length, map_length, seq_length.
    f_equal. f_equal; [f_equal; f_equal; lia|lia].
Qed.

Lemma concat_singles E r : List.concat (singles E ++ repeat [] r) = E.
Proof.
  unfold singles. rewrite concat_app. induction E as [|e E IH]; cbn.
  - induction r; cbn; auto.
  - f_equal. exact IH.
Qed.

(** Which child an entry belongs to. *)
Lemma entries_child counts : forall child e, In e (entries child counts) ->
  child <= fst e < child + List.length counts /\
  exists k, nth_error counts (fst e - child) = Some k /\ 0 < k.
Proof.
  induction counts as [|k counts IH]; intros child e He; cbn in He; [contradiction|].
  apply in_app_iff in He. destruct He as [He|He].
  - apply in_map_iff in He. destruct He as [t [<- Ht]]. apply in_seq in Ht. cbn [fst List.length].
    split; [lia|]. rewrite Nat.sub_diag. exists k. cbn. split; [reflexivity|lia].
  - destruct (IH _ _ He) as [Hr [k' [Hk' Hp]]]. cbn [List.length]. split; [lia|]. exists k'.
    split; [|assumption]. replace (fst e - child) with (S (fst e - (child + 1))) by lia. exact Hk'.
Qed.

Lemma filter_none {A} (f : A -> bool) l : (forall x, In x l -> f x = false) -> filter f l = [].
Proof.
  induction l as [|x l IH]; cbn; intros H; [reflexivity|].
  rewrite (H x) by now left. apply IH. intros; apply H; now right.
Qed.

Lemma filter_all {A} (f : A -> bool) l : (forall x, In x l -> f x = true) -> filter f l = l.
Proof.
  induction l as [|x l IH]; cbn; intros H; [reflexivity|].
  rewrite (H x) by now left. f_equal. apply IH. intros; apply H; now right.
Qed.

Lemma entries_runs counts : forall child i k,
  nth_error counts i = Some k ->
  map snd (filter (fun e => fst e =? child + i) (entries child counts)) = all_tasks k.
Proof.
  induction counts as [|k0 counts IH]; intros child i k Hk; [destruct i; discriminate|].
  cbn [entries]. rewrite filter_app, map_app. destruct i as [|i].
  - injection Hk as ->. rewrite filter_all.
    2: { intros e He. apply in_map_iff in He. destruct He as [t [<- _]]. cbn. apply Nat.eqb_eq. lia. }
    rewrite (filter_none _ (entries (child + 1) counts)).
    2: { intros e He. apply entries_child in He. apply Nat.eqb_neq. lia. }
    cbn [map]. rewrite app_nil_r, map_map. reflexivity.
  - rewrite filter_none.
    2: { intros e He. apply in_map_iff in He. destruct He as [t [<- _]]. cbn. apply Nat.eqb_neq. lia. }
    cbn [map app]. replace (child + S i) with (child + 1 + i) by lia. apply IH. exact Hk.
Qed.

Lemma push_at_inv r i e r' : push_at r i e = Ok r' ->
  exists l1 s l2, r = l1 ++ s :: l2 /\ List.length l1 = i /\ r' = l1 ++ (s ++ [e]) :: l2.
Proof.
  unfold push_at. destruct (nth_error r i) as [s|] eqn:E; [|discriminate].
  intros H. injection H as <-. destruct (upd_split r i (s ++ [e]) s E) as (l1 & l2 & -> & Hl & Hu).
  exists l1, s, l2. rewrite Hu. auto.
Qed.

Lemma push_at_ok r i e : i < List.length r -> exists r', push_at r i e = Ok r'.
Proof.
  intros H. unfold push_at. destruct (nth_error r i) eqn:E; [eauto|].
  apply nth_error_None in E. lia.
Qed.

Lemma lay_zero_spec counts : forall child occupied zero_i result,
  0 < occupied <= List.length result ->
  (forall s, In s result -> NoDup (map fst s)) ->
  (forall s e, In s result -> In e s ->
     fst e < child \/ exists k, nth_error counts (fst e - child) = Some k /\ 0 < k) ->
  exists result',
    lay_zero child counts occupied zero_i result = Ok result' /\
    List.length result' = List.length result /\
    (forall s, In s result' -> NoDup (map fst s)) /\
    (forall s e, In s result' -> In e s ->
       (exists s0, In s0 result /\ In e s0) \/ child <= fst e < child + List.length counts) /\
    (forall i, (i < child \/ nth_error counts (i - child) <> Some 0) -> runs_of i result' = runs_of i result) /\
    (forall i, child <= i -> nth_error counts (i - child) = Some 0 -> runs_of i result' = [mkCtx 0 1]) /\
    (In [] result' -> In [] result).
Proof.
  induction counts as [|k counts IH]; intros child occupied zero_i result Hocc Hnd Hin; cbn [lay_zero].
  - exists result. repeat split; auto.
    + intros s e Hs He. left. eauto.
    + intros i _ Hi. destruct (i - child); discriminate.
  - destruct (Nat.eqb_spec k 0) as [->|Hk]; cbn [negb].
    + destruct (push_at_ok result (zero_i mod occupied) (child, mkCtx 0 1)) as [r1 Hr1].
      { assert (zero_i mod occupied < occupied) by (apply Nat.mod_upper_bound; lia).
        eapply Nat.lt_le_trans; [eassumption|apply Hocc]. }
      rewrite Hr1. cbn [bind]. apply push_at_inv in Hr1. destruct Hr1 as (l1 & s & l2 & -> & Hl & ->).
      assert (Hold : forall s0 e, In s0 (l1 ++ (s ++ [(child, mkCtx 0 1)]) :: l2) -> In e s0 ->
                 e = (child, mkCtx 0 1) \/ exists s1, In s1 (l1 ++ s :: l2) /\ In e s1).
      { intros s0 e Hs0 He. rewrite in_app_iff in Hs0. cbn in Hs0.
        destruct Hs0 as [Hs0|[<-|Hs0]].
        - right. exists s0. rewrite in_app_iff. auto.
        - apply in_app_iff in He. destruct He as [He|[<-|[]]]; [|now left].
          right. exists s. rewrite in_app_iff. cbn. auto.
        - right. exists s0. rewrite in_app_iff. cbn. auto. }
      assert (Hfresh : forall s1 e, In s1 (l1 ++ s :: l2) -> In e s1 -> fst e <> child).
      { intros s1 e Hs1 He Hc. destruct (Hin s1 e Hs1 He) as [?|[k [Hk Hp]]]; [lia|].
        rewrite Hc, Nat.sub_diag in Hk. cbn in Hk. injection Hk as <-. lia. }
      destruct (IH (child + 1) occupied (zero_i + 1) (l1 ++ (s ++ [(child, mkCtx 0 1)]) :: l2))
        as (r' & E & H1 & H2 & H3 & H4 & H5 & H6).
      { clear - Hocc. rewrite app_length in Hocc |- *. cbn [List.length] in *. exact Hocc. }
      { intros s0 Hs0. rewrite in_app_iff in Hs0. cbn in Hs0.
        destruct Hs0 as [Hs0|[<-|Hs0]]; try solve [apply Hnd; rewrite in_app_iff; cbn; auto].
        rewrite map_app. cbn [map fst].
        assert (Hs : NoDup (map fst s)) by (apply Hnd; rewrite in_app_iff; cbn; auto).
        rewrite <- rev_involutive. apply NoDup_rev. rewrite rev_app_distr. cbn.
        constructor; [|now apply NoDup_rev]. rewrite <- in_rev, in_map_iff.
        intros [e [He Hes]]. apply (Hfresh s e); auto. rewrite in_app_iff. cbn. auto. }
      { intros s0 e Hs0 He. destruct (Hold s0 e Hs0 He) as [->|[s1 [Hs1 He1]]]; [left; cbn; lia|].
        destruct (Hin s1 e Hs1 He1) as [?|[k [Hk Hp]]]; [left; lia|].
        pose proof (Hfresh s1 e Hs1 He1).
        destruct (Nat.lt_ge_cases (fst e) (child + 1)) as [|Hge]; [now left|]. right. exists k.
        split; [|assumption]. replace (fst e - child) with (S (fst e - (child + 1))) in Hk by lia.
        exact Hk. }
      assert (Hruns : forall i, i <> child ->
                runs_of i (l1 ++ (s ++ [(child, mkCtx 0 1)]) :: l2) = runs_of i (l1 ++ s :: l2)).
      { intros i Hi. unfold runs_of. rewrite !concat_app. cbn [List.concat]. rewrite !filter_app.
        cbn [filter fst]. destruct (Nat.eqb_spec child i); [lia|]. now rewrite app_nil_r. }
      exists r'. split; [exact E|]. split; [rewrite H1, !app_length; reflexivity|].
      split; [assumption|]. split; [|split; [|split]].
      * intros s0 e Hs0 He. cbn [List.length].
        destruct (H3 s0 e Hs0 He) as [[s1 [Hs1 He1]]|?]; [|right; lia].
        destruct (Hold s1 e Hs1 He1) as [->|?]; [right; cbn; lia|now left].
      * intros i Hi. destruct (Nat.eq_dec i child) as [->|Hne].
        { exfalso. destruct Hi as [?|Hi]; [lia|]. apply Hi. now rewrite Nat.sub_diag. }
        rewrite H4; [apply Hruns; assumption|].
        destruct (Nat.lt_ge_cases i (child + 1)); [now left|]. right.
        destruct Hi as [?|Hi]; [lia|]. replace (i - child) with (S (i - (child + 1))) in Hi by lia.
        exact Hi.
      * intros i Hge Hi. destruct (Nat.eq_dec i child) as [->|Hne].
        { rewrite H4 by (left; lia). unfold runs_of. rewrite !concat_app. cbn [List.concat].
          rewrite !filter_app. cbn [filter fst]. rewrite Nat.eqb_refl.
          assert (Hno : forall l, (forall s1, In s1 l -> In s1 (l1 ++ s :: l2)) ->
                    filter (fun e : nat * TaskCtx => fst e =? child) (List.concat l) = []).
          { intros l Hl'. apply filter_none. intros e He. apply in_concat in He.
            destruct He as [s1 [Hs1 He]]. apply Nat.eqb_neq. apply (Hfresh s1 e); auto. }
          rewrite (Hno l1), (Hno l2). 2,3: intros; rewrite in_app_iff; cbn; auto.
          pose proof (Hno [s]) as Hs. cbn [List.concat] in Hs. rewrite app_nil_r in Hs. rewrite Hs; [reflexivity|].
          intros s1 [<-|[]]. rewrite in_app_iff. cbn. auto. }
        apply H5; [lia|]. replace (i - child) with (S (i - (child + 1))) in Hi by lia. exact Hi.
      * intros Hi. apply H6 in Hi. rewrite in_app_iff in *. cbn in *.
        destruct Hi as [?|[Hc|?]]; auto. destruct s; discriminate.
    + destruct (IH (child + 1) occupied zero_i result) as (r' & E & H1 & H2 & H3 & H4 & H5 & H6); auto.
      { intros s e Hs He. destruct (Hin s e Hs He) as [?|[k0 [Hk0 Hp]]]; [left; lia|].
        destruct (Nat.lt_ge_cases (fst e) (child + 1)) as [|Hge]; [now left|]. right. exists k0.
        split; [|assumption]. replace (fst e - child) with (S (fst e - (child + 1))) in Hk0 by lia.
        exact Hk0. }
      exists r'. split; [exact E|]. split; [assumption|]. split; [assumption|].
      split; [|split; [|split]].
      * intros s0 e Hs0 He. cbn [List.length]. destruct (H3 s0 e Hs0 He); [now left|right; lia].
      * intros i Hi. apply H4. destruct (Nat.lt_ge_cases i (child + 1)); [now left|]. right.
        destruct Hi as [?|Hi]; [lia|]. replace (i - child) with (S (i - (child + 1))) in Hi by lia.
        exact Hi.
      * intros i Hge Hi. destruct (Nat.eq_dec i child) as [->|Hne].
        { rewrite Nat.sub_diag in Hi. cbn in Hi. injection Hi as ->. lia. }
        apply H5; [lia|]. replace (i - child) with (S (i - (child + 1))) in Hi by lia. exact Hi.
      * assumption.
Qed.

Lemma list_sum_cons k l : list_sum (k :: l) = k + list_sum l.
Proof. reflexivity. Qed.

Lemma list_sum_le_nth counts i k : nth_error counts i = Some k -> k <= list_sum counts.
Proof.
  revert i. induction counts as [|c counts IH]; intros [|i] H; try discriminate; cbn in H;
    rewrite list_sum_cons.
  - injection H as ->. lia.
  - apply IH in H. lia.
Qed.

Lemma layout_spec counts budget :
  0 < list_sum counts <= budget ->
  exists result,
    layout counts budget = Ok result /\
    List.length result = budget /\
    (forall s, In s result -> NoDup (map fst s)) /\
    (forall s e, In s result -> In e s -> fst e < List.length counts) /\
    (forall i k, nth_error counts i = Some k ->
       runs_of i result = all_tasks (Nat.max k 1)) /\
    (In [] result -> list_sum counts < budget).
Proof.
  intros Hs. unfold layout.
  pose proof (lay_out_spec counts 0 [] budget ltac:(lia)) as Hlo.
  cbn [singles map app List.length] in Hlo. rewrite Hlo. cbn [bind plus].
  destruct (Nat.ltb_spec 0 (list_sum counts)); [|lia].
  set (r0 := singles (entries 0 counts) ++ repeat [] (budget - list_sum counts)).
  assert (Hle : List.length (entries 0 counts) = list_sum counts).
  { clear. generalize 0. induction counts as [|k counts IH]; intros c; cbn; [reflexivity|].
    rewrite app_length, map_length, seq_length, IH. reflexivity. }
  assert (Hlen : List.length r0 = budget).
  { unfold r0, singles. rewrite app_length, map_length, repeat_length. lia. }
  assert (Hin0 : forall s e, In s r0 -> In e s -> In e (entries 0 counts)).
  { intros s e Hs0 He. rewrite <- (concat_singles (entries 0 counts) (budget - list_sum counts)).
    apply in_concat. eauto. }
  destruct (lay_zero_spec counts 0 (list_sum counts) 0 r0) as (r' & E & H1 & H2 & H3 & H4 & H5 & H6).
  { lia. }
  { intros s Hs0. unfold r0 in Hs0. apply in_app_iff in Hs0. destruct Hs0 as [Hs0|Hs0].
    - unfold singles in Hs0. apply in_map_iff in Hs0. destruct Hs0 as [e [<- _]]. cbn.
      constructor; [auto|constructor].
    - apply repeat_spec in Hs0. subst s. constructor. }
  { intros s e Hs0 He. right. apply entries_child with (child := 0). eauto. }
  exists r'. split; [exact E|]. split; [lia|]. split; [assumption|]. split; [|split].
  - intros s e Hs0 He. destruct (H3 s e Hs0 He) as [[s0 [Hs1 He1]]|?]; [|lia].
    pose proof (entries_child counts 0 e (Hin0 s0 e Hs1 He1)). lia.
  - intros i k Hk. destruct k as [|k].
    + rewrite H5; [reflexivity|lia|]. rewrite Nat.sub_0_r. exact Hk.
    + rewrite H4.
      * unfold runs_of, r0. rewrite concat_singles.
        rewrite Nat.max_l by lia. exact (entries_runs counts 0 i (S k) Hk).
      * right. rewrite Nat.sub_0_r, Hk. discriminate.
  - intros Hi. apply H6 in Hi. unfold r0 in Hi. apply in_app_iff in Hi. destruct Hi as [Hi|Hi].
    + unfold singles in Hi. apply in_map_iff in Hi. destruct Hi as [e [He _]]. discriminate.
    + destruct (budget - list_sum counts) eqn:Eb; [contradiction|]. lia.
Qed.

Lemma all_tasks_length n : List.length (all_tasks n) = n.
Proof. unfold all_tasks. now rewrite map_length, seq_length. Qed.

Lemma split_children_good children budget :
  0 < budget -> children <> [] -> forallb valid_weight children = true ->
  floors_fit children budget ->
  exists result, split_children children budget = Ok result /\ good_allocation children budget result.
Proof.
  intros Hb Hne Hv Hfit. unfold split_children.
  destruct (Nat.eqb_spec budget 0); [lia|].
  destruct (Nat.eqb_spec (List.length children) 0) as [H0|_].
  { destruct children; [contradiction|discriminate]. }
  rewrite Hv. cbn [negb].
  destruct (final_counts_spec children budget Hv Hne Hb Hfit) as (counts & E & Hl & Hc & Hs & Hfull).
  rewrite E. cbn [bind].
  destruct (layout_spec counts budget Hs) as (r & Er & H1 & H2 & H3 & H4 & H5).
  exists r. split; [exact Er|]. constructor.
  - assumption.
  - assumption.
  - intros s e Hs0 He. rewrite <- Hl. eauto.
  - intros i c Hi.
    destruct (nth_error counts i) as [k|] eqn:Ek.
    2: { apply nth_error_None in Ek. assert (i < List.length children) by (apply nth_error_Some; congruence). lia. }
    exists (Nat.max k 1). pose proof (list_sum_le_nth _ _ _ Ek). split; [lia|]. split; [|auto].
    intros m Hm. pose proof (Hc i c k Hi Ek m Hm).
    assert (m <> 0); [|lia]. intros ->.
    apply forallb_forall with (x := c) in Hv; [|eapply nth_error_In; eauto].
    unfold valid_weight in Hv. rewrite Hm in Hv. discriminate.
  - intros Hidle i c Hi.
    destruct (nth_error counts i) as [k|] eqn:Ek.
    2: { apply nth_error_None in Ek. assert (i < List.length children) by (apply nth_error_Some; congruence). lia. }
    rewrite (H4 i k Ek), all_tasks_length. specialize (H5 Hidle).
    destruct Hfull as [?|Hfull]; [lia|]. rewrite (Hfull i c k Hi Ek). f_equal.
    assert (k <> 0); [|lia]. intros ->.
    apply forallb_forall with (x := c) in Hv; [|eapply nth_error_In; eauto].
    unfold valid_weight in Hv. rewrite (Hfull i c 0 Hi Ek) in Hv. discriminate.
Qed.

(** ** Execution *)

Section Exec.
Context {row : Type}.
Implicit Types children : list (child row).

Definition parts_of children (i : nat) : nat :=
  match nth_error children i with Some c => ch_parts c | None => 0 end.

Definition slot_reads children (s : slot) : list (nat * TaskCtx * nat) :=
  flat_map (fun '(i, ctx) => map (fun p => (i, ctx, p)) (seq 0 (parts_of children i))) s.

Definition known children (s : slot) : Prop := forall e, In e s -> fst e < List.length children.

Lemma known_cons children e s : known children (e :: s) -> fst e < List.length children /\ known children s.
Proof. intros H. split; [apply H; now left|]. intros x Hx. apply H. now right. Qed.

Lemma pick_spec children s : known children s -> forall p,
  pick children s p = Ok (nth_error (slot_reads children s) p).
Proof.
  induction s as [|[i ctx] s IH]; intros Hk p; cbn [pick].
  - unfold slot_reads. cbn [flat_map]. destruct p; reflexivity.
  - apply known_cons in Hk. cbn [fst] in Hk. destruct Hk as [Hi Hk].
    unfold slot_reads. cbn [flat_map]. fold (slot_reads children s). unfold parts_of at 1.
    destruct (nth_error children i) as [c|] eqn:Ec; [|apply nth_error_None in Ec; lia].
    destruct (Nat.ltb_spec p (ch_parts c)).
    + rewrite nth_error_app1 by (rewrite map_length, seq_length; assumption).
      rewrite nth_error_map, nth_error_seq by assumption. reflexivity.
    + rewrite nth_error_app2 by (rewrite map_length, seq_length; assumption).
      rewrite map_length, seq_length. apply IH. assumption.
Qed.

Lemma slot_partitions_spec children s : known children s ->
  slot_partitions children s = Ok (List.length (slot_reads children s)).
Proof.
  intros Hk. unfold slot_partitions.
  rewrite (mapM_ok_intro _ (fun '(i, _) => parts_of children i)).
  - cbn [bind]. f_equal. clear Hk. unfold slot_reads.
    induction s as [|[i ctx] s IH]; [reflexivity|]. cbn [map flat_map].
    rewrite list_sum_cons, app_length, map_length, seq_length. lia.
  - intros [i ctx] Hi. apply Hk in Hi. cbn in Hi. unfold parts_of.
    destruct (nth_error children i) eqn:E; [reflexivity|]. apply nth_error_None in E. lia.
Qed.

(** Options as lists. *)
Definition olist {A} (o : option A) : list A := match o with Some a => [a] | None => [] end.

Lemma flat_map_nth_error {A} (l : list A) n : List.length l <= n ->
  flat_map (fun p => olist (nth_error l p)) (seq 0 n) = l.
Proof.
  revert n. induction l as [|x l IH]; intros n Hn.
  - rewrite (flat_map_ext_in _ (fun _ => [])); [apply flat_map_nil|].
    intros p _. destruct p; reflexivity.
  - destruct n as [|n]; [cbn in Hn; lia|]. cbn [seq flat_map nth_error olist app]. f_equal.
    rewrite <- seq_shift, flat_map_map. apply IH. cbn in Hn. lia.
Qed.

Lemma list_max_in l n : In n l -> n <= list_max l.
Proof.
  induction l as [|x l IH]; cbn; [contradiction|]. intros [->|H]; [lia|]. apply IH in H.
  unfold list_max in *. lia.
Qed.

Lemma flat_map_seq_nth {A B} (l : list A) (f : A -> list B) :
  flat_map (fun t => match nth_error l t with Some a => f a | None => [] end) (seq 0 (List.length l))
  = flat_map f l.
Proof.
  induction l as [|x l IH]; [reflexivity|]. cbn [List.length seq flat_map nth_error]. f_equal.
  rewrite <- seq_shift, flat_map_map. exact IH.
Qed.

Lemma ciu_new_inv children weights budget u :
  ciu_new children weights budget = Ok u ->
  List.length children = List.length weights /\
  exists m counts, split_children weights budget = Ok m /\
    mapM (slot_partitions children) m = Ok counts /\
    u = mkCiu (list_max counts) children weights m.
Proof.
  unfold ciu_new. destruct (Nat.eqb_spec (List.length children) (List.length weights)) as [Hl|]; cbn [negb]; [|discriminate].
  destruct (split_children weights budget) as [m| |] eqn:Es; cbn [bind]; try discriminate.
  destruct (mapM (slot_partitions children) m) as [counts| |] eqn:Em; cbn [bind]; try discriminate.
  intros H. split; [assumption|]. exists m, counts. repeat split; auto.
  destruct counts; [discriminate|]. injection H as <-. reflexivity.
Qed.

Lemma ciu_new_ok children weights budget m :
  List.length children = List.length weights -> 0 < budget ->
  split_children weights budget = Ok m -> good_allocation weights budget m ->
  exists u, ciu_new children weights budget = Ok u.
Proof.
  intros Hl Hb Es Hg. unfold ciu_new. rewrite Hl, Nat.eqb_refl. cbn [negb]. rewrite Es. cbn [bind].
  rewrite (mapM_ok_intro _ (fun s => List.length (slot_reads children s))).
  - cbn [bind]. destruct m as [|s m]; [pose proof (ga_slots _ _ _ Hg) as H; cbn in H; lia|].
    cbn [map]. eauto.
  - intros s Hs. apply slot_partitions_spec. intros e He. rewrite Hl. eapply ga_known; eauto.
Qed.

Section Built.
Variables (children : list (child row)) (weights : list ChildWeight) (budget : nat) (u : ciu row).
Hypothesis Hnew : ciu_new children weights budget = Ok u.
Hypothesis Hgood : forall m, split_children weights budget = Ok m -> good_allocation weights budget m.

Lemma built_known s : In s (task_idx_map u) -> known children s.
Proof using Hnew Hgood.
  destruct (ciu_new_inv _ _ _ _ Hnew) as (Hl & m & counts & Es & _ & ->). cbn [task_idx_map].
  intros Hs e He. rewrite Hl. eapply ga_known; eauto.
Qed.

Lemma built_parts s : In s (task_idx_map u) -> List.length (slot_reads children s) <= ciu_parts u.
Proof using Hnew Hgood.
  intros Hs. pose proof (built_known s Hs) as Hk. revert Hs.
  destruct (ciu_new_inv _ _ _ _ Hnew) as (Hl & m & counts & Es & Em & Hu). rewrite Hu.
  cbn [task_idx_map ciu_parts]. intros Hs. apply list_max_in.
  apply In_nth_error in Hs. destruct Hs as [i Hi].
  destruct (mapM_nth_error _ _ _ _ _ Em Hi) as (n & Hn & Hsp).
  rewrite slot_partitions_spec in Hsp by assumption. injection Hsp as ->. eapply nth_error_In; eauto.
Qed.

Lemma built_delegate t s p : nth_error (task_idx_map u) t = Some s ->
  ciu_delegate u (mkCtx t budget) p = Ok (nth_error (slot_reads children s) p).
Proof using Hnew Hgood.
  intros Hs. unfold ciu_delegate. cbn [task_index]. rewrite Hs.
  pose proof (built_known s (nth_error_In _ _ Hs)) as Hk.
  destruct (ciu_new_inv _ _ _ _ Hnew) as (Hl & m & counts & Es & Em & ->). cbn [ciu_children].
  now apply pick_spec.
Qed.

Lemma built_slots : List.length (task_idx_map u) = budget.
Proof using Hnew Hgood.
  destruct (ciu_new_inv _ _ _ _ Hnew) as (Hl & m & counts & Es & Em & ->).
  exact (ga_slots _ _ _ (Hgood m Es)).
Qed.

Lemma built_runs i c : nth_error children i = Some c ->
  exists n, 1 <= n <= budget /\ run_count (task_idx_map u) i = n /\ runs_of i (task_idx_map u) = all_tasks n.
Proof using Hnew Hgood.
  intros Hc.
  destruct (ciu_new_inv _ _ _ _ Hnew) as (Hl & m & counts & Es & Em & ->). cbn [task_idx_map].
  destruct (nth_error weights i) as [w|] eqn:Ew.
  2: { apply nth_error_None in Ew. assert (i < List.length children) by (apply nth_error_Some; congruence). lia. }
  destruct (ga_exact _ _ _ (Hgood m Es) i w Ew) as (n & Hn & _ & Hr).
  exists n. split; [assumption|]. split; [|assumption]. unfold run_count. now rewrite Hr, all_tasks_length.
Qed.

Lemma slot_reads_all :
  Permutation (flat_map (slot_reads children) (task_idx_map u))
              (all_child_reads children (run_count (task_idx_map u))).
Proof using Hnew Hgood.
  unfold slot_reads. rewrite <- flat_map_flat_map with (f := fun s => s).
  rewrite (flat_map_concat_map (fun s => s)), map_id.
  assert (Hin : forall e, In e (List.concat (task_idx_map u)) -> fst e < List.length children).
  { intros e He. apply in_concat in He. destruct He as (s & Hs & He). now apply (built_known s Hs). }
  rewrite <- (flat_map_perm_l _ _ _ (filter_classes_perm fst (List.length children)
               (List.concat (task_idx_map u)) Hin)).
  rewrite flat_map_flat_map. unfold all_child_reads. apply Permutation_refl'.
  apply flat_map_ext_in. intros i Hi. apply in_seq in Hi.
  destruct (nth_error children i) as [c|] eqn:Ec; [|apply nth_error_None in Ec; lia].
  destruct (built_runs i c Ec) as (n & Hn & Hrc & Hruns). rewrite Hrc, <- Hruns.
  unfold runs_of. rewrite flat_map_map. apply flat_map_ext_in. intros [j ctx] Hj.
  apply filter_In in Hj. cbn [fst snd] in Hj. destruct Hj as [_ Hj]. apply Nat.eqb_eq in Hj. subst j.
  unfold parts_of. now rewrite Ec.
Qed.

Lemma built_reads :
  Permutation
    (flat_map (fun t => flat_map (fun p =>
        match ciu_delegate u (mkCtx t budget) p with Ok o => olist o | _ => [] end)
      (seq 0 (ciu_parts u))) (seq 0 budget))
    (all_child_reads children (run_count (task_idx_map u))).
Proof using Hnew Hgood.
  rewrite <- slot_reads_all. apply Permutation_refl'.
  rewrite <- (flat_map_seq_nth (task_idx_map u)). rewrite built_slots.
  apply flat_map_ext_in. intros t Ht. apply in_seq in Ht.
  destruct (nth_error (task_idx_map u) t) as [s|] eqn:Es.
  2: { apply nth_error_None in Es. rewrite built_slots in Es. lia. }
  rewrite <- (flat_map_nth_error (slot_reads children s) (ciu_parts u))
    by (apply built_parts; eapply nth_error_In; eauto).
  apply flat_map_ext_in. intros p Hp. now rewrite (built_delegate t s p Es).
Qed.

Lemma built_children : ciu_children u = children.
Proof using Hnew. destruct (ciu_new_inv _ _ _ _ Hnew) as (Hl & m & counts & Es & Em & ->). reflexivity. Qed.

Lemma delegate_ok t p : t < budget -> exists o, ciu_delegate u (mkCtx t budget) p = Ok o /\
  (forall i ctx q, o = Some (i, ctx, q) -> exists c, nth_error children i = Some c /\ q < ch_parts c).
Proof using Hnew Hgood.
  intros Ht. destruct (nth_error (task_idx_map u) t) as [s|] eqn:Es.
  2: { apply nth_error_None in Es. rewrite built_slots in Es. lia. }
  rewrite (built_delegate t s p Es). eexists. split; [reflexivity|].
  intros i ctx q Ho. apply nth_error_In in Ho. unfold slot_reads in Ho. apply in_flat_map in Ho.
  destruct Ho as ([j c'] & Hj & Hq). apply in_map_iff in Hq. destruct Hq as (q' & Heq & Hq').
  injection Heq as -> -> ->. apply in_seq in Hq'. unfold parts_of in Hq'.
  destruct (nth_error children i) as [c|]; [|cbn in Hq'; lia]. exists c. split; [reflexivity|lia].
Qed.

(** Rows. *)
Lemma built_rows data :
  (forall i c ctx p, nth_error children i = Some c -> p < ch_parts c -> ch_run c ctx p = Ok (data i ctx p)) ->
  exists out,
    (forall t p, t < budget -> p < ciu_parts u -> ciu_execute u (mkCtx t budget) p = Ok (out t p)) /\
    Permutation (flat_map (fun t => flat_map (out t) (seq 0 (ciu_parts u))) (seq 0 budget))
                (all_child_rows children (run_count (task_idx_map u)) data).
Proof using Hnew Hgood.
  intros Hrun.
  exists (fun t p => match ciu_delegate u (mkCtx t budget) p with
                     | Ok o => flat_map (fun '(i, ctx, q) => data i ctx q) (olist o) | _ => [] end).
  split.
  - intros t p Ht Hp. unfold ciu_execute. destruct (delegate_ok t p Ht) as (o & Eo & Ho).
    rewrite Eo. cbn [bind]. destruct o as [[[i ctx] q]|]; [|reflexivity].
    destruct (Ho i ctx q eq_refl) as (c & Ec & Hq). rewrite built_children, Ec.
    cbn [olist flat_map]. rewrite app_nil_r. now apply Hrun.
  - unfold all_child_rows. rewrite <- (flat_map_perm_l _ _ _ built_reads).
    apply Permutation_refl'. rewrite flat_map_flat_map. apply flat_map_ext_in. intros t Ht.
    rewrite flat_map_flat_map. apply flat_map_ext_in. intros p Hp.
    destruct (ciu_delegate u (mkCtx t budget) p); reflexivity.
Qed.

End Built.

(** ** child_task_counts and with_new_children *)

Definition bump (counts : list nat) (e : nat * TaskCtx) : list nat :=
  match nth_error counts (fst e) with
  | Some k => upd counts (fst e) (Nat.max k (task_count (snd e)))
  | None => counts
  end.

Lemma bump_length counts e : List.length (bump counts e) = List.length counts.
Proof. unfold bump. destruct (nth_error counts (fst e)); [apply upd_length|reflexivity]. Qed.

Lemma bump_nth counts e i k : nth_error counts i = Some k ->
  nth_error (bump counts e) i = Some (if fst e =? i then Nat.max k (task_count (snd e)) else k).
Proof.
  intros Hk. unfold bump. destruct (nth_error counts (fst e)) as [k'|] eqn:E.
  - rewrite upd_nth. destruct (Nat.eqb_spec (fst e) i) as [<-|]; [|assumption].
    rewrite E. rewrite E in Hk. now injection Hk as ->.
  - destruct (Nat.eqb_spec (fst e) i) as [<-|]; [congruence|assumption].
Qed.

Lemma bump_fold es : forall counts i k n, nth_error counts i = Some k ->
  k <= n -> (forall ctx, In ctx (map snd (filter (fun e => fst e =? i) es)) -> task_count ctx = n) ->
  nth_error (fold_left bump es counts) i =
    Some (match map snd (filter (fun e => fst e =? i) es) with [] => k | _ => n end).
Proof.
  induction es as [|e es IH]; intros counts i k n Hk Hle Hall; cbn [fold_left filter map]; [assumption|].
  pose proof (bump_nth counts e i k Hk) as Hb. cbn [filter] in Hall.
  destruct (fst e =? i) eqn:Ee.
  - cbn [map] in *. assert (Hn : task_count (snd e) = n) by (apply Hall; now left).
    rewrite (IH _ i _ n Hb); [|lia|intros; apply Hall; now right].
    destruct (map snd (filter (fun e0 => fst e0 =? i) es)); f_equal; lia.
  - apply (IH _ i k n); auto.
Qed.

Lemma fold_bump_length es : forall counts, List.length (fold_left bump es counts) = List.length counts.
Proof. induction es as [|e es IH]; intros counts; cbn; [reflexivity|]. now rewrite IH, bump_length. Qed.

Lemma child_task_counts_flat (u : ciu row) :
  child_task_counts u =
  fold_left bump (List.concat (task_idx_map u)) (repeat 0 (List.length (ciu_children u))).
Proof.
  unfold child_task_counts, map_task_counts. generalize (repeat 0 (List.length (ciu_children u))).
  induction (task_idx_map u) as [|s m IH]; intros counts; cbn [fold_left List.concat]; [reflexivity|].
  rewrite fold_left_app, IH. f_equal. generalize counts.
  induction s as [|[i ctx] s IHs]; intros cs; cbn [fold_left]; [reflexivity|]. apply IHs.
Qed.

Lemma built_child_task_counts children weights budget u :
  ciu_new children weights budget = Ok u ->
  (forall m, split_children weights budget = Ok m -> good_allocation weights budget m) ->
  child_task_counts u = map (run_count (task_idx_map u)) (seq 0 (List.length children)).
Proof.
  intros Hnew Hgood. rewrite child_task_counts_flat, (built_children _ _ _ _ Hnew).
  apply nth_ext_error. intros i. destruct (Nat.lt_ge_cases i (List.length children)) as [Hi|Hi].
  - destruct (nth_error children i) as [c|] eqn:Ec; [|apply nth_error_None in Ec; lia].
    destruct (built_runs _ _ _ _ Hnew Hgood i c Ec) as (n & Hn & Hrc & Hruns).
    rewrite (bump_fold _ _ i 0 n).
    + fold (runs_of i (task_idx_map u)). rewrite Hruns.
      rewrite nth_error_map, nth_error_seq by assumption. cbn [option_map plus]. rewrite Hrc.
      destruct n as [|n]; [lia|]. reflexivity.
    + rewrite nth_error_repeat; auto.
    + lia.
    + fold (runs_of i (task_idx_map u)). rewrite Hruns. unfold all_tasks. intros ctx Hc.
      apply in_map_iff in Hc. destruct Hc as (k & <- & _). reflexivity.
  - rewrite (proj2 (nth_error_None _ _)) by (rewrite fold_bump_length, repeat_length; assumption).
    symmetry. apply nth_error_None. rewrite map_length, seq_length. assumption.
Qed.

Lemma built_with_new_children children weights budget u children' :
  ciu_new children weights budget = Ok u ->
  (forall m, split_children weights budget = Ok m -> good_allocation weights budget m) ->
  List.length children' = List.length children -> 0 < budget ->
  exists u', ciu_with_new_children u children' = Ok u' /\ ciu_new children' weights budget = Ok u' /\
             task_idx_map u' = task_idx_map u.
Proof.
  intros Hnew Hgood Hl Hb. unfold ciu_with_new_children.
  rewrite (built_children _ _ _ _ Hnew), Hl, Nat.eqb_refl. cbn [negb].
  rewrite (built_slots _ _ _ _ Hnew Hgood).
  destruct (ciu_new_inv _ _ _ _ Hnew) as (Hlw & m & counts & Es & Em & ->). cbn [ciu_weights task_idx_map].
  destruct (ciu_new_ok children' weights budget m) as [u' Hu']; auto; [lia|].
  exists u'. split; [assumption|]. split; [assumption|].
  destruct (ciu_new_inv _ _ _ _ Hu') as (_ & m' & counts' & Es' & _ & ->). cbn. congruence.
Qed.

End Exec.
