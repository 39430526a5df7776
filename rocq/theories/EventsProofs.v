(** Proofs about event handlers. *)
From Verif Require Import Base NetModel EventsModel EventsSpec.

(** ** Annotations *)

Lemma merge_comm a b : merge a b = merge b a.
Proof. destruct a, b; cbn; f_equal; lia. Qed.

Lemma merge_assoc a b c : merge a (merge b c) = merge (merge a b) c.
Proof. destruct a, b, c; cbn; f_equal; lia. Qed.

Lemma merge_idem a : merge a a = a.
Proof. destruct a; cbn; f_equal; lia. Qed.

Lemma tightest_single a : is_tightest [a] a.
Proof.
  destruct a as [n|n]; cbn.
  - split; [reflexivity|]. split; [auto|]. intros m [->|[]]. lia.
  - split; [auto|]. intros m [->|[]]. lia.
Qed.

Lemma tightest_snoc l r a : is_tightest l r -> is_tightest (l ++ [a]) (merge r a).
Proof.
  unfold is_tightest, maxima, wishes. destruct r as [n|n], a as [m|m]; cbn [merge]; rewrite !flat_map_app; cbn;
    rewrite ?app_nil_r.
  - intros (H1 & H2 & H3). rewrite H1. split; [reflexivity|]. split.
    + apply in_app_iff. destruct (Nat.max_spec n m) as [[? ->]|[? ->]]; [right; cbn; auto|now left].
    + intros k Hk. apply in_app_iff in Hk. cbn in Hk. destruct Hk as [Hk|[<-|[]]]; [apply H3 in Hk; lia|lia].
  - intros (H1 & H2 & H3). rewrite H1. cbn. split; [now left|]. intros k [->|[]]; lia.
  - auto.
  - intros (H1 & H2). split.
    + apply in_app_iff. destruct (Nat.min_spec n m) as [[? ->]|[? ->]]; [now left|right; cbn; auto].
    + intros k Hk. apply in_app_iff in Hk. cbn in Hk. destruct Hk as [Hk|[<-|[]]]; [apply H2 in Hk; lia|lia].
Qed.

Lemma fold_merge_tightest a l : is_tightest (a :: l) (fold_left merge l a).
Proof.
  induction l as [|b l IH] using rev_ind; [apply tightest_single|].
  rewrite fold_left_app. cbn [fold_left]. exact (tightest_snoc (a :: l) _ b IH).
Qed.

(** ** Chains *)

Section Chain.
Context {H T : Type}.

Lemma find_map_answers (f : H -> option T) l : find_map f l = first_answer (map f l).
Proof. induction l as [|h l IH]; cbn; [reflexivity|]. destruct (f h); auto. Qed.

Lemma find_map_app (f : H -> option T) l l' :
  find_map f (l ++ l') = match find_map f l with Some x => Some x | None => find_map f l' end.
Proof. induction l as [|h l IH]; cbn; [reflexivity|]. destruct (f h); auto. Qed.

Lemma dispatch_same (c : option (chain H)) (f : H -> option T) : dispatch c f = dispatch_loop c f.
Proof.
  destruct c as [c|]; [|reflexivity]. cbn. unfold chain_find_map, chain_iter. now rewrite find_map_app.
Qed.

(** Registering a list of user handlers, then (or before) built-in ones. *)
Definition register_custom (hs : list H) (c : option (chain H)) : option (chain H) :=
  fold_left (fun c h => Some (push_custom c h)) hs c.
Definition register_builtin (hs : list H) (c : option (chain H)) : option (chain H) :=
  fold_left (fun c h => Some (push_builtin c h)) hs c.

Definition chain_of (c : option (chain H)) : chain H :=
  match c with Some c => c | None => chain_default end.

Lemma register_custom_spec hs : forall c,
  custom (chain_of (register_custom hs c)) = custom (chain_of c) ++ hs /\
  builtin (chain_of (register_custom hs c)) = builtin (chain_of c).
Proof.
  induction hs as [|h hs IH]; intros c; cbn; [now rewrite app_nil_r|].
  destruct (IH (Some (push_custom c h))) as [H1 H2]. unfold register_custom in *. rewrite H1, H2. cbn.
  destruct c; cbn; rewrite <- ?app_assoc; auto.
Qed.

Lemma register_builtin_spec hs : forall c,
  builtin (chain_of (register_builtin hs c)) = builtin (chain_of c) ++ hs /\
  custom (chain_of (register_builtin hs c)) = custom (chain_of c).
Proof.
  induction hs as [|h hs IH]; intros c; cbn; [now rewrite app_nil_r|].
  destruct (IH (Some (push_builtin c h))) as [H1 H2]. unfold register_builtin in *. rewrite H1, H2. cbn.
  destruct c; cbn; rewrite <- ?app_assoc; auto.
Qed.

Lemma dispatch_chain_of (c : option (chain H)) (f : H -> option T) :
  dispatch c f = first_answer (map f (custom (chain_of c)) ++ map f (builtin (chain_of c))).
Proof.
  destruct c as [c|]; [|reflexivity]. cbn. unfold chain_find_map.
  rewrite !find_map_answers.
  induction (map f (custom c)) as [|a l IH]; cbn; [reflexivity|]. destruct a; [reflexivity|]. exact IH.
Qed.

Lemma extend_builtin_spec (hs : list H) c :
  builtin (extend_builtin c hs) = builtin (chain_of c) ++ hs /\ custom (extend_builtin c hs) = custom (chain_of c).
Proof.
  unfold extend_builtin. cbn. fold (chain_of c). split; [|destruct c; reflexivity].
  assert (G : forall l, fold_left (fun acc h => acc ++ [h]) hs l = l ++ hs).
  { induction hs as [|h hs IH]; intros l; cbn; [now rewrite app_nil_r|]. now rewrite IH, <- app_assoc. }
  rewrite G. destruct c; reflexivity.
Qed.
End Chain.

(** ** Routing *)

Section Routing.
Context {url : Type}.

Lemma random_ok (urls : list url) s tc : urls <> [] ->
  exists out, mapM (fun i => match nth_error urls ((s + i) mod List.length urls) with
                 | Some u => Ok u | None => Panic "index out of bounds" end) (seq 0 tc) = Ok out /\
    List.length out = tc /\
    (forall i, i < tc -> nth_error out i = nth_error urls ((s + i) mod List.length urls)) /\
    incl out urls.
Proof.
  intros Hne. destruct urls as [|u0 us]; [contradiction|].
  set (urls := u0 :: us) in *. assert (Hlen : List.length urls <> 0) by discriminate.
  pose (g := fun i => nth ((s + i) mod List.length urls) urls u0).
  assert (Hg : forall i, nth_error urls ((s + i) mod List.length urls) = Some (g i)).
  { intros i. unfold g. apply nth_error_nth'. now apply Nat.mod_upper_bound. }
  exists (map g (seq 0 tc)). split; [|split; [|split]].
  - apply mapM_ok_intro. intros i _. now rewrite Hg.
  - now rewrite map_length, seq_length.
  - intros i Hi. rewrite nth_error_map, nth_error_seq by assumption. cbn [option_map]. symmetry. apply Hg.
  - intros u Hu. apply in_map_iff in Hu. destruct Hu as [i [<- _]]. eapply nth_error_In, Hg.
Qed.

(** How many i < tc fall on residue r. *)
Definition hits (s n tc r : nat) : nat :=
  List.length (filter (fun i => (s + i) mod n =? r) (seq 0 tc)).

Lemma hits_S s n tc r : hits s n (S tc) r = hits s n tc r + (if (s + tc) mod n =? r then 1 else 0).
Proof.
  unfold hits. rewrite seq_S, filter_app, app_length. cbn. destruct ((s + tc) mod n =? r); reflexivity.
Qed.

(** Exact value of hits through a telescoping quantity: q(t) = (s + t + (n - 1 - r)) / n. *)
Lemma hits_div s n r : n <> 0 -> r < n -> forall tc,
  hits s n tc r + (s + (n - 1 - r)) / n = (s + tc + (n - 1 - r)) / n.
Proof.
  intros Hn Hr tc. induction tc as [|tc IH]; [cbn; f_equal; lia|].
  rewrite hits_S.
  set (x := s + tc) in *.
  replace (s + S tc + (n - 1 - r)) with (x + (n - 1 - r) + 1) by lia.
  assert (Hx : x = n * (x / n) + x mod n) by (apply Nat.div_mod; assumption).
  assert (Hm : x mod n < n) by now apply Nat.mod_upper_bound.
  destruct (Nat.eqb_spec (x mod n) r) as [He|Hne].
  - assert (E1 : (x + (n - 1 - r)) / n = x / n) by (apply (div_unique_pos _ _ _ (n - 1)); lia).
    assert (E2 : (x + (n - 1 - r) + 1) / n = x / n + 1) by (apply (div_unique_pos _ _ _ 0); lia).
    lia.
  - destruct (Nat.lt_ge_cases (x mod n) r).
    + assert (E1 : (x + (n - 1 - r)) / n = x / n) by (apply (div_unique_pos _ _ _ (x mod n + (n - 1 - r))); lia).
      assert (E2 : (x + (n - 1 - r) + 1) / n = x / n) by (apply (div_unique_pos _ _ _ (x mod n + (n - 1 - r) + 1)); lia).
      lia.
    + assert (E1 : (x + (n - 1 - r)) / n = x / n + 1) by (apply (div_unique_pos _ _ _ (x mod n - 1 - r)); lia).
      assert (E2 : (x + (n - 1 - r) + 1) / n = x / n + 1) by (apply (div_unique_pos _ _ _ (x mod n - r)); lia).
      lia.
Qed.

Lemma hits_range s n r tc : n <> 0 -> r < n -> tc / n <= hits s n tc r <= tc / n + 1.
Proof.
  intros Hn Hr. pose proof (hits_div s n r Hn Hr tc) as H.
  set (a := s + (n - 1 - r)) in *. replace (s + tc + (n - 1 - r)) with (a + tc) in H by (unfold a; lia).
  assert (Ha : a = n * (a / n) + a mod n) by (apply Nat.div_mod; assumption).
  assert (Ht : tc = n * (tc / n) + tc mod n) by (apply Nat.div_mod; assumption).
  assert (Hma : a mod n < n) by now apply Nat.mod_upper_bound.
  assert (Hmt : tc mod n < n) by now apply Nat.mod_upper_bound.
  destruct (Nat.lt_ge_cases (a mod n + tc mod n) n).
  - assert ((a + tc) / n = a / n + tc / n) by (apply (div_unique_pos _ _ _ (a mod n + tc mod n)); lia). lia.
  - assert ((a + tc) / n = a / n + tc / n + 1)
      by (apply (div_unique_pos _ _ _ (a mod n + tc mod n - n)); lia). lia.
Qed.

Lemma load_hits eqb (urls out : list url) s tc r w :
  (forall a b, eqb a b = true <-> a = b) -> NoDup urls -> nth_error urls r = Some w ->
  List.length out = tc ->
  (forall i, i < tc -> nth_error out i = nth_error urls ((s + i) mod List.length urls)) ->
  load eqb out w = hits s (List.length urls) tc r.
Proof.
  intros Heq Hnd Hr. assert (Hrl : r < List.length urls) by (apply nth_error_Some; congruence).
  assert (Hn : List.length urls <> 0) by lia.
  revert out. induction tc as [|tc IH]; intros out Hl Ho.
  - destruct out; [reflexivity|discriminate].
  - destruct out as [|x out] using rev_ind; [discriminate|]. clear IHout.
    rewrite app_length in Hl. cbn in Hl.
    unfold load. rewrite filter_app, app_length. rewrite hits_S. f_equal.
    + apply IH; [lia|]. intros i Hi. rewrite <- Ho by lia. symmetry. apply nth_error_app1. lia.
    + specialize (Ho tc ltac:(lia)). rewrite nth_error_app2 in Ho by lia.
      replace (tc - List.length out) with 0 in Ho by lia. cbn [nth_error] in Ho. cbn [filter].
      destruct (eqb w x) eqn:E.
      * apply Heq in E. subst x. rewrite <- Hr in Ho.
        assert (Hm : (s + tc) mod List.length urls = r).
        { eapply NoDup_nth_error; eauto. apply Nat.mod_upper_bound. assumption. }
        rewrite Hm, Nat.eqb_refl. reflexivity.
      * destruct (Nat.eqb_spec ((s + tc) mod List.length urls) r) as [Hm|]; [|reflexivity].
        exfalso. rewrite Hm, Hr in Ho. injection Ho as ->.
        assert (eqb w w = true) by now apply Heq. congruence.
Qed.

End Routing.

(** ** Leaves *)

Section Leaf.
Context {row : Type}.

Lemma check_variants_some (vs : list (leaf row)) p r :
  check_variants (Some p) vs = Ok r ->
  r = Some p /\ Forall (fun v => lf_parts v = lf_parts p /\ lf_schema v = lf_schema p) vs.
Proof.
  revert p. induction vs as [|v vs IH]; intros p H; cbn in H.
  - injection H as <-. auto.
  - destruct (Nat.eqb_spec (lf_parts p) (lf_parts v)); cbn in H; [|discriminate].
    destruct (Nat.eqb_spec (lf_schema p) (lf_schema v)); cbn in H; [|discriminate].
    apply IH in H. destruct H as [-> H]. auto.
Qed.

Lemma check_variants_ok (vs : list (leaf row)) p :
  Forall (fun v => lf_parts v = lf_parts p /\ lf_schema v = lf_schema p) vs ->
  check_variants (Some p) vs = Ok (Some p).
Proof.
  induction 1 as [|v vs [H1 H2] _ IH]; cbn; [reflexivity|].
  rewrite H1, H2, !Nat.eqb_refl. cbn. exact IH.
Qed.

Lemma dle_try_new_inv original variants (d : dle row) :
  dle_try_new original variants = Ok d ->
  variants <> [] /\ dle_original d = original /\ dle_variants d = variants /\
  Forall (fun v => lf_parts v = dle_parts d) variants.
Proof.
  unfold dle_try_new. destruct variants as [|v vs]; cbn; [discriminate|].
  destruct (check_variants (Some v) vs) as [r| |] eqn:E; cbn; try discriminate.
  apply check_variants_some in E. destruct E as [-> HF]. intros H. injection H as <-. cbn.
  split; [discriminate|]. repeat split. constructor; [reflexivity|].
  eapply Forall_impl; [|exact HF]. intros a [Ha _]. exact Ha.
Qed.

Lemma bin_push_length {A} (bins : list (list A)) i x : List.length (bin_push bins i x) = List.length bins.
Proof. revert i. induction bins as [|b bins IH]; intros [|i]; cbn; auto. Qed.

Lemma bin_push_perm {A} (bins : list (list A)) i x : i < List.length bins ->
  Permutation (List.concat (bin_push bins i x)) (x :: List.concat bins).
Proof.
  revert i. induction bins as [|b bins IH]; intros i Hi; cbn in *; [lia|].
  destruct i as [|i]; cbn.
  - rewrite <- app_assoc. cbn. symmetry. apply Permutation_middle.
  - rewrite IH by lia. symmetry. apply Permutation_middle.
Qed.

Lemma bin_push_nth {A} (bins : list (list A)) i j x : i < List.length bins ->
  nth j (bin_push bins i x) [] = if j =? i then nth j bins [] ++ [x] else nth j bins [].
Proof.
  revert i j. induction bins as [|b bins IH]; intros i j Hi; cbn in Hi; [lia|].
  destruct i as [|i], j as [|j]; cbn; try reflexivity. apply IH. lia.
Qed.

Lemma deal_spec {A} n (items : list A) : forall bins idx,
  n <> 0 -> List.length bins = n ->
  exists out, deal n bins idx items = Ok out /\ List.length out = n /\
    Permutation (List.concat out) (List.concat bins ++ items) /\
    forall j, List.length (nth j out []) =
      List.length (nth j bins []) + List.length (filter (fun i => i mod n =? j) (seq idx (List.length items))).
Proof.
  induction items as [|x items IH]; intros bins idx Hn Hl; cbn [deal].
  - exists bins. rewrite app_nil_r. split; [reflexivity|]. split; [assumption|]. split; [reflexivity|]. intros j. cbn. lia.
  - destruct n as [|n]; [contradiction|].
    assert (Hm : idx mod S n < List.length bins) by (rewrite Hl; now apply Nat.mod_upper_bound).
    destruct (IH (bin_push bins (idx mod S n) x) (idx + 1)) as (out & E & H1 & H2 & H3); auto.
    { now rewrite bin_push_length. }
    exists out. split; [exact E|]. split; [assumption|]. split.
    + rewrite H2, bin_push_perm by assumption. cbn. apply Permutation_middle.
    + intros j. rewrite H3, bin_push_nth by assumption. cbn [List.length seq filter].
      rewrite Nat.add_1_r, (Nat.eqb_sym (idx mod S n) j).
      destruct (Nat.eqb_spec j (idx mod S n)); [rewrite app_length|]; cbn [List.length]; lia.
Qed.

Lemma deal_zero {A} (items : list A) : items <> [] -> is_ok (deal 0 [] 0 items) = false.
Proof. destruct items; [contradiction|reflexivity]. Qed.

Lemma filter_length_hits n m j : List.length (filter (fun i => i mod n =? j) (seq 0 m)) = hits 0 n m j.
Proof. reflexivity. Qed.

(** The number of items in bin j is the same for all bins iff n divides the number of items. *)
Lemma hits0 n m j : n <> 0 -> j < n -> hits 0 n m j = (m + (n - 1 - j)) / n.
Proof.
  intros Hn Hj. pose proof (hits_div 0 n j Hn Hj m) as H. cbn [plus] in H.
  rewrite (Nat.div_small (n - 1 - j)) in H by lia. lia.
Qed.

Lemma hits_equal_divides n m : n <> 0 ->
  ((forall j, j < n -> hits 0 n m j = hits 0 n m 0) <-> m mod n = 0).
Proof.
  intros Hn.
  assert (Hm : m = n * (m / n) + m mod n) by (apply Nat.div_mod; assumption).
  assert (Hb : m mod n < n) by now apply Nat.mod_upper_bound.
  split.
  - intros H. specialize (H (n - 1) ltac:(lia)). rewrite !hits0 in H by lia.
    destruct (Nat.eq_dec (m mod n) 0) as [|Hne]; [assumption|]. exfalso.
    assert ((m + (n - 1 - (n - 1))) / n = m / n) by (apply (div_unique_pos _ _ _ (m mod n)); lia).
    assert ((m + (n - 1 - 0)) / n = m / n + 1) by (apply (div_unique_pos _ _ _ (m mod n - 1)); lia).
    lia.
  - intros H0 j Hj. rewrite !hits0 by lia.
    assert (forall k, k < n -> (m + (n - 1 - k)) / n = m / n).
    { intros k Hk. apply (div_unique_pos _ _ _ (n - 1 - k)); lia. }
    rewrite !H by lia. reflexivity.
Qed.

Lemma scan_rows schema (groups : list (list (list row))) :
  leaf_rows (scan schema groups) = Ok (group_rows groups).
Proof.
  unfold leaf_rows. cbn [scan lf_exec lf_parts].
  rewrite (mapM_ok_intro _ (fun p => match nth_error groups p with Some g => List.concat g | None => [] end)).
  - cbn [bind]. f_equal. rewrite concat_map_flat_map, flat_map_seq_nth'. unfold group_rows.
    rewrite flat_map_concat_map. induction groups as [|g gs IH]; cbn; [reflexivity|].
    rewrite concat_app. now f_equal.
  - intros p Hp. apply in_seq in Hp. destruct (nth_error groups p) eqn:E; [reflexivity|].
    apply nth_error_None in E. lia.
Qed.

Lemma group_rows_perm (a b : list (list (list row))) :
  Permutation (List.concat a) (List.concat b) -> Permutation (group_rows a) (group_rows b).
Proof.
  intros HQ. unfold group_rows.
  rewrite <- (map_id (List.concat a)), <- (map_id (List.concat b)), <- !flat_map_concat_map.
  now apply Permutation_flat_map.
Qed.

Lemma concat_perm {A} (a b : list (list A)) : Permutation a b -> Permutation (List.concat a) (List.concat b).
Proof.
  intros H. rewrite <- (map_id a), <- (map_id b), <- !flat_map_concat_map. now apply Permutation_flat_map.
Qed.

Lemma concat_group_rows (pt : list (list (list (list row)))) :
  List.concat (map group_rows pt) = group_rows (List.concat pt).
Proof.
  induction pt as [|g pt IH]; cbn; [reflexivity|]. rewrite IH. unfold group_rows. now rewrite !concat_app.
Qed.

Lemma concat_repeat_nil {A} n : List.concat (repeat (@nil A) n) = [].
Proof. induction n; cbn; auto. Qed.

End Leaf.
