(** Proofs: filters, projections, grouped aggregates and file scans meet the conditions of the end-to-end
    theorem. *)
From Verif Require Import Base NetModel NetSpec CiuModel EventsModel EventsSpec EventsProofs JoinModel JoinSpec
  PlannerModel PlannerSpec ExecModel ExecSpec ExecProofs.
From Verif Require Import EventsProps.

Section Rowwise.
Context {row : Type}.

Lemma filter_perm (f : row -> bool) a b : Permutation a b -> Permutation (filter f a) (filter f b).
Proof. induction 1; cbn; repeat destruct (f _); try constructor; eauto using Permutation. Qed.

Lemma filter_distributive (f : row -> bool) : distributive (filter f) (@Permutation row) (@Permutation row).
Proof.
  split; [|split].
  - intros a b H. now apply filter_perm.
  - reflexivity.
  - intros a b. now rewrite filter_app.
Qed.

Lemma projection_distributive (f : row -> row) : distributive (map f) (@Permutation row) (@Permutation row).
Proof. split; [|split]; [intros a b H; now apply Permutation_map|reflexivity|intros a b; now rewrite map_app]. Qed.

Lemma flat_map_distributive (f : row -> list row) : distributive (flat_map f) (@Permutation row) (@Permutation row).
Proof. split; [|split]; [intros a b H; now apply flat_map_perm_l|reflexivity|intros a b; now rewrite flat_map_app]. Qed.
End Rowwise.

Section Grouped.
Context {row K M : Type}.
Variable keq : forall a b : K, {a = b} + {a <> b}.
Variable key : row -> K.
Variable val : row -> M.
Variable mk : K -> M -> row.
Variable zero : M.
Variable plus : M -> M -> M.
Hypothesis Hg : grouping key val mk zero plus.

Notation total := (total keq key val zero plus).
Notation group := (group keq key val mk zero plus).
Notation same_totals := (same_totals keq key val zero plus).

Lemma total_app k a b : total k (a ++ b) = plus (total k a) (total k b).
Proof.
  destruct Hg as [_ _ Ha Hc H0]. induction a as [|x a IH]; cbn; [now rewrite H0|].
  destruct (keq (key x) k); cbn; [|exact IH]. now rewrite IH, Ha.
Qed.

Lemma plus_zero_r m : plus m zero = m.
Proof. destruct Hg as [_ _ Ha Hc H0]. now rewrite Hc, H0. Qed.

Lemma total_perm k a b : Permutation a b -> total k a = total k b.
Proof.
  destruct Hg as [_ _ Ha Hc H0]. induction 1 as [|x a b H IH|x y a|a b c H1 IH1 H2 IH2]; cbn.
  - reflexivity.
  - now rewrite IH.
  - destruct (keq (key x) k), (keq (key y) k); auto. rewrite <- !Ha. f_equal. apply Hc.
  - congruence.
Qed.

Lemma same_totals_additive : additive same_totals.
Proof.
  split.
  - intros a b H k. destruct (H k). split; [easy|]. now symmetry.
  - intros a b c H1 H2 k. destruct (H1 k), (H2 k). split; [congruence|]. etransitivity; eauto.
  - intros a b H k. split; [now apply total_perm|]. split; apply Permutation_in; [|symmetry]; now apply Permutation_map.
  - intros a b c d H1 H2 k. destruct (H1 k) as [A1 B1], (H2 k) as [A2 B2]. rewrite !total_app, !map_app, !in_app_iff. split; [congruence|]. tauto.
Qed.

Lemma group_keys l : map key (group l) = nodup keq (map key l).
Proof.
  unfold ExecSpec.group. rewrite map_map. rewrite (map_ext _ (fun k => k)); [apply map_id|].
  intros k. apply Hg.
Qed.
Lemma total_absent k l : ~ In k (map key l) -> total k l = zero.
Proof.
  induction l as [|x l IH]; cbn; [reflexivity|]. intros H. destruct (keq (key x) k); [tauto|]. auto.
Qed.

Lemma total_picks (m : K -> M) k ks : NoDup ks -> total k (map (fun k => mk k (m k)) ks) = if in_dec keq k ks then m k else zero.
Proof.
  induction 1 as [|x ks Hx Hn IH]; [reflexivity|]. cbn [map ExecSpec.total].
  rewrite (g_key _ _ _ _ _ Hg), (g_val _ _ _ _ _ Hg), IH. destruct (keq x k) as [->|Hne].
  - destruct (in_dec keq k ks); [tauto|]. destruct (in_dec keq k (k :: ks)) as [|n']; [apply plus_zero_r|]. destruct n'. now left.
  - destruct (in_dec keq k ks) as [i|n]; destruct (in_dec keq k (x :: ks)) as [i'|n']; auto; [destruct n'; now right|].
    destruct i'; [congruence|tauto].
Qed.

Lemma group_total k l : total k (group l) = total k l.
Proof.
  unfold ExecSpec.group. rewrite (total_picks (fun k => total k l)) by apply NoDup_nodup.
  destruct (in_dec keq k _) as [i|n]; [reflexivity|]. rewrite nodup_In in n. symmetry. now apply total_absent.
Qed.

Lemma group_same l : same_totals (group l) l.
Proof. intros k. split; [apply group_total|]. rewrite group_keys. apply nodup_In. Qed.

Lemma group_respects a b : same_totals a b -> Permutation (group a) (group b).
Proof.
  intros H. unfold ExecSpec.group.
  rewrite (map_ext_in _ (fun k => mk k (total k b))) by (intros k _; now rewrite (proj1 (H k))).
  apply Permutation_map. apply NoDup_Permutation; try apply NoDup_nodup. intros k. rewrite !nodup_In. apply H.
Qed.

(** The partial aggregation: the rows become states of their groups, which are merged. *)
Lemma partial_distributive (state : row -> row) :
  distributive (fun l => group (map state l)) (@Permutation row) same_totals.
Proof.
  pose proof same_totals_additive as HA. split; [|split].
  - intros a b H. apply (add_perm _ HA). apply group_respects. apply (add_perm _ HA). now apply Permutation_map.
  - cbn. now apply (add_perm _ HA).
  - intros a b. rewrite map_app. eapply (add_trans _ HA); [apply group_same|].
    apply (add_app _ HA); apply (add_sym _ HA); apply group_same.
Qed.

(** The final aggregation: states are merged and each becomes a row. *)
Lemma final_keyed (out : row -> row) (hash : K -> nat) :
  keyed (fun r => hash (key r)) (fun l => map out (group l)) same_totals (@Permutation row).
Proof.
  split; [|split].
  - intros a b H. apply Permutation_map. now apply group_respects.
  - reflexivity.
  - intros a b Hd. rewrite <- map_app. apply Permutation_map.
    assert (D : forall k, In k (map key a) -> In k (map key b) -> False).
    { intros k Ha Hb. apply in_map_iff in Ha as (x & <- & Hx), Hb as (y & E & Hy). apply (Hd x y Hx Hy). now rewrite E. }
    unfold ExecSpec.group. rewrite map_app.
    assert (N : Permutation (nodup keq (map key a ++ map key b)) (nodup keq (map key a) ++ nodup keq (map key b))).
    { apply NoDup_Permutation; [apply NoDup_nodup| |].
      - apply NoDup_app_disjoint; try apply NoDup_nodup. intros k. rewrite !nodup_In. intros H1 H2. exact (D k H1 H2).
      - intros k. rewrite in_app_iff, !nodup_In, in_app_iff. reflexivity. }
    rewrite (Permutation_map _ N), map_app. apply Permutation_app; apply Permutation_refl'; apply map_ext_in; intros k Hk;
      rewrite nodup_In in Hk; rewrite total_app.
    + rewrite (total_absent k b), plus_zero_r; [reflexivity|]. intros Hk'. exact (D k Hk Hk').
    + rewrite (total_absent k a), (g_zero _ _ _ _ _ Hg); [reflexivity|]. intros Hk'. exact (D k Hk' Hk).
Qed.
End Grouped.

Section Scans.
Context {row : Type}.
Notation tree := (tree row).
Variable cfg : settings row.

Lemma leaf_rows_parts (l : leaf row) rows (f : nat -> list row) : leaf_rows l = Ok rows ->
  (forall p, p < lf_parts l -> lf_exec l p = Ok (f p)) -> rows = flat_map f (seq 0 (lf_parts l)).
Proof.
  unfold leaf_rows. intros H Hf.
  rewrite (mapM_ok_intro _ f) in H by (intros p Hp; apply in_seq in Hp; apply Hf; lia).
  cbn [bind] in H. injection H as <-. apply concat_map_flat_map.
Qed.

Lemma original_rows (l : leaf row) f : (forall p, p < lf_parts l -> lf_exec l p = Ok (f p)) ->
  flat_map f (seq 0 (lf_parts l)) = scan_rows (LScan l).
Proof.
  intros H. cbn. apply flat_map_ext_in. intros p Hp. apply in_seq in Hp. rewrite H by lia. reflexivity.
Qed.

Lemma variants_rows (vs : list (leaf row)) rows n : mapM leaf_rows vs = Ok rows -> (forall v, In v vs -> lf_parts v = n) ->
  forall (f : nat -> nat -> list row) i0,
  (forall i v, nth_error vs i = Some v -> forall p, p < n -> lf_exec v p = Ok (f (i0 + i) p)) ->
  List.concat rows = flat_map (fun i => flat_map (f i) (seq 0 n)) (seq i0 (List.length vs)).
Proof.
  revert rows. induction vs as [|v vs IH]; intros rows H Hn f i0 Hf; cbn in H.
  - injection H as <-. reflexivity.
  - destruct (leaf_rows v) as [r| |] eqn:Ev; cbn in H; try discriminate.
    destruct (mapM leaf_rows vs) as [rs| |]; cbn in H; try discriminate. injection H as <-.
    cbn [List.concat List.length seq flat_map]. f_equal.
    + rewrite <- (Hn v (or_introl eq_refl)). apply leaf_rows_parts; [exact Ev|]. intros p Hp. rewrite (Hn v (or_introl eq_refl)) in Hp.
      rewrite (Hf 0 v eq_refl p Hp). now rewrite Nat.add_0_r.
    + apply IH; auto; [intros; apply Hn; now right|]. intros i v' Hi p Hp. rewrite (Hf (S i) v' Hi p Hp). now rewrite Nat.add_succ_r.
Qed.

Lemma split_scan_faithful most (l : leaf row) : split_scan cfg most l -> faithful_scan cfg most (LScan l).
Proof.
  intros H s q Hs Hk Hsc. specialize (H s Hs Hk). unfold scaled in Hsc.
  destruct (scale_up_leaf cfg (Node (KLeaf (LScan l)) []) s) as [r|].
  - subst r. destruct q as [[[|d]| | | | | |] []| |]; try (now destruct H). destruct H as (Ho & Hp & Hl & Hv & rows & Hr & HP).
    exists (LTasks d). split; [reflexivity|]. split; [intros E; cbn in *; congruence|].
    intros remote f n (fs & F & R). inversion F; subst fs; clear F. cbn [node_runs leaf_parts] in R. unfold all_rows, consumer_rows, n in *. cbn [tparts leaf_parts].
    destruct remote.
    + rewrite <- HP, (variants_rows _ _ (dle_parts d) Hr Hv f 0), Hl; [reflexivity|].
      intros i v Hi p Hpp. assert (Hlt : i < s) by (rewrite <- Hl; apply nth_error_Some; congruence).
      destruct (R i p Hlt Hpp) as (v' & Hv' & Hx). unfold dle_to_task_specialized in Hv'. cbn [task_index] in Hv'. rewrite Hi in Hv'. injection Hv' as <-. exact Hx.
    + cbn [flat_map seq]. rewrite app_nil_r. rewrite <- Hp. apply Permutation_refl'. apply original_rows.
      intros p Hpp. rewrite Hp in Hpp. specialize (R 0 p Nat.lt_0_1 Hpp). cbn in R. now rewrite Ho in R.
  - subst q s. exists (LScan l). split; [reflexivity|]. split; [auto|].
    intros remote f n (fs & F & R). inversion F; subst fs; clear F. cbn [node_runs leaf_parts leaf_runs] in R.
    assert (n = 1) as -> by (unfold n; now destruct remote). unfold all_rows, consumer_rows. cbn [tparts leaf_parts].
    cbn [flat_map seq]. rewrite app_nil_r. apply Permutation_refl'. apply original_rows. intros p Hpp. exact (R 0 p Nat.lt_0_1 Hpp).
Qed.

(** File scans, scaled by the built-in handler. *)
Lemma file_scan_split most partitioner schema (groups : list (list (list row))) P preset :
  (forall n gs, partitioner n groups = Some gs -> Permutation (group_rows gs) (group_rows groups)) ->
  (forall s, scale_up_leaf cfg (Node (KLeaf (LScan (scan schema groups))) []) s =
    Some (match file_scan_scale_up partitioner schema groups P preset s with
          | Ok d => Ok (Node (KLeaf (LTasks d)) [])
          | Err e => Err e
          | Panic e => Panic e
          end)) ->
  (forall s d, file_scan_scale_up partitioner schema groups P preset s = Ok d -> dle_parts d = List.length groups) ->
  split_scan cfg most (scan schema groups).
Proof.
  intros Hpart Hup Hparts s Hs Hk. rewrite Hup.
  destruct (file_scan_scale_up partitioner schema groups P preset s) as [d| |] eqn:E; [|exact Logic.I|exact Logic.I].
  destruct (C22_scaled_scan_reads_once row partitioner schema groups P preset s d E Hpart) as (Hl & Hv & rows & Hr & HP).
  split. { unfold file_scan_scale_up in E. destruct (if preset then _ else _); cbn [bind] in E; try discriminate.
    destruct (deal _ _ _ _); cbn [bind] in E; try discriminate. now apply dle_try_new_inv in E as (_ & E & _). }
  split; [symmetry; cbn; eauto|]. split; [exact Hl|]. split; [exact Hv|]. exists rows. split; [exact Hr|]. rewrite HP.
  apply Permutation_refl'. pose proof (EventsProofs.scan_rows schema groups) as Hsr.
  rewrite (leaf_rows_parts _ _ (fun p => match nth_error groups p with Some g => List.concat g | None => [] end) Hsr).
  - symmetry. apply flat_map_ext_in. intros p Hp. cbn. destruct (nth_error groups p); reflexivity.
  - cbn. intros p Hp. destruct (nth_error groups p) eqn:En; [reflexivity|]. apply nth_error_None in En. lia.
Qed.
End Scans.
