(** Proofs about grouping and re-grouping of partial aggregates. *)
From Verif Require Import Base AggModel AggSpec.

Section Agg.
Context {value state result : Type}.
Variable dec : forall a b : value, {a = b} + {a <> b}.
Variable gid : list bool -> value.
Variable a : accumulator value state result.
Notation key := (list value).
Notation rows := (list (key * state)).

Lemma key_eqb_eq k k' : key_eqb dec k k' = true <-> k = k'.
Proof. unfold key_eqb. destruct (list_eq_dec dec k k'); split; congruence. Qed.
Lemma key_eqb_refl k : key_eqb dec k k = true.
Proof. now apply key_eqb_eq. Qed.

Definition total (ss : list state) : option state :=
  match ss with [] => None | s :: ss => Some (fold_left (merge a) ss s) end.

Definition omerge (x y : option state) : option state :=
  match x, y with
  | None, y => y
  | x, None => x
  | Some x, Some y => Some (merge a x y)
  end.

Lemma states_of_app k (X Y : rows) : states_of dec k (X ++ Y) = states_of dec k X ++ states_of dec k Y.
Proof. unfold states_of. now rewrite filter_app, map_app. Qed.

Lemma states_of_flat_map {B} k (f : B -> rows) l :
  states_of dec k (flat_map f l) = flat_map (fun x => states_of dec k (f x)) l.
Proof. induction l as [|x l IH]; [reflexivity|]. cbn [flat_map]. now rewrite states_of_app, IH. Qed.

Lemma states_of_in k (X : rows) : states_of dec k X <> [] <-> In k (map fst X).
Proof.
  unfold states_of. split.
  - intros H. destruct (filter _ X) as [|[k' s] l] eqn:E; [contradiction|].
    assert (Hi : In (k', s) (filter (fun r => key_eqb dec (fst r) k) X)) by (rewrite E; now left).
    apply filter_In in Hi. destruct Hi as [Hi He]. apply key_eqb_eq in He. cbn in He. subst k'.
    apply in_map_iff. exists (k, s). auto.
  - intros H. apply in_map_iff in H. destruct H as ([k' s] & He & Hi). cbn in He. subst k'.
    intros Hn. apply map_eq_nil in Hn.
    assert (Hf : In (k, s) (filter (fun r => key_eqb dec (fst r) k) X))
      by (apply filter_In; split; [assumption|apply key_eqb_refl]).
    rewrite Hn in Hf. contradiction.
Qed.

(** One entry per key, holding the total of its states. *)
Lemma grouped_total (X : rows) :
  grouped dec a X = flat_map (fun k => match total (states_of dec k X) with None => [] | Some s => [(k, s)] end)
                         (nodup (list_eq_dec dec) (map fst X)).
Proof. unfold grouped. apply flat_map_ext_in. intros k _. now destruct (states_of dec k X). Qed.

Lemma in_grouped (X : rows) k s : In (k, s) (grouped dec a X) <-> total (states_of dec k X) = Some s.
Proof.
  rewrite grouped_total, in_flat_map. split.
  - intros (k' & _ & H). destruct (total (states_of dec k' X)) as [s'|] eqn:E; [|contradiction].
    destruct H as [H|[]]. injection H as -> ->. exact E.
  - intros H. exists k. split.
    + apply nodup_In, states_of_in. intros E. rewrite E in H. discriminate.
    + rewrite H. now left.
Qed.

Lemma NoDup_flat_map_keyed {B} (f : key -> option B) l : NoDup l ->
  NoDup (map fst (flat_map (fun k => match f k with None => [] | Some s => [(k, s)] end) l)).
Proof.
  induction 1 as [|k l Hn Hd IH]; cbn; [constructor|].
  rewrite map_app. destruct (f k) as [s|]; cbn; [|exact IH]. constructor; [|exact IH].
  intros H. apply in_map_iff in H. destruct H as ([k' s'] & He & Hi). cbn in He. subst k'.
  apply in_flat_map in Hi. destruct Hi as (k2 & Hk2 & Hi).
  destruct (f k2); [|contradiction]. destruct Hi as [Hi|[]]. injection Hi as -> ->. contradiction.
Qed.

Lemma grouped_NoDup_keys (X : rows) : NoDup (map fst (grouped dec a X)).
Proof. rewrite grouped_total. apply NoDup_flat_map_keyed, NoDup_nodup. Qed.

Definition same_totals (X Y : rows) : Prop :=
  forall k, total (states_of dec k X) = total (states_of dec k Y).

Lemma grouped_same_totals (X Y : rows) : same_totals X Y ->
  Permutation (grouped dec a X) (grouped dec a Y).
Proof.
  intros H. apply NoDup_Permutation.
  - eapply NoDup_map_inv, grouped_NoDup_keys.
  - eapply NoDup_map_inv, grouped_NoDup_keys.
  - intros [k s]. rewrite !in_grouped. rewrite H. reflexivity.
Qed.

Lemma states_of_grouped k (X : rows) :
  states_of dec k (grouped dec a X) = match total (states_of dec k X) with None => [] | Some s => [s] end.
Proof.
  pose proof (grouped_NoDup_keys X) as Hd.
  destruct (total (states_of dec k X)) as [s|] eqn:E.
  - apply in_grouped in E. unfold states_of.
    revert Hd E. generalize (grouped dec a X). intros l. induction l as [|[k' s'] l IH]; cbn; [contradiction|].
    intros Hd Hi. inversion Hd as [|? ? Hn Hd']; subst. destruct Hi as [Hi|Hi].
    + injection Hi as -> ->. rewrite key_eqb_refl. cbn. f_equal.
      assert (Hf : filter (fun r : key * state => key_eqb dec (fst r) k) l = []).
      { destruct (filter _ l) as [|[k2 s2] l2] eqn:Ef; [reflexivity|]. exfalso.
        assert (Hx : In (k2, s2) (filter (fun r : key * state => key_eqb dec (fst r) k) l)) by (rewrite Ef; now left).
        apply filter_In in Hx. destruct Hx as [Hx He]. apply key_eqb_eq in He. cbn in He. subst k2.
        apply Hn. apply in_map_iff. exists (k, s2). auto. }
      rewrite Hf. reflexivity.
    + destruct (key_eqb dec k' k) eqn:Ek; [|now apply IH].
      apply key_eqb_eq in Ek. subst k'. exfalso. apply Hn. apply in_map_iff. exists (k, s). auto.
  - destruct (states_of dec k (grouped dec a X)) as [|s l] eqn:Es; [reflexivity|]. exfalso.
    assert (Hn : states_of dec k (grouped dec a X) <> []) by congruence.
    apply states_of_in in Hn. apply in_map_iff in Hn. destruct Hn as ([k' s'] & He & Hi). cbn in He. subst k'.
    apply in_grouped in Hi. congruence.
Qed.

(** ** Totals of lists of states *)

Section Laws.
Hypothesis Ha : order_free a.

Lemma fold_merge_out ss x y : fold_left (merge a) ss (merge a x y) = merge a x (fold_left (merge a) ss y).
Proof using Ha.
  destruct Ha as [Has _]. revert x y. induction ss as [|s ss IH]; intros x y; cbn; [reflexivity|].
  rewrite <- Has. apply IH.
Qed.

Lemma total_app xs ys : total (xs ++ ys) = omerge (total xs) (total ys).
Proof using Ha.
  destruct xs as [|x xs]; [reflexivity|]. destruct ys as [|y ys]; cbn.
  - now rewrite app_nil_r.
  - f_equal. rewrite fold_left_app. cbn. now rewrite fold_merge_out.
Qed.

Lemma omerge_comm x y : omerge x y = omerge y x.
Proof using Ha. destruct Ha as [_ Hc]. destruct x, y; cbn; try reflexivity. now rewrite Hc. Qed.
Lemma omerge_assoc x y z : omerge x (omerge y z) = omerge (omerge x y) z.
Proof using Ha. destruct Ha as [Has _]. destruct x, y, z; cbn; try reflexivity. now rewrite Has. Qed.

Lemma total_cons x xs : total (x :: xs) = omerge (Some x) (total xs).
Proof using Ha. exact (total_app [x] xs). Qed.

Lemma total_perm xs ys : Permutation xs ys -> total xs = total ys.
Proof using Ha.
  induction 1 as [|x xs ys H IH|x y xs|xs ys zs H1 IH1 H2 IH2].
  - reflexivity.
  - rewrite !total_cons. now rewrite IH.
  - rewrite !total_cons, !omerge_assoc. now rewrite (omerge_comm (Some y)).
  - congruence.
Qed.

Lemma states_of_perm k (X Y : rows) : Permutation X Y -> Permutation (states_of dec k X) (states_of dec k Y).
Proof.
  intros H. unfold states_of. apply Permutation_map.
  induction H; cbn; try reflexivity.
  - destruct (key_eqb dec (fst x) k); [now constructor|assumption].
  - destruct (key_eqb dec (fst x) k), (key_eqb dec (fst y) k); try reflexivity; constructor.
  - etransitivity; eassumption.
Qed.

Lemma same_totals_perm (X Y : rows) : Permutation X Y -> same_totals X Y.
Proof using Ha. intros H k. now apply total_perm, states_of_perm. Qed.

Lemma grouped_perm (X Y : rows) : Permutation X Y -> Permutation (grouped dec a X) (grouped dec a Y).
Proof using Ha. intros H. now apply grouped_same_totals, same_totals_perm. Qed.

Lemma same_totals_app (X X' Y Y' : rows) : same_totals X X' -> same_totals Y Y' -> same_totals (X ++ Y) (X' ++ Y').
Proof using Ha. intros H1 H2 k. rewrite !states_of_app, !total_app. now rewrite H1, H2. Qed.

Lemma same_totals_grouped (X : rows) : same_totals (grouped dec a X) X.
Proof. intros k. rewrite states_of_grouped. destruct (total (states_of dec k X)) as [s|]; reflexivity. Qed.

Lemma same_totals_flat_map {B} (f g : B -> rows) l :
  (forall x, In x l -> same_totals (f x) (g x)) -> same_totals (flat_map f l) (flat_map g l).
Proof using Ha.
  induction l as [|x l IH]; cbn; intros H; [intros k; reflexivity|].
  apply same_totals_app; [apply H; now left|]. apply IH. intros; apply H; now right.
Qed.

(** Grouping below does not change what grouping above returns. *)
Lemma grouped_flat_map_grouped {B} (f : B -> rows) l :
  Permutation (grouped dec a (flat_map (fun x => grouped dec a (f x)) l)) (grouped dec a (flat_map f l)).
Proof using Ha.
  apply grouped_same_totals, same_totals_flat_map. intros x _. apply same_totals_grouped.
Qed.

(** Grouping class by class. *)
Lemma states_of_class (h : key -> nat) n c k (X : rows) : h k mod n = c ->
  states_of dec k (key_class h n c X) = states_of dec k X.
Proof.
  intros Hc. unfold states_of, key_class. f_equal. induction X as [|[k' s] X IH]; cbn; [reflexivity|].
  destruct (h k' mod n =? c) eqn:E; cbn.
  - destruct (key_eqb dec k' k); congruence.
  - destruct (key_eqb dec k' k) eqn:Ek; [|assumption]. apply key_eqb_eq in Ek. subst k'.
    apply Nat.eqb_neq in E. contradiction.
Qed.

Lemma states_of_other_class (h : key -> nat) n c k (X : rows) : h k mod n <> c ->
  states_of dec k (key_class h n c X) = [].
Proof.
  intros Hc. unfold states_of, key_class. induction X as [|[k' s] X IH]; cbn; [reflexivity|].
  destruct (h k' mod n =? c) eqn:E; cbn; [|assumption].
  destruct (key_eqb dec k' k) eqn:Ek; [|assumption]. apply key_eqb_eq in Ek. subst k'.
  apply Nat.eqb_eq in E. contradiction.
Qed.

Lemma grouped_classes (h : key -> nat) n (X : rows) : 0 < n ->
  Permutation (flat_map (fun c => grouped dec a (key_class h n c X)) (seq 0 n)) (grouped dec a X).
Proof.
  intros Hn. apply NoDup_Permutation.
  - apply NoDup_map_inv with (f := fst).
    assert (H : forall l, NoDup l -> NoDup (map fst (flat_map (fun c => grouped dec a (key_class h n c X)) l))).
    { induction 1 as [|c l Hc Hd IH]; cbn; [constructor|]. rewrite map_app.
      apply NoDup_app_disjoint; [apply grouped_NoDup_keys|exact IH|].
      intros k H1 H2. apply in_map_iff in H1. destruct H1 as ([k1 s1] & E1 & H1). cbn in E1. subst k1.
      apply in_map_iff in H2. destruct H2 as ([k2 s2] & E2 & H2). cbn in E2. subst k2.
      apply in_flat_map in H2. destruct H2 as (c' & Hc' & H2).
      apply in_grouped in H1. apply in_grouped in H2.
      destruct (Nat.eq_dec (h k mod n) c) as [He|Hne].
      - destruct (Nat.eq_dec (h k mod n) c') as [He'|Hne]; [apply Hc; rewrite <- He, He'; exact Hc'|].
        rewrite states_of_other_class in H2 by assumption. discriminate.
      - rewrite states_of_other_class in H1 by assumption. discriminate. }
    apply H, seq_NoDup.
  - eapply NoDup_map_inv, grouped_NoDup_keys.
  - intros [k s]. rewrite in_flat_map, in_grouped. split.
    + intros (c & _ & Hi). apply in_grouped in Hi.
      destruct (Nat.eq_dec (h k mod n) c) as [Hc|Hne].
      * now rewrite states_of_class in Hi.
      * rewrite states_of_other_class in Hi by assumption. discriminate.
    + intros Hs. exists (h k mod n). split.
      * apply in_seq. pose proof (Nat.mod_upper_bound (h k) n). lia.
      * apply in_grouped. now rewrite states_of_class.
Qed.
End Laws.

(** ** Group-by expressions *)

Section Group.
Variable d : value.
Variable g : group_by value.
Hypothesis Hg : plain_group_by g.
Let N := List.length (exprs g).

Lemma map_nth_seq (k : key) : map (fun i => nth i k d) (seq 0 (List.length k)) = k.
Proof.
  induction k as [|v k IH]; [reflexivity|]. cbn [List.length seq map]. f_equal.
  rewrite <- seq_shift, map_map. exact IH.
Qed.

Lemma eval_columns_gen k : forall l m, List.length l = m ->
    map (fun '(b, (e, e0)) => if b : bool then e0 k else e k)
      (combine (repeat false m) (combine (map (column d) l) (map (column d) l))) = map (fun i => nth i k d) l.
Proof.
  induction l as [|i l IH]; intros [|m] Hm; cbn in *; try lia; try reflexivity.
  f_equal. apply IH. lia.
Qed.

Lemma eval_columns n k : List.length k = n ->
  eval_group gid (mkGroupBy (map (column d) (seq 0 n)) (map (column d) (seq 0 n)) [repeat false n] false) k (repeat false n) = k.
Proof.
  intros <-. unfold eval_group. cbn [exprs null_exprs has_grouping_set]. rewrite app_nil_r.
  rewrite eval_columns_gen by apply seq_length. apply map_nth_seq.
Qed.

Lemma reduce_key k : List.length k = N -> eval_group_by gid (partial_reduce_group_by d g) k = [k].
Proof using Hg.
  destruct Hg as (Hl & Hgr & Hh). intros Hk. unfold partial_reduce_group_by, eval_group_by.
  rewrite Hl, Hgr, Hh. cbn [groups map]. fold N. f_equal. now apply eval_columns.
Qed.

Lemma final_key k : List.length k = N -> eval_group_by gid (as_final d g) k = [k].
Proof using Hg.
  destruct Hg as (Hl & Hgr & Hh). intros Hk. unfold as_final, eval_group_by.
  rewrite Hh. cbn [groups map]. fold N. rewrite Nat.add_0_r. f_equal. now apply eval_columns.
Qed.

Lemma partial_key_length r k : In k (eval_group_by gid g r) -> List.length k = N.
Proof using Hg.
  destruct Hg as (Hl & Hgr & Hh). unfold eval_group_by. rewrite Hgr. cbn. intros [<-|[]].
  unfold eval_group. rewrite Hh, app_nil_r, map_length, !combine_length, repeat_length, Hl. fold N. lia.
Qed.

Definition keys_ok (X : rows) : Prop := forall k s, In (k, s) X -> List.length k = N.

Lemma keys_ok_grouped X : keys_ok X -> keys_ok (grouped dec a X).
Proof using Hg.
  intros H k s Hi. apply in_grouped in Hi.
  assert (Hn : states_of dec k X <> []) by (intros E; rewrite E in Hi; discriminate).
  apply states_of_in, in_map_iff in Hn. destruct Hn as ([k' s'] & E & Hk). cbn in E. subst. eapply H; eauto.
Qed.

Lemma partial_keys_ok inp : keys_ok (partial dec gid g a inp).
Proof using Hg.
  apply keys_ok_grouped. intros k s H. apply in_flat_map in H. destruct H as (r & _ & H).
  apply in_map_iff in H. destruct H as (k' & E & Hk). injection E as -> <-. eapply partial_key_length; eauto.
Qed.

Lemma flat_map_identity (f : key -> list key) (X : rows) :
  (forall k s, In (k, s) X -> f k = [k]) ->
  flat_map (fun '(k, s) => map (fun k' => (k', s)) (f k)) X = X.
Proof.
  induction X as [|[k s] X IH]; cbn; intros H; [reflexivity|].
  rewrite (H k s) by now left. cbn. f_equal. apply IH. intros; eapply H; right; eassumption.
Qed.

Lemma partial_reduce_grouped X : keys_ok X ->
  partial_reduce dec gid (partial_reduce_group_by d g) a X = grouped dec a X.
Proof using Hg.
  intros H. unfold partial_reduce. rewrite flat_map_identity; [reflexivity|].
  intros k s Hi. apply reduce_key. eapply H; eauto.
Qed.

Lemma final_reduce_grouped X : keys_ok X ->
  partial_reduce dec gid (as_final d g) a X = grouped dec a X.
Proof using Hg.
  intros H. unfold partial_reduce. rewrite flat_map_identity; [reflexivity|].
  intros k s Hi. apply final_key. eapply H; eauto.
Qed.

Lemma keys_ok_perm X Y : Permutation X Y -> keys_ok X -> keys_ok Y.
Proof. intros HP H k s Hi. eapply H. eapply Permutation_in; [symmetry; exact HP|exact Hi]. Qed.

Lemma keys_ok_flat_map {B} (f : B -> rows) l : (forall x, In x l -> keys_ok (f x)) -> keys_ok (flat_map f l).
Proof. intros H k s Hi. apply in_flat_map in Hi. destruct Hi as (x & Hx & Hi). eapply H; eauto. Qed.

Lemma keys_ok_class h n c X : keys_ok X -> keys_ok (key_class h n c X).
Proof. intros H k s Hi. apply filter_In in Hi. destruct Hi. eapply H; eauto. Qed.
End Group.
End Agg.
