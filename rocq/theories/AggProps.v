(** Property theorems about re-aggregation below shuffles: C21. *)
From Verif Require Import Base AggModel AggSpec AggProofs.

Section C21.
Context {value state result : Type}.
Variable dec : forall a b : value, {a = b} + {a <> b}.
Variable gid : list bool -> value.
Variable d : value.

(** What producer task [task] (its input partitions, as lists of rows) sends to consumer partition [c]
    of [n]: each input partition is aggregated, then hash repartitioned. *)
Definition sent (g : group_by value) (a : accumulator value state result) (h : list value -> nat) (n c : nat)
    (task : list (list (list value))) : list (list value * state) :=
  flat_map (fun part => key_class h n c (partial dec gid g a part)) task.

(** The same with the inserted aggregation. *)
Definition sent_reduced g a h n c task : list (list value * state) :=
  partial_reduce dec gid (partial_reduce_group_by d g) a (sent g a h n c task).

Lemma sent_keys_ok g a h n c task : plain_group_by g -> keys_ok (state := state) g (sent g a h n c task).
Proof.
  intros Hg. apply keys_ok_flat_map. intros part _. apply keys_ok_class, partial_keys_ok; assumption.
Qed.

(** C21. Whatever order the rows arrive in, the final aggregation of a consumer partition returns the
    same groups with the same results, with and without the inserted aggregation. *)
Theorem C21_partial_reduce g (a : accumulator value state result) h n c tasks received received' :
  plain_group_by g -> order_free a ->
  Permutation received (flat_map (sent g a h n c) tasks) ->
  Permutation received' (flat_map (sent_reduced g a h n c) tasks) ->
  Permutation (final dec gid (as_final d g) a received') (final dec gid (as_final d g) a received).
Proof.
  intros Hg Ha H1 H2.
  assert (K1 : keys_ok g received).
  { eapply keys_ok_perm; [symmetry; exact H1|]. apply keys_ok_flat_map. intros t _. now apply sent_keys_ok. }
  assert (Hr : forall t, sent_reduced g a h n c t = grouped dec a (sent g a h n c t)).
  { intros t. unfold sent_reduced. apply partial_reduce_grouped; [assumption|]. now apply sent_keys_ok. }
  assert (K2 : keys_ok g received').
  { eapply keys_ok_perm; [symmetry; exact H2|]. apply keys_ok_flat_map. intros t _. rewrite Hr.
    apply keys_ok_grouped; [assumption|]. now apply sent_keys_ok. }
  unfold final. rewrite !final_reduce_grouped by assumption. apply Permutation_map.
  rewrite (grouped_perm dec a Ha _ _ H2), (grouped_perm dec a Ha _ _ H1).
  rewrite (flat_map_ext _ _ Hr). now apply grouped_flat_map_grouped.
Qed.

(** The two-phase aggregation as a whole: all consumer partitions together return what one node
    returns for all rows. *)
Theorem C21_two_phases g (a : accumulator value state result) h n tasks (received : nat -> list (list value * state)) :
  plain_group_by g -> order_free a -> 0 < n ->
  (forall c, c < n -> Permutation (received c) (flat_map (sent g a h n c) tasks)) ->
  Permutation (flat_map (fun c => final dec gid (as_final d g) a (received c)) (seq 0 n))
              (single dec gid g a (List.concat (List.concat tasks))).
Proof.
  intros Hg Ha Hn H.
  set (X := flat_map (fun t => flat_map (fun part => partial dec gid g a part) t) tasks).
  assert (KX : keys_ok g X).
  { apply keys_ok_flat_map. intros t _. apply keys_ok_flat_map. intros p _. now apply partial_keys_ok. }
  assert (Hc : forall c, flat_map (sent g a h n c) tasks = key_class h n c X).
  { intros c. unfold X, key_class, sent. rewrite filter_flat_map. apply flat_map_ext. intros t.
    rewrite filter_flat_map. reflexivity. }
  transitivity (map (fun '(k, s) => (k, finish a s)) (grouped dec a X)).
  - rewrite <- (grouped_classes dec a h n X Hn). rewrite map_flat_map. apply flat_map_perm_ext.
    intros c Hin. apply in_seq in Hin. specialize (H c ltac:(lia)). rewrite Hc in H. unfold final.
    rewrite final_reduce_grouped; [|assumption|].
    + apply Permutation_map. now apply grouped_perm.
    + eapply keys_ok_perm; [symmetry; exact H|]. now apply keys_ok_class.
  - unfold single. apply Permutation_map. unfold partial, X.
    set (f := fun r => map (fun k => (k, lift a r)) (eval_group_by gid g r)).
    assert (Hcc : forall A (l : list (list A)), List.concat l = flat_map (fun x => x) l)
      by (intros A l; induction l; cbn; congruence).
    rewrite !Hcc.
    rewrite (flat_map_ext _ (fun t => flat_map (fun part => grouped dec a (flat_map f part)) t)) by reflexivity.
    rewrite <- (flat_map_flat_map (fun t => t) (fun part => grouped dec a (flat_map f part))).
    rewrite grouped_flat_map_grouped by assumption. apply Permutation_refl'. f_equal.
    now rewrite !flat_map_flat_map.
Qed.
End C21.

Print Assumptions C21_partial_reduce.
Print Assumptions C21_two_phases.

(** The worker repartitions the reduced rows once more (the aggregate hides the repartition from
    [ProducerHead::insert]): a consumer partition still receives exactly the reduced rows of its class. *)
Theorem C21_repartitioned_again {value state result} dec gid d g (a : accumulator value state result) h n c rows :
  plain_group_by g -> keys_ok g rows -> c < n ->
  key_class h n c
    (flat_map (fun p => partial_reduce dec gid (partial_reduce_group_by d g) a (key_class h n p rows)) (seq 0 n))
  = partial_reduce dec gid (partial_reduce_group_by d g) a (key_class h n c rows).
Proof.
  intros Hg Hk Hc.
  assert (Hin : forall p k s, In (k, s) (partial_reduce dec gid (partial_reduce_group_by d g) a (key_class h n p rows)) ->
                h k mod n = p).
  { intros p k s Hi. rewrite partial_reduce_grouped in Hi; [|assumption|now apply keys_ok_class].
    apply in_grouped in Hi. destruct (Nat.eq_dec (h k mod n) p) as [E|E]; [exact E|].
    rewrite states_of_other_class in Hi by assumption. discriminate. }
  unfold key_class at 1. rewrite filter_flat_map.
  assert (Hs : seq 0 n = seq 0 c ++ c :: seq (S c) (n - S c)).
  { replace n with (c + S (n - S c)) at 1 by lia. rewrite seq_app. reflexivity. }
  rewrite Hs, flat_map_app. cbn [flat_map].
  assert (Hno : forall l, ~ In c l -> flat_map (fun x => filter (fun r : list value * state => h (fst r) mod n =? c)
      (partial_reduce dec gid (partial_reduce_group_by d g) a (key_class h n x rows))) l = []).
  { intros l Hl. apply flat_map_all_nil. intros p Hp.
    destruct (filter _ _) as [|[k s] m] eqn:E; [reflexivity|]. exfalso.
    assert (Hx : In (k, s) ((k, s) :: m)) by now left. rewrite <- E in Hx. apply filter_In in Hx.
    destruct Hx as [Hx Hy]. apply Hin in Hx. apply Nat.eqb_eq in Hy. cbn in Hy. congruence. }
  rewrite !Hno; [|rewrite in_seq; lia|rewrite in_seq; lia]. rewrite app_nil_r. cbn [app].
  assert (Hall : forall l : list (list value * state), (forall k s, In (k, s) l -> h k mod n = c) ->
    filter (fun r : list value * state => h (fst r) mod n =? c) l = l).
  { induction l as [|[k s] l IH]; cbn; intros H; [reflexivity|].
    rewrite (H k s) by now left. rewrite Nat.eqb_refl. f_equal. apply IH. intros; eapply H; right; eassumption. }
  apply Hall. intros k s Hi. eapply Hin; eauto.
Qed.
Print Assumptions C21_repartitioned_again.

(** Summing per key: the hypotheses of the theorems are met by an ordinary query. *)
Definition sum_by_first : group_by nat := mkGroupBy [column 0 0] [fun _ => 0] [[false]] false.
Definition sum_second : accumulator nat nat nat := mkAcc (fun r => nth 1 r 0) Nat.add (fun s => s).

Example C21_example_hypotheses : plain_group_by sum_by_first /\ order_free sum_second.
Proof. split; [repeat split|]. split; intros; cbn; lia. Qed.

Example C21_example :
  let tasks := [[[[1; 10]; [2; 5]]; [[1; 1]]]; [[[1; 100]]]] in
  let h := fun k => hd 0 k in
  map (fun c => flat_map (sent Nat.eq_dec (fun _ => 0) sum_by_first sum_second h 2 c) tasks) [0; 1]
    = [[([2], 5)]; [([1], 10); ([1], 1); ([1], 100)]] /\
  map (fun c => flat_map (sent_reduced Nat.eq_dec (fun _ => 0) 0 sum_by_first sum_second h 2 c) tasks) [0; 1]
    = [[([2], 5)]; [([1], 11); ([1], 100)]] /\
  final Nat.eq_dec (fun _ => 0) (as_final 0 sum_by_first) sum_second [([1], 11); ([1], 100)] = [([1], 111)].
Proof. repeat split. Qed.

(** With grouping sets (ROLLUP, CUBE) the claim is false: the inserted aggregation keeps all grouping
    sets and, instead of the null literals, column references as null expressions, so every state row
    is counted once per grouping set. Here: GROUP BY ROLLUP(a), COUNT over two rows with a = 5. *)
Definition rollup : group_by nat := mkGroupBy [column 0 0] [fun _ => 0] [[false]; [true]] true.
Definition count : accumulator nat nat nat := mkAcc (fun _ => 1) Nat.add (fun s => s).
Definition mask_id (m : list bool) : nat := match m with [true] => 1 | _ => 0 end.

Theorem C21_grouping_sets_refuted :
  exists (tasks : list (list (list (list nat)))),
    let received := flat_map (sent Nat.eq_dec mask_id rollup count (fun _ => 0) 1 0) tasks in
    let received' := flat_map (sent_reduced Nat.eq_dec mask_id 0 rollup count (fun _ => 0) 1 0) tasks in
    final Nat.eq_dec mask_id (as_final 0 rollup) count received = [([5; 0], 2); ([0; 1], 2)] /\
    single Nat.eq_dec mask_id rollup count (List.concat (List.concat tasks)) = [([5; 0], 2); ([0; 1], 2)] /\
    final Nat.eq_dec mask_id (as_final 0 rollup) count received'
      = [([5; 0], 2); ([5; 1], 2); ([0; 0], 2); ([0; 1], 2)].
Proof. exists [[[[5]; [5]]]]. vm_compute. repeat split. Qed.
Print Assumptions C21_grouping_sets_refuted.

(** ** Where the pass inserts *)

Section TreeInd.
Context {A : Type} (P : @ptree A -> Prop).
Hypothesis HNet : forall i, P i -> P (Net i).
Hypothesis HHash : forall i, P i -> P (HashRepart i).
Hypothesis HAgg : forall m id i, P i -> P (Agg m id i).
Hypothesis HRed : forall id i, P i -> P (PartialReduce id i).
Hypothesis HAny : forall id cs, Forall P cs -> P (Any id cs).
Fixpoint ptree_ind' (p : @ptree A) : P p :=
  match p with
  | Net i => HNet i (ptree_ind' i)
  | HashRepart i => HHash i (ptree_ind' i)
  | Agg m id i => HAgg m id i (ptree_ind' i)
  | PartialReduce id i => HRed id i (ptree_ind' i)
  | Any id cs => HAny id cs ((fix go cs := match cs return Forall P cs with
                                           | [] => Forall_nil _
                                           | c :: cs => Forall_cons c (ptree_ind' c) (go cs)
                                           end) cs)
  end.
End TreeInd.

(** The pass only adds partial-reduce aggregates. *)
Theorem C21_only_adds {A} enabled (p : @ptree A) :
  without_reduces (partial_reduce_below_network_shuffles enabled p) = without_reduces p.
Proof.
  unfold partial_reduce_below_network_shuffles. destruct enabled; [|reflexivity].
  induction p as [i IH|i IH|m id i IH|id i IH|id cs IH] using ptree_ind'; cbn; try congruence.
  - destruct (reduce_pass i) as [i'|i'|m id i'|id i'|id cs]; cbn in *; try congruence.
    destruct i' as [j|j|[] id j|id j|id cs]; cbn in *; congruence.
  - f_equal. rewrite map_map. apply map_ext_in. rewrite Forall_forall in IH. exact IH.
Qed.
Print Assumptions C21_only_adds.

(** Switched on, it inserts at every boundary directly above a hash repartition of a partial aggregate,
    with that aggregate's own grouping, and nowhere else; switched off, the plan is unchanged. *)
Theorem C21_where {A} (p : @ptree A) :
  has_reduce p = false ->
  partial_reduce_below_network_shuffles false p = p /\
  reduces_in_place (partial_reduce_below_network_shuffles true p).
Proof.
  intros H. split; [reflexivity|]. unfold partial_reduce_below_network_shuffles.
  assert (G : reduces_in_place (reduce_pass p) /\
              (forall id i, reduce_pass p <> PartialReduce id i)).
  { induction p as [i IH|i IH|m id i IH|id i IH|id cs IH] using ptree_ind'; cbn [has_reduce] in H; try discriminate.
    - specialize (IH H). destruct IH as [IH IN]. cbn [reduce_pass].
      destruct (reduce_pass i) as [i'|i'|m id i'|id i'|id cs] eqn:E.
      + split; [exact IH|discriminate].
      + destruct i' as [j|j|[] id j|id j|id cs]; split; try discriminate; try exact IH.
        split; [reflexivity|exact IH].
      + split; [exact IH|discriminate].
      + exfalso. eapply IN; reflexivity.
      + split; [exact IH|discriminate].
    - specialize (IH H). cbn. split; [apply IH|discriminate].
    - specialize (IH H). cbn. split; [apply IH|discriminate].
    - cbn. split; [|discriminate]. induction cs as [|c cs IHcs]; cbn; [exact Logic.I|].
      inversion IH as [|? ? Hc Hcs]; subst. cbn in H. apply orb_false_iff in H. destruct H as [H1 H2].
      split; [apply Hc, H1|]. apply IHcs; assumption. }
  apply G.
Qed.
Print Assumptions C21_where.
