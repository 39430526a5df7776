From Verif Require Import Base MetricsModel MetricsSpec.
From Coq Require Import NArith Lia Permutation.
Local Open Scope N_scope.

(** ** Kinds whose [aggregate] is associative and commutative, with [new] as its unit *)
Section Monoid.
Variable k : metric.
Variable unit_of : N -> counters k.
Hypothesis record_is : forall n s, record k n s = aggregate k s (unit_of n).
Hypothesis assoc : forall a b c, aggregate k a (aggregate k b c) = aggregate k (aggregate k a b) c.
Variable good : counters k -> Prop.
Hypothesis good_new : good (new k).
Hypothesis good_unit : forall n, n < word -> good (unit_of n).
Hypothesis good_aggregate : forall a b, good a -> good b -> good (aggregate k a b).
Hypothesis left_unit : forall a, good a -> aggregate k (new k) a = a.
Hypothesis right_unit : forall a, good a -> aggregate k a (new k) = a.
Hypothesis comm : forall a b, aggregate k a b = aggregate k b a.

Definition all_of (l : list N) : counters k := fold_right (fun n s => aggregate k (unit_of n) s) (new k) l.
Lemma all_good l : Forall (fun n => n < word) l -> good (all_of l).
Proof. induction 1; cbn; auto. Qed.
Lemma fold_all l : forall s, good s -> Forall (fun n => n < word) l -> fold_left (fun s n => record k n s) l s = aggregate k s (all_of l).
Proof.
  induction l as [|n l IH]; intros s Hs HF; cbn [fold_left all_of fold_right]; [now rewrite right_unit|].
  inversion HF; subst. rewrite record_is. rewrite IH; [now rewrite assoc|auto|assumption].
Qed.
Lemma all_app a b : Forall (fun n => n < word) b -> all_of (a ++ b) = aggregate k (all_of a) (all_of b).
Proof. intros HF. induction a as [|n a IH]; cbn [app all_of fold_right]; [symmetry; apply left_unit; now apply all_good|]. change (fold_right _ _ (a ++ b)) with (all_of (a ++ b)). rewrite IH. apply assoc. Qed.
Lemma merged_all m : Forall (fun n => n < word) (recordings m) -> merged k m = all_of (recordings m).
Proof.
  induction m as [l| |a IHa b IHb]; cbn [merged recordings]; intros HF.
  - rewrite fold_all; auto. apply left_unit. now apply all_good.
  - reflexivity.
  - apply Forall_app in HF as [Ha Hb]. rewrite IHa, IHb, all_app; auto.
Qed.
Lemma all_permutation a b : Permutation a b -> all_of a = all_of b.
Proof.
  induction 1 as [|x a b _ IH|x y a|a b c _ IH1 _ IH2]; cbn [all_of fold_right]; [reflexivity|now f_equal| |congruence].
  fold (all_of a). rewrite !assoc. now rewrite (comm (unit_of y)).
Qed.
Lemma merged_permutation a b : Forall (fun n => n < word) (recordings a) -> Permutation (recordings a) (recordings b) -> merged k a = merged k b.
Proof.
  intros HF HP. rewrite !merged_all; auto; [now apply all_permutation|]. now apply (Permutation_Forall HP).
Qed.
End Monoid.

Lemma duration_max n : N.max n 1 = duration n.
Proof. unfold duration. destruct (N.eqb_spec n 0); lia. Qed.
Lemma wrap_add_l a b : wrap (wrap a + b) = wrap (a + b).
Proof. unfold wrap. rewrite N.add_mod_idemp_l by discriminate. reflexivity. Qed.
Lemma wrap_add_r a b : wrap (a + wrap b) = wrap (a + b).
Proof. unfold wrap. rewrite N.add_mod_idemp_r by discriminate. reflexivity. Qed.
Lemma wrap_small a : a < word -> wrap a = a.
Proof. apply N.mod_small. Qed.
Lemma wrap_bound a : wrap a < word.
Proof. now apply N.mod_lt. Qed.

Lemma min_all m : words m -> merged min_latency m = all_of min_latency duration (recordings m).
Proof.
  apply (merged_all min_latency duration) with (good := fun a => a < word); cbn [counters record aggregate new min_latency]; intros; rewrite ?duration_max; try reflexivity; unfold word in *; try lia.
  unfold duration. destruct (N.eqb_spec n 0); lia.
Qed.
Lemma max_all m : words m -> merged max_latency m = all_of max_latency duration (recordings m).
Proof.
  apply (merged_all max_latency duration) with (good := fun a => True); cbn [counters record aggregate new max_latency]; intros; rewrite ?duration_max; try reflexivity; try exact I; lia.
Qed.
Lemma gauge_all m : words m -> merged max_gauge m = all_of max_gauge (fun n => n) (recordings m).
Proof. apply (merged_all max_gauge (fun n => n)) with (good := fun a => True); cbn [counters record aggregate new max_gauge]; intros; try reflexivity; try exact I; lia. Qed.
Lemma bytes_all m : words m -> merged bytes_counter m = all_of bytes_counter (fun n => n) (recordings m).
Proof.
  apply (merged_all bytes_counter (fun n => n)) with (good := fun a => a < word); cbn [counters record aggregate new bytes_counter]; intros; try reflexivity.
  - rewrite wrap_add_l, wrap_add_r. f_equal. lia.
  - assumption.
  - apply wrap_bound.
  - rewrite N.add_0_l. now apply wrap_small.
  - rewrite N.add_0_r. now apply wrap_small.
Qed.
Lemma avg_all m : words m -> merged avg_latency m = all_of avg_latency (fun n => (duration n, 1)) (recordings m).
Proof.
  apply (merged_all avg_latency (fun n => (duration n, 1))) with (good := fun a => fst a < word /\ snd a < word); cbn [counters record aggregate new avg_latency fst snd]; intros; rewrite ?duration_max; try reflexivity.
  - rewrite !wrap_add_l, !wrap_add_r. f_equal; f_equal; lia.
  - split; reflexivity.
  - split; [|reflexivity]. unfold duration. destruct (N.eqb_spec n 0); [reflexivity|assumption].
  - split; apply wrap_bound.
  - destruct a as [s c]. cbn [fst snd] in *. rewrite !N.add_0_l. now rewrite !wrap_small by tauto.
  - destruct a as [s c]. cbn [fst snd] in *. rewrite !N.add_0_r. now rewrite !wrap_small by tauto.
Qed.

Lemma min_of l : Forall (fun n => n < word) l ->
  match l with [] => all_of min_latency duration l = word - 1 | _ => smallest (all_of min_latency duration l) (map duration l) end.
Proof.
  induction l as [|n l IH]; intros HF; [reflexivity|]. inversion HF as [|? ? Hn HF']; subst. specialize (IH HF').
  change (all_of min_latency duration (n :: l)) with (N.min (duration n) (all_of min_latency duration l)).
  assert (D : duration n < word) by (unfold duration; destruct (N.eqb_spec n 0); [reflexivity|assumption]).
  destruct l as [|n' l].
  - rewrite IH. cbn [map]. rewrite N.min_l by (unfold word in *; lia). split; [now left|]. intros x [<-|[]]. lia.
  - destruct IH as [HI HL]. remember (n' :: l) as l'. cbn [map]. split.
    + destruct (N.min_spec (duration n) (all_of min_latency duration l')) as [[_ ->]|[_ ->]]; [now left|now right].
    + intros x [<-|Hx]; [lia|]. specialize (HL x Hx). cbn [counters min_latency] in *. lia.
Qed.
Lemma max_of l (f : N -> N) : forall v, v = fold_right (fun n s => N.max (f n) s) 0 l -> match l with [] => v = 0 | _ => largest v (map f l) end.
Proof.
  induction l as [|n l IH]; intros v ->; [reflexivity|]. cbn [fold_right]. specialize (IH _ eq_refl). set (w := fold_right _ 0 l) in *. destruct l as [|n' l].
  - rewrite IH. cbn [map]. rewrite N.max_0_r. split; [now left|]. intros x [<-|[]]. lia.
  - destruct IH as [HI HL]. remember (n' :: l) as l'. cbn [map]. split.
    + destruct (N.max_spec (f n) w) as [[_ ->]|[_ ->]]; [now right|now left].
    + intros x [<-|Hx]; [lia|]. specialize (HL x Hx). lia.
Qed.
Lemma bytes_of l : all_of bytes_counter (fun n => n) l = wrap (total l).
Proof. induction l as [|n l IH]; [reflexivity|]. change (all_of bytes_counter _ (n :: l)) with (wrap (n + all_of bytes_counter (fun n => n) l)). rewrite IH, wrap_add_r. reflexivity. Qed.
Lemma avg_of l : all_of avg_latency (fun n => (duration n, 1)) l = (wrap (total (map duration l)), wrap (N.of_nat (List.length l))).
Proof.
  induction l as [|n l IH]; [reflexivity|].
  change (all_of avg_latency _ (n :: l)) with (aggregate avg_latency (duration n, 1) (all_of avg_latency (fun n => (duration n, 1)) l)). rewrite IH.
  cbn [aggregate avg_latency fst snd]. rewrite !wrap_add_r. cbn [map total fold_right List.length]. do 2 f_equal. lia.
Qed.
Lemma total_permutation a b : Permutation a b -> total a = total b.
Proof. induction 1; cbn [total fold_right] in *; unfold total in *; lia. Qed.
Lemma first_of m : merged first_latency m = match firsts m with n :: _ => duration n | [] => 0 end.
Proof.
  induction m as [l| |a IHa b IHb]; cbn [merged firsts]; [|reflexivity|].
  - destruct l as [|n l]; [reflexivity|]. cbn [fold_left]. change (record first_latency n (new first_latency)) with (N.max n 1). rewrite duration_max.
    assert (D : duration n <> 0) by (unfold duration; destruct (N.eqb_spec n 0); lia). revert D. generalize (duration n). clear n.
    induction l as [|x l IH]; intros d D; [reflexivity|]. cbn [fold_left]. replace (record first_latency x d) with d; [now apply IH|].
    cbn [record first_latency]. now rewrite (proj2 (N.eqb_neq d 0) D).
  - rewrite IHa, IHb. cbn [aggregate first_latency]. destruct (firsts a) as [|n l]; [reflexivity|]. cbn [app].
    assert (D : duration n <> 0) by (unfold duration; destruct (N.eqb_spec n 0); lia). now rewrite (proj2 (N.eqb_neq _ 0) D).
Qed.
