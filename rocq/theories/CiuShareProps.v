(** Property theorems for the tasks of a distributed union that are left over after rounding: C07. *)
From Verif Require Import Base NetModel CiuModel CiuSpec CiuProofs CiuFloat CiuProps CiuShareFloat CiuShareProofs.
From Coq Require Import ZArith SpecFloat.

(** What the share of a child loses by being rounded down to a whole number of tasks. *)
Definition remainder (share : f64) : f64 := f64_sub share (f64_floor share).

(** C07. A child runs in at least the whole tasks of its share, up to its cap; and the tasks that are
    left over go to the children with the largest remainders first: a child with a smaller remainder has
    received no more of them than one with a larger remainder, unless that one is at its cap. (A child
    that would have none at all always runs in one, whatever its remainder, hence [1 <].) *)
Theorem C07_largest_remainders_first weights budget result : planner_weights weights budget ->
  split_children weights budget = Ok result ->
  (forall i c s, nth_error weights i = Some c -> nth_error (shares weights budget) i = Some s ->
     capped_floor c s <= run_count result i) /\
  (forall a b ca cb sa sb,
     nth_error weights a = Some ca -> nth_error (shares weights budget) a = Some sa ->
     nth_error weights b = Some cb -> nth_error (shares weights budget) b = Some sb ->
     SFcompare (remainder sb) (remainder sa) = Some Lt -> 1 < run_count result b ->
     run_count result b - capped_floor cb sb <= run_count result a - capped_floor ca sa \/
     cw_max ca = Some (run_count result a)).
Proof.
  intros P E. destruct P as (Hne & Hb & Hall & Hs).
  assert (Hint : Forall integer_weight weights) by (eapply Forall_impl; [|exact Hall]; intros c [H _]; exact H).
  assert (Hv : forallb valid_weight weights = true).
  { apply forallb_forall. rewrite Forall_forall in Hall. intros c Hc. apply integer_weight_valid; apply Hall; assumption. }
  pose proof (integer_floors_fit weights budget Hint Hne Hb Hs) as Fit.
  pose proof (integer_shares_finite weights budget Hint Hne Hb Hs) as Fin.
  unfold split_children in E. destruct (Nat.eqb_spec budget 0); [discriminate|].
  destruct (Nat.eqb_spec (List.length weights) 0); [discriminate|]. rewrite Hv in E. cbn [negb] in E.
  destruct (final_counts_spec weights budget Hv Hne Hb Fit) as (counts & Ec & Hl & Hcap & Hsum & _).
  rewrite Ec in E. cbn [bind] in E.
  destruct (layout_spec counts budget Hsum) as (r & Er & _ & _ & _ & Runs & _).
  rewrite Er in E. injection E as ->.
  set (sh := shares weights budget) in *.
  pose proof (shares_length weights budget) as Lsh. fold sh in Lsh.
  assert (Num : forall i, i < List.length weights -> frac sh i <> S754_nan).
  { intros i Hi. apply remainder_number. apply Fin. apply nth_In. lia. }
  assert (Count : forall i, i < List.length weights -> run_count result i = Nat.max (at0 counts i) 1).
  { intros i Hi. destruct (nth_error counts i) as [k|] eqn:Ek.
    - unfold run_count. rewrite (Runs i k Ek), (at0_nth _ _ _ Ek). unfold all_tasks. rewrite map_length, seq_length. reflexivity.
    - apply nth_error_None in Ek. lia. }
  assert (Init : forall i c s, nth_error weights i = Some c -> nth_error sh i = Some s ->
    at0 (init_counts weights sh) i = capped_floor c s).
  { clear. intros i c s. unfold init_counts. generalize sh as l. revert i. induction weights as [|w ws IH]; intros i l Hw Hl.
    - destruct i; discriminate.
    - destruct l as [|x l]; [destruct i; discriminate|]. destruct i as [|i]; cbn in *.
      + injection Hw as ->. injection Hl as ->. reflexivity.
      + apply IH; assumption. }
  assert (Order : (forall i, at0 (init_counts weights sh) i <= at0 counts i) /\
    (forall a b c, precedes (sort_by (order_le sh) (seq 0 (List.length weights))) a b -> nth_error weights a = Some c ->
      at0 counts b - at0 (init_counts weights sh) b <= at0 counts a - at0 (init_counts weights sh) a \/
      at_cap c (at0 counts a) = true)).
  { unfold final_counts in Ec. fold sh in Ec. destruct (Nat.ltb_spec 0 (budget - list_sum (init_counts weights sh))).
    - eapply hand_out_order; [|exact Ec]. eapply Permutation_NoDup; [apply sort_by_perm|apply seq_NoDup].
    - injection Ec as <-. split; auto. intros; left; lia. }
  destruct Order as (Low & Order). split.
  - intros i c s Hc Hsi. assert (i < List.length weights) by (apply nth_error_Some; congruence).
    rewrite Count by assumption. rewrite <- (Init i c s Hc Hsi). specialize (Low i). lia.
  - intros a b ca cb sa sb Hca Hsa Hcb Hsb Lt Two.
    assert (La : a < List.length weights) by (apply nth_error_Some; congruence).
    assert (Lb : b < List.length weights) by (apply nth_error_Some; congruence).
    assert (Pr : precedes (sort_by (order_le sh) (seq 0 (List.length weights))) a b).
    { apply larger_first; auto. unfold frac.
      rewrite (nth_error_nth _ _ f64_zero Hsa), (nth_error_nth _ _ f64_zero Hsb). exact Lt. }
    rewrite Count in Two by assumption. rewrite !Count by assumption.
    rewrite <- (Init a ca sa Hca Hsa), <- (Init b cb sb Hcb Hsb).
    destruct (Order a b ca Pr Hca) as [H|H].
    + left. pose proof (Low a). lia.
    + right. unfold at_cap in H. destruct (cw_max ca) as [m|] eqn:Em; [|discriminate].
      apply Nat.leb_le in H. f_equal.
      destruct (nth_error counts a) as [k|] eqn:Ek; [|apply nth_error_None in Ek; lia].
      rewrite (at0_nth _ _ _ Ek) in *. pose proof (Hcap a ca k Hca Ek m Em).
      assert (m <> 0); [|lia]. intros ->. rewrite Forall_forall in Hall.
      destruct (Hall ca (nth_error_In _ _ Hca)) as [_ Hz]. congruence.
Qed.
Print Assumptions C07_largest_remainders_first.

(** Seven tasks for children of weights 10, 6 and 4: the shares are 3.5, 2.1 and 1.4, one task is left over
    and goes to the first child. *)
Example C07_largest_remainders_first_met :
  let w := [desired (f64_of_nat 10); desired (f64_of_nat 6); desired (f64_of_nat 4)] in
  planner_weights w 7 /\
  (exists result, split_children w 7 = Ok result /\ map (run_count result) [0; 1; 2] = [4; 2; 1]) /\
  exists s0 s1 s2, shares w 7 = [s0; s1; s2] /\
    map (fun s => floor_as_usize s) [s0; s1; s2] = [3; 2; 1]%N /\
    SFcompare (remainder s1) (remainder s0) = Some Lt /\ SFcompare (remainder s2) (remainder s0) = Some Lt.
Proof.
  intros w. split; [|split].
  - split; [discriminate|]. split; [lia|]. split; [|reflexivity].
    repeat (apply Forall_cons; [split; [apply desired_integer; reflexivity|discriminate]|]). constructor.
  - eexists. split; vm_compute; reflexivity.
  - do 3 eexists. split; [vm_compute; reflexivity|]. repeat split; vm_compute; reflexivity.
Qed.
