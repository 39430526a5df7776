(** The remainders of the shares of the planner's weights are numbers: lemmas. *)
From Verif Require Import Base NetModel CiuModel CiuSpec CiuProofs CiuFloat.
From Coq Require Import ZArith SpecFloat Reals Lra.
From Flocq Require Import Core BinarySingleNaN.

Local Notation prec := 53%Z.
Local Notation emax := 1024%Z.
Local Instance Hprec' : FLX.Prec_gt_0 prec := eq_refl _.
Local Instance Hmax' : Prec_lt_emax prec emax := eq_refl _.

Lemma normalize_number m e sz : SpecFloat.binary_normalize prec emax m e sz <> S754_nan.
Proof.
  rewrite normalize_equiv. intro H.
  pose proof (is_nan_binary_normalize prec emax CiuFloat.Hprec CiuFloat.Hmax mode_NE m e sz) as N.
  rewrite <- is_nan_SF_B2SF, H in N. discriminate.
Qed.

Lemma remainder_number x : f64_is_finite x = true -> f64_sub x (f64_floor x) <> S754_nan.
Proof.
  destruct x as [s| | |s m e]; try discriminate; intros _; cbn [f64_floor].
  - cbn. destruct s; discriminate.
  - pose proof (normalize_number (floor_Z (S754_finite s m e)) 0 s) as N.
    destruct (SpecFloat.binary_normalize prec emax (floor_Z (S754_finite s m e)) 0 s) as [s'|s'| |s' m' e'];
      [| |congruence|]; unfold f64_sub, SFsub; try discriminate.
    apply normalize_number.
Qed.

Lemma rep_finite x r : rep x r -> f64_is_finite x = true.
Proof. intros (b & -> & Fb & _). destruct b; try discriminate; reflexivity. Qed.

Local Open Scope R_scope.

Lemma share_finite (budget : nat) f w tf t :
  (0 < Z.of_nat budget <= 2 ^ 53)%Z ->
  rep (f64_of_nat budget) (IZR (Z.of_nat budget)) ->
  rep f w -> nice w -> rep tf t -> 1 <= t ->
  f64_is_finite (f64_div (f64_mul (f64_of_nat budget) f) tf) = true.
Proof.
  intros Hb HB Hf Hw Ht Ht1.
  pose proof (nice_nonneg _ Hw) as Hw0. destruct Hw as [Hw01 Hwle].
  assert (HB1 : 1 <= IZR (Z.of_nat budget)) by (apply IZR_le; lia).
  set (B := IZR (Z.of_nat budget)) in *.
  assert (HBw01 : B * w = 0 \/ 1 <= B * w) by (destruct Hw01; [left; subst; ring|right; nra]).
  assert (HBw0 : 0 <= B * w) by (destruct HBw01; lra).
  assert (HBwle : B * w <= IZR (Z.of_nat budget * 2 ^ 64)).
  { rewrite mult_IZR. fold B. apply Rmult_le_compat_l; [lra|assumption]. }
  assert (HBw : rep (f64_mul (f64_of_nat budget) f) (rnd (B * w))).
  { apply rep_mul; auto. apply in_range_small with (Z.of_nat budget) 64%Z; auto; lia. }
  assert (Hp0 : 0 <= rnd (B * w)) by now apply rnd_nonneg.
  assert (Hple : rnd (B * w) <= IZR (Z.of_nat budget * 2 ^ 64)).
  { rewrite <- rnd_scaled by lia. now apply rnd_mono. }
  assert (Hti : 0 < / t <= 1).
  { split; [apply Rinv_0_lt_compat; lra|]. rewrite <- Rinv_1. apply Rinv_le_contravar; lra. }
  assert (Hd0 : 0 <= rnd (B * w) / t) by (apply Rmult_le_pos; lra).
  apply rep_finite with (rnd (rnd (B * w) / t)).
  apply rep_div; auto; [lra|].
  apply in_range_small with (Z.of_nat budget) 64%Z; auto; [lia|lia|].
  apply Rle_trans with (2 := Hple). unfold Rdiv. rewrite <- (Rmult_1_r (rnd (B * w))) at 2.
  apply Rmult_le_compat_l; lra.
Qed.

Theorem integer_shares_finite children budget :
  Forall integer_weight children -> children <> [] -> (0 < budget)%nat ->
  (Z.of_nat budget * (2 * Z.of_nat (List.length children) + 3) < 2 ^ 53)%Z ->
  forall s, In s (shares children budget) -> f64_is_finite s = true.
Proof.
  intros Hint Hne Hb Hsmall.
  destruct (integer_weights_rep children Hint) as (ws & Hrep & Hnice).
  assert (Hlw : List.length ws = List.length children).
  { clear - Hrep. remember (map weight children) as fs eqn:E. revert children E.
    induction Hrep; intros [|c cs] E; try discriminate; cbn in *; auto.
    injection E as -> ->. f_equal. eapply IHHrep; eauto. }
  remember (List.length children) as n eqn:En.
  assert (Hn : (0 < n)%nat) by (destruct children; [contradiction|cbn in En; lia]).
  assert (Hn53 : (Z.of_nat n <= 2 ^ 53)%Z) by nia.
  assert (Hb53 : (Z.of_nat budget <= 2 ^ 53)%Z) by nia.
  destruct (total_aux ws (map weight children) f64_zero 0 0) as (t & Ht & Ht01 & Htl & Htz & Htu);
    auto using rep_zero; [lia|cbn; lra|lia|].
  fold (total_weight children) in Ht.
  destruct (rep_weight (Z.of_nat budget)) as (B & HB & _ & _ & _ & HBv); [lia|].
  specialize (HBv Hb53). subst B.
  assert (HB1 : 1 <= IZR (Z.of_nat budget)) by (apply IZR_le; lia).
  assert (Hn1 : 1 <= IZR (Z.of_nat n)) by (apply IZR_le; lia).
  unfold shares. rewrite <- En. rewrite (lt_zero_rep _ _ Ht).
  destruct (Rlt_bool_spec 0 t) as [Htpos|Htneg].
  - assert (Ht1 : 1 <= t) by (destruct Ht01; lra).
    intros s Hin. apply in_map_iff in Hin as (c & <- & Hc).
    assert (exists w, rep (weight c) w /\ nice w) as (w & Hw & Hnw).
    { clear - Hrep Hnice Hc. remember (map weight children) as fs eqn:E. revert children E Hc.
      induction Hrep as [|f w fs ws Hfw Hrep IH]; intros [|c' cs] E Hc; try discriminate; [contradiction|].
      cbn in E. injection E as -> ->. inversion Hnice; subst. destruct Hc as [->|Hc]; [eauto|eapply IH; eauto]. }
    eapply share_finite; eauto. lia.
  - intros s Hin. apply repeat_spec in Hin. subst s.
    destruct (rep_weight (Z.of_nat n)) as (N' & HN & _ & _ & _ & HNv); [lia|].
    specialize (HNv Hn53). subst N'.
    assert (Hni : 0 < / IZR (Z.of_nat n) <= 1).
    { split; [apply Rinv_0_lt_compat; lra|]. rewrite <- Rinv_1. apply Rinv_le_contravar; lra. }
    assert (Hd0 : 0 <= IZR (Z.of_nat budget) / IZR (Z.of_nat n)) by (apply Rmult_le_pos; lra).
    apply rep_finite with (rnd (IZR (Z.of_nat budget) / IZR (Z.of_nat n))).
    apply rep_div; auto; [lra|].
    apply in_range_small with (Z.of_nat budget) 0%Z; auto; [lia|lia|].
    rewrite Z.mul_1_r. unfold Rdiv. rewrite <- (Rmult_1_r (IZR (Z.of_nat budget))) at 2.
    apply Rmult_le_compat_l; lra.
Qed.
