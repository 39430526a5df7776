(** Factors between 1 and 2 never make the number of tasks of a consumer zero. *)
From Verif Require Import Base NetModel CiuModel CiuSpec CiuProofs CiuFloat EventsModel JoinModel JoinSpec PlannerModel PlannerSpec
  PlannerProofs TotalSpec.
From Coq Require Import ZArith NArith SpecFloat Reals Lra.
From Flocq Require Import Core BinarySingleNaN Relative.

Local Notation prec := 53%Z.
Local Notation emax := 1024%Z.
Local Instance Hprec : FLX.Prec_gt_0 prec := eq_refl _.
Local Instance Hmax : Prec_lt_emax prec emax := eq_refl _.
Local Instance fexp_valid : Valid_exp (fexp prec emax) := fexp_correct prec emax Hprec.
Local Open Scope R_scope.

Definition inf : f64 := S754_infinity false.

(** Positive, perhaps infinite. *)
Definition pos (x : f64) : Prop := x = inf \/ exists r, rep x r /\ 0 < r.

Lemma rep_min x r : rep x r -> 0 < r -> bpow radix2 (-1074) <= r.
Proof.
  intros (b & _ & F & <-) H. apply generic_format_ge_bpow with (fexp := fexp prec emax).
  - intros e. unfold fexp, SpecFloat.emin. lia.
  - exact H.
  - apply generic_format_B2R.
Qed.

Lemma rnd_pos r : bpow radix2 (-1075) < r -> 0 < rnd r.
Proof.
  intros H. assert (Hr : 0 < r) by (pose proof (bpow_gt_0 radix2 (-1075)); lra).
  destruct (Rle_or_lt (bpow radix2 (-1074)) r) as [Hb|Hb].
  - apply Rlt_le_trans with (bpow radix2 (-1074)); [apply bpow_gt_0|].
    apply round_ge_generic; [exact _|apply valid_rnd_round_mode| |exact Hb]. apply generic_format_bpow. unfold fexp, SpecFloat.emin. lia.
  - pose proof (rnd_nonneg r ltac:(lra)) as Hn. destruct (Req_dec (rnd r) 0) as [E|E]; [|lra]. exfalso.
    pose proof (error_le_half_ulp radix2 (fexp prec emax) (fun n => negb (Z.even n)) r) as He.
    change (round radix2 (fexp prec emax) (Znearest (fun n => negb (Z.even n))) r) with (rnd r) in He. rewrite E in He.
    assert (Eu : ulp radix2 (fexp prec emax) r = bpow radix2 (-1074)).
    { rewrite ulp_neq_0 by lra. f_equal. unfold cexp, fexp, SpecFloat.emin.
      assert (mag radix2 r <= -1074)%Z; [|lia]. apply mag_le_bpow; [lra|]. rewrite Rabs_pos_eq; lra. }
    rewrite Eu in He. replace (0 - r) with (- r) in He by ring. rewrite Rabs_Ropp, Rabs_pos_eq in He by lra.
    replace (/ 2 * bpow radix2 (-1074)) with (bpow radix2 (-1075)) in He; [lra|].
    change (-1075)%Z with (-1 + -1074)%Z. rewrite bpow_plus. reflexivity.
Qed.

Lemma half_min : bpow radix2 (-1074) = 2 * bpow radix2 (-1075).
Proof. change (-1074)%Z with (1 + -1075)%Z. rewrite bpow_plus. reflexivity. Qed.

Lemma overflow_inf sx sy : sx = false -> sy = false -> binary_overflow prec emax mode_NE (xorb sx sy) = inf.
Proof. intros -> ->. reflexivity. Qed.

Lemma positive_sign (b : binary_float prec emax) : is_finite b = true -> 0 < B2R b -> Bsign b = false.
Proof.
  destruct b as [s|s| |s m e B]; cbn; intros F H; try discriminate; [lra|].
  destruct s; [|reflexivity]. exfalso. pose proof (F2R_lt_0 radix2 (Float radix2 (Zneg m) e) ltac:(cbn; lia)). cbn in *. lra.
Qed.

(** Multiplying by a number that is at least one. *)
Lemma pos_mul x y r : pos x -> rep y r -> 1 <= r -> pos (f64_mul x y).
Proof.
  intros [->|(a & Hx & Ha)] Hy Hr.
  - left. destruct Hy as (b & -> & F & E). pose proof (positive_sign b F ltac:(lra)) as Hs.
    destruct b as [s|s| |s m e B]; cbn in *; try discriminate; [subst; lra|]. subst s. reflexivity.
  - pose proof (rep_min x a Hx Ha) as Hmin.
    assert (Hp : 0 < rnd (a * r)).
    { apply rnd_pos. rewrite half_min in Hmin. pose proof (bpow_gt_0 radix2 (-1075)). nra. }
    destruct (Rlt_or_le (Rabs (rnd (a * r))) (bpow radix2 emax)) as [Hi|Hi].
    + right. exists (rnd (a * r)). split; [|exact Hp]. now apply rep_mul.
    + left. destruct Hx as (bx & -> & Fx & Ex). destruct Hy as (b & -> & Fy & Ey).
      rewrite mul_equiv. pose proof (Bmult_correct prec emax Hprec Hmax mode_NE bx b) as H.
      rewrite Ex, Ey in H. rewrite Rlt_bool_false in H by exact Hi. etransitivity; [exact H|]. apply overflow_inf; apply positive_sign; auto; lra.
Qed.

(** Dividing by a number below two. *)
Lemma pos_div x y r : pos x -> rep y r -> 1 <= r < 2 -> pos (f64_div x y).
Proof.
  intros [->|(a & Hx & Ha)] Hy Hr.
  - left. destruct Hy as (b & -> & F & E). pose proof (positive_sign b F ltac:(lra)) as Hs.
    destruct b as [s|s| |s m e B]; cbn in *; try discriminate; [subst; lra|]. subst s. reflexivity.
  - pose proof (rep_min x a Hx Ha) as Hmin.
    assert (Hq : a / r <= a) by (apply Rmult_le_reg_r with r; [lra|]; unfold Rdiv; rewrite Rmult_assoc, Rinv_l by lra; nra).
    assert (Hp : 0 < rnd (a / r)).
    { apply rnd_pos. rewrite half_min in Hmin. pose proof (bpow_gt_0 radix2 (-1075)).
      apply Rmult_lt_reg_r with r; [lra|]. unfold Rdiv. rewrite Rmult_assoc, Rinv_l by lra. nra. }
    right. exists (rnd (a / r)). split; [|exact Hp]. apply rep_div; auto; [lra|].
    unfold in_range_R. rewrite Rabs_pos_eq by lra. apply Rle_lt_trans with (rnd a); [now apply rnd_mono|].
    destruct Hx as (bx & _ & _ & Ex). unfold rnd. rewrite round_generic; [|apply valid_rnd_round_mode|subst a; apply generic_format_B2R].
    rewrite <- Ex. eapply Rle_lt_trans; [apply Rle_abs|]. apply abs_B2R_lt_emax.
Qed.

Lemma pos_max x y : pos x -> pos y -> pos (f64_max x y).
Proof.
  intros Hx Hy. unfold f64_max. destruct x as [s|s| |s m e], y as [s'|s'| |s' m' e']; auto; destruct (f64_lt _ _); auto.
Qed.

Lemma pos_one : pos (f64_of_nat 1).
Proof.
  right. exists (rnd (IZR 1)). split.
  - apply rep_of_Z. unfold in_range_R. rewrite rnd_1, Rabs_R1. change 1 with (bpow radix2 0). apply bpow_lt. lia.
  - rewrite rnd_1. lra.
Qed.

Lemma pos_ceil x : pos x -> (1 <= ceil_as_usize x)%N.
Proof.
  intros [->|(r & (b & -> & F & E) & Hr)]; [cbn; unfold usize_max; lia|].
  subst r. pose proof (positive_sign b F Hr) as Hs. destruct b as [s|s| |s m e B]; cbn in Hs, F; try discriminate; [cbn in Hr; lra|].
  subst s. unfold ceil_as_usize. cbn [B2SF floor_Z negb]. apply N.min_glb; [|unfold usize_max; lia].
  destruct (0 <=? e)%Z eqn:Ee.
  - apply Z.leb_le in Ee. pose proof (Z.pow_pos_nonneg 2 e ltac:(lia) Ee). nia.
  - apply Z.leb_gt in Ee. pose proof (Z.pow_pos_nonneg 2 (- e) ltac:(lia) ltac:(lia)) as Hp.
    assert (Z.neg m / 2 ^ (- e) < 0)%Z; [|lia]. apply Z.div_lt_upper_bound; lia.
Qed.

Section Factor.
Context {row : Type}.
Variable cfg : settings row.
Variable factor : R.
Hypothesis Hfactor : rep (cardinality_task_count_factor cfg) factor.
Hypothesis Hbounds : 1 <= factor < 2.

Lemma pos_scale : forall t : tree row, pos (scale_factor cfg t).
Proof using Hfactor Hbounds.
  induction t as [k cs IH|w m cs IH|b p q n ts i IH] using tree_ind'; [| |exact pos_one].
  all: assert (H : pos (match map (scale_factor cfg) cs with [] => f64_of_nat 1 | x :: xs => fold_left f64_max xs x end)).
  1,3: destruct cs as [|c cs]; [exact pos_one|]; cbn [map]; inversion IH as [|? ? Hc Hcs]; subst; clear IH;
    revert Hc; generalize (scale_factor cfg c) as a; induction Hcs as [|c' cs' Hc' Hcs' IHc]; intros a Ha; [exact Ha|];
    cbn [map fold_left]; apply IHc; now apply pos_max.
  - cbn [scale_factor]. destruct (effect_of cfg k); auto.
    + eapply pos_div; eauto.
    + eapply pos_mul; eauto. lra.
  - exact H.
Qed.

Lemma factor_keeps_tasks : keeps_tasks cfg.
Proof using Hfactor Hbounds.
  intros plan tasks Ht Hz. unfold consumer_task_count.
  assert (H : (1 <= ceil_as_usize (f64_mul (scale_factor cfg plan) (f64_of_nat tasks)))%N); [|lia].
  apply pos_ceil. apply pos_mul with (r := IZR (Z.of_nat tasks)); [apply pos_scale| |].
  - unfold f64_of_nat. rewrite <- (rnd_Z (Z.of_nat tasks)) by lia. apply rep_of_Z. unfold in_range_R. rewrite rnd_Z by lia.
    rewrite Rabs_pos_eq by (apply IZR_le; lia). apply Rlt_trans with (IZR (2 ^ 53)); [apply IZR_lt; exact Hz|].
    change (IZR (2 ^ 53)) with (bpow radix2 53). apply bpow_lt. lia.
  - apply IZR_le. lia.
Qed.
End Factor.

(** The doubles in [1, 2) are the m * 2^-52 with 2^52 <= m < 2^53. *)
Lemma rep_one_two m : (2 ^ 52 <= Zpos m < 2 ^ 53)%Z ->
  exists r, rep (S754_finite false m (-52)) r /\ (1 <= r < 2)%R.
Proof.
  intros Hm.
  assert (Hb : SpecFloat.bounded 53 1024 m (-52) = true).
  { unfold SpecFloat.bounded, SpecFloat.canonical_mantissa. apply andb_true_intro. split; [|reflexivity].
    apply Zeq_bool_true. unfold SpecFloat.fexp, SpecFloat.emin.
    assert (D : Z.pos (SpecFloat.digits2_pos m) = 53%Z).
    { change (Z.pos (SpecFloat.digits2_pos m)) with (Z.pos (Digits.digits2_pos m)).
      rewrite Digits.Zpos_digits2_pos. apply Digits.Zdigits_unique. cbn [radix_val radix2].
      rewrite Z.abs_eq by lia. exact Hm. }
    change (Z.pos (digits2_pos m)) with (Z.pos (SpecFloat.digits2_pos m)). rewrite D. reflexivity. }
  exists (B2R (B754_finite false m (-52) Hb : binary_float 53 1024)). split.
  - exists (B754_finite false m (-52) Hb). repeat split.
  - cbn [B2R]. unfold Defs.F2R, SpecFloat.cond_Zopp. cbn [Defs.Fnum Defs.Fexp].
    assert (H1 : (IZR (2 ^ 52) <= IZR (Z.pos m))%R) by (apply IZR_le; lia).
    assert (H2 : (IZR (Z.pos m) < IZR (2 ^ 53))%R) by (apply IZR_lt; lia).
    change (bpow radix2 (-52)) with (/ IZR (2 ^ 52))%R.
    assert (H3 : (0 < IZR (2 ^ 52))%R) by (apply IZR_lt; reflexivity).
    replace (IZR (2 ^ 53)) with (2 * IZR (2 ^ 52))%R in H2 by (rewrite <- mult_IZR; reflexivity).
    split.
    + apply Rmult_le_reg_r with (IZR (2 ^ 52)); [exact H3|]. rewrite Rmult_assoc, Rinv_l by lra. lra.
    + apply Rmult_lt_reg_r with (IZR (2 ^ 52)); [exact H3|]. rewrite Rmult_assoc, Rinv_l by lra. lra.
Qed.
