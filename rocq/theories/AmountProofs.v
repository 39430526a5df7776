(** How the console writes amounts: lemmas. *)
From Coq Require Import ZArith NArith SpecFloat Reals Lra.
From Verif Require Import Base CiuModel CiuFloat AmountModel.
From Flocq Require Import Core BinarySingleNaN.

Local Notation prec := 53%Z.
Local Notation emax := 1024%Z.
Local Open Scope R_scope.

Notation near := (Znearest (fun t => negb (Z.even t))).

Lemma nearest_near num den : (0 < den)%Z -> nearest num den = near (IZR num / IZR den).
Proof.
  intros Hd. assert (HdR : 0 < IZR den) by now apply IZR_lt.
  unfold nearest, Znearest. rewrite Zfloor_div by lia.
  assert (E : IZR num / IZR den - IZR (num / den) = IZR (num mod den) / IZR den).
  { rewrite (Z.div_mod num den) at 1 by lia. rewrite plus_IZR, mult_IZR. field. lra. }
  rewrite E.
  assert (C : Rcompare (IZR (num mod den) / IZR den) (/ 2) = (2 * (num mod den) ?= den)%Z).
  { rewrite <- (Rcompare_mult_r (2 * IZR den)) by lra.
    replace (IZR (num mod den) / IZR den * (2 * IZR den)) with (IZR (2 * (num mod den))) by (rewrite mult_IZR; field; lra).
    replace (/ 2 * (2 * IZR den)) with (IZR den) by field. apply Rcompare_IZR. }
  rewrite C.
  assert (Hc : (num mod den <> 0)%Z -> Zceil (IZR num / IZR den) = (num / den + 1)%Z).
  { intros Hr. rewrite Zceil_floor_neq; rewrite Zfloor_div by lia; [reflexivity|].
    intro X. assert (Y : IZR (num mod den) / IZR den = 0) by (rewrite <- E; lra).
    apply Hr. apply eq_IZR. apply Rmult_eq_reg_r with (/ IZR den); [|apply Rinv_neq_0_compat; lra].
    unfold Rdiv in Y. rewrite Y. ring. }
  destruct (Z.compare_spec (2 * (num mod den)) den) as [H|H|H]; [|reflexivity|].
  - rewrite Hc by lia. destruct (Z.even (num / den)); reflexivity.
  - rewrite Hc by lia. reflexivity.
Qed.

Lemma to_nearest_near k m e : to_nearest k m e = near (IZR k * F2R (Float radix2 (Zpos m) e)).
Proof.
  unfold to_nearest, F2R. cbn [Fnum Fexp]. destruct (Z.leb_spec 0 e) as [H|H].
  - rewrite <- (IZR_Zpower radix2) by assumption. rewrite <- !mult_IZR. rewrite Zrnd_IZR; [reflexivity|apply valid_rnd_N].
  - rewrite nearest_near by (apply Z.pow_pos_nonneg; lia). f_equal. rewrite mult_IZR. unfold Rdiv. rewrite Rmult_assoc. f_equal. f_equal.
    rewrite <- (Z.opp_involutive e) at 2. rewrite bpow_opp. f_equal. rewrite <- (IZR_Zpower radix2) by lia. reflexivity.
Qed.

Lemma fixed_near k digits x r : (0 < k)%Z -> rep x r -> 0 < r -> fixed k digits x = digits (near (IZR k * r)).
Proof.
  intros Hk (b & -> & Fb & <-) Hr. destruct b as [s|s| |s m e Hb]; try discriminate; [cbn in Hr; lra|].
  destruct s; [exfalso; assert (B2R (B754_finite true m e Hb) < 0); [apply F2R_lt_0; reflexivity|lra]|].
  cbn [B2SF fixed sign_text]. rewrite to_nearest_near. reflexivity.
Qed.

Lemma as_f64_rep n : (n < 2 ^ 64)%N -> rep (as_f64 n) (rnd (IZR (Z.of_N n))).
Proof.
  intros H. apply rep_of_Z. apply in_range_small with 1%Z 64%Z; [lia|lia|apply IZR_le; lia|apply IZR_le].
  change (1 * 2 ^ 64)%Z with (Z.of_N (2 ^ 64)). lia.
Qed.
Lemma as_f64_exact n : (n <= 2 ^ 53)%N -> rep (as_f64 n) (IZR (Z.of_N n)).
Proof.
  intros H. rewrite <- (rnd_Z (Z.of_N n)).
  - apply as_f64_rep. eapply N.le_lt_trans; [exact H|]. reflexivity.
  - rewrite Z.abs_eq by lia. change (2 ^ 53)%Z with (Z.of_N (2 ^ 53)). lia.
Qed.

(** A number of value [a] divided by a unit that is not larger. *)
Lemma quotient x a U : rep x a -> (0 < U <= 2 ^ 53)%N -> IZR (Z.of_N U) <= a <= IZR (2 ^ 64) ->
  rep (f64_div x (as_f64 U)) (rnd (a / IZR (Z.of_N U))) /\ 1 <= a / IZR (Z.of_N U).
Proof.
  intros Hx HU Ha. assert (U1 : 1 <= IZR (Z.of_N U)) by (apply IZR_le; lia).
  assert (Hi : 0 < / IZR (Z.of_N U) <= 1).
  { split; [apply Rinv_0_lt_compat; lra|]. rewrite <- Rinv_1. apply Rinv_le_contravar; lra. }
  assert (Q1 : 1 <= a / IZR (Z.of_N U)).
  { apply Rmult_le_reg_r with (IZR (Z.of_N U)); [lra|]. unfold Rdiv. rewrite Rmult_assoc, Rinv_l by lra. lra. }
  split; [|exact Q1]. apply rep_div; [exact Hx|apply as_f64_exact; lia|lra|].
  apply in_range_small with 1%Z 64%Z; [lia|lia|lra|]. rewrite Z.mul_1_l. unfold Rdiv.
  apply Rle_trans with (a * 1); [apply Rmult_le_compat_l; lra|lra].
Qed.

Lemma rnd_close x : 1 <= x -> Rabs (rnd x - x) <= u * x.
Proof. intros H. apply rel_error. lra. Qed.

Definition tenths_of (U : N) (a : R) : Z := near (10 * rnd (a / IZR (Z.of_N U))).

Lemma fixed1_quotient x a U : rep x a -> (0 < U <= 2 ^ 53)%N -> IZR (Z.of_N U) <= a <= IZR (2 ^ 64) ->
  fixed1 (f64_div x (as_f64 U)) = in_tenths (tenths_of U a).
Proof.
  intros Hx HU Ha. destruct (quotient x a U Hx HU Ha) as (R & Q1). unfold fixed1.
  rewrite (fixed_near 10 in_tenths _ _ eq_refl R).
  - reflexivity.
  - apply Rlt_le_trans with 1; [lra|]. rewrite <- rnd_1. now apply rnd_mono.
Qed.

Lemma tenths_mono U a a' : (0 < U)%N -> a <= a' -> (tenths_of U a <= tenths_of U a')%Z.
Proof.
  intros HU Ha. unfold tenths_of. apply Zrnd_le; [apply valid_rnd_N|]. apply Rmult_le_compat_l; [lra|]. apply rnd_mono.
  apply Rmult_le_compat_r; [|exact Ha]. apply Rlt_le, Rinv_0_lt_compat, IZR_lt. lia.
Qed.

Lemma u_small : u <= / 9000000000000000.
Proof. unfold u. apply Rinv_le_contravar; [lra|]. apply IZR_le. vm_compute. discriminate. Qed.

(** The number written, in tenths of the unit, is off by at most 6 hundredths of the unit if the amount was off by at most a
    relative [u]. *)
Lemma tenths_close U a b : (1000 <= U <= 2 ^ 53)%N -> IZR (Z.of_N U) <= a -> 0 <= b -> Rabs (a - b) <= u * b -> b <= IZR (2 ^ 64) ->
  (2 ^ 64 <= U * 20000000000000)%N \/ b < 1000000000 ->
  Rabs (IZR (tenths_of U a) * IZR (Z.of_N U) - 10 * b) <= 6 / 10 * IZR (Z.of_N U).
Proof.
  intros HU Ha Hb0 Hab Hb Hlim. set (V := IZR (Z.of_N U)) in *.
  assert (V1 : 1000 <= V) by (unfold V; apply IZR_le; lia).
  assert (Hh : Rabs (10 * rnd (a / V) - IZR (tenths_of U a)) <= / 2) by apply Znearest_half.
  assert (Q1 : 1 <= a / V).
  { apply Rmult_le_reg_r with V; [lra|]. unfold Rdiv. rewrite Rmult_assoc, Rinv_l by lra. lra. }
  pose proof (rnd_close _ Q1) as Hr. pose proof u_pos as U0. pose proof u_small as Us.
  apply Rabs_le_inv in Hab. apply Rabs_le_inv in Hr. apply Rabs_le_inv in Hh.
  assert (Ea : a / V * V = a) by (field; lra).
  set (q := a / V) in *. set (r := rnd q) in *. set (t := IZR (tenths_of U a)) in *.
  assert (Hub : u * b <= / 400 * V /\ u * a <= / 200 * V).
  { assert (u * b <= / 400 * V).
    { destruct Hlim as [Hl|Hl].
      - apply N2Z.inj_le, IZR_le in Hl. rewrite N2Z.inj_mul, mult_IZR in Hl. fold V in Hl.
        change (Z.of_N (2 ^ 64)) with (2 ^ 64)%Z in Hl. change (IZR (Z.of_N 20000000000000)) with 20000000000000 in Hl.
        apply Rle_trans with (/ 9000000000000000 * (V * 20000000000000)); [|lra].
        apply Rmult_le_compat; lra.
      - apply Rle_trans with (/ 9000000000000000 * 1000000000); [apply Rmult_le_compat; lra|lra]. }
    split; [assumption|]. apply Rle_trans with (u * (b + u * b)); [apply Rmult_le_compat_l; lra|].
    assert (0 <= u * b) by (apply Rmult_le_pos; lra). assert (u * (u * b) <= 1 * (u * b)) by (apply Rmult_le_compat_r; lra). lra. }
  destruct Hub as [Hub Hua].
  assert (B1 : Rabs (t * V - 10 * r * V) <= / 2 * V).
  { rewrite <- Rmult_minus_distr_r, Rabs_mult, (Rabs_pos_eq V) by lra. apply Rmult_le_compat_r; [lra|]. apply Rabs_le. lra. }
  assert (B2 : Rabs (r * V - a) <= u * a).
  { replace (r * V - a) with ((r - q) * V) by (rewrite Rmult_minus_distr_r, Ea; ring).
    rewrite Rabs_mult, (Rabs_pos_eq V) by lra. rewrite <- Ea at 1. rewrite <- Rmult_assoc. apply Rmult_le_compat_r; [lra|].
    apply Rabs_le. lra. }
  apply Rabs_le_inv in B1. apply Rabs_le_inv in B2. apply Rabs_le. lra.
Qed.

Lemma of_IZR_close t (U b : N) : Rabs (IZR t * IZR (Z.of_N U) - 10 * IZR (Z.of_N b)) <= 6 / 10 * IZR (Z.of_N U) ->
  (10 * Z.abs (t * Z.of_N U - 10 * Z.of_N b) <= 6 * Z.of_N U)%Z.
Proof.
  intros H. apply le_IZR. rewrite !mult_IZR, abs_IZR, minus_IZR, !mult_IZR. lra.
Qed.

(** A machine number. *)
Lemma number_close (b : N) : (1 <= b < 2 ^ 64)%N -> Rabs (rnd (IZR (Z.of_N b)) - IZR (Z.of_N b)) <= u * IZR (Z.of_N b).
Proof. intros H. apply rnd_close. apply IZR_le. lia. Qed.

Lemma number_range (U b : N) : (U <= 2 ^ 53)%N -> (U <= b < 2 ^ 64)%N ->
  IZR (Z.of_N U) <= rnd (IZR (Z.of_N b)) <= IZR (2 ^ 64).
Proof.
  intros HU H. split.
  - rewrite <- (rnd_Z (Z.of_N U)). 2: { rewrite Z.abs_eq by lia. change (2 ^ 53)%Z with (Z.of_N (2 ^ 53)). lia. }
    apply rnd_mono. apply IZR_le. lia.
  - change (2 ^ 64)%Z with (1 * 2 ^ 64)%Z. rewrite <- (rnd_scaled 1 64) by lia. apply rnd_mono. apply IZR_le. change (1 * 2 ^ 64)%Z with (Z.of_N (2 ^ 64)). lia.
Qed.

Lemma amount (U : N) : (1000 <= U <= 2 ^ 53)%N ->
  exists t : N -> Z,
  (forall b, (U <= b < 2 ^ 64)%N -> fixed1 (f64_div (as_f64 b) (as_f64 U)) = in_tenths (t b) /\
     ((2 ^ 64 <= U * 20000000000000)%N \/ (b < 1000000000)%N -> (10 * Z.abs (t b * Z.of_N U - 10 * Z.of_N b) <= 6 * Z.of_N U)%Z)) /\
  (forall b b', (b <= b')%N -> (t b <= t b')%Z).
Proof.
  intros HU. exists (fun b => tenths_of U (rnd (IZR (Z.of_N b)))). split.
  - intros b Hb. pose proof (number_range U b (proj2 HU) Hb) as Hr. split.
    + apply fixed1_quotient; [apply as_f64_rep; lia|lia|exact Hr].
    + intros Hl. apply of_IZR_close. apply tenths_close; [exact HU|apply Hr|apply IZR_le; lia|apply number_close; lia| |].
      * apply IZR_le. change (2 ^ 64)%Z with (Z.of_N (2 ^ 64)). lia.
      * destruct Hl as [Hl|Hl]; [left; exact Hl|right]. apply (IZR_lt (Z.of_N b) 1000000000). lia.
  - intros b b' H. apply tenths_mono; [lia|]. apply rnd_mono, IZR_le. lia.
Qed.

(** ** Comparisons *)
Lemma leb_rep x y a b : rep x a -> rep y b -> SFleb x y = Rle_bool a b.
Proof.
  intros (bx & -> & Fx & <-) (by_ & -> & Fy & <-). exact (Bleb_correct prec emax bx by_ Fx Fy).
Qed.
Lemma ltb_rep x y a b : rep x a -> rep y b -> SFltb x y = Rlt_bool a b.
Proof.
  intros (bx & -> & Fx & <-) (by_ & -> & Fy & <-). exact (Bltb_correct prec emax bx by_ Fx Fy).
Qed.
