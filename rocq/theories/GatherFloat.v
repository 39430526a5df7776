(** Real-valued meaning of the binary32 operations used for run-time statistics, through Flocq. *)
From Verif Require Import Base CiuModel SamplerModel GatherModel GatherSpec.
From Coq Require Import ZArith NArith SpecFloat Reals Lra.
From Flocq Require Import Core BinarySingleNaN Relative.

Local Notation prec := 24%Z.
Local Notation emax := 128%Z.
Local Instance Hprec : FLX.Prec_gt_0 prec := eq_refl _.
Local Instance Hmax : Prec_lt_emax prec emax := eq_refl _.

Local Open Scope R_scope.

Definition rnd (x : R) : R := round radix2 (fexp prec emax) (round_mode mode_NE) x.

(** ** The standard library's operations are Flocq's *)

Lemma round_ne_equiv s m l : round_nearest_even m l = choice_mode mode_NE s m l.
Proof.
  destruct l as [|c]; [reflexivity|]. destruct c; try reflexivity.
  cbn. unfold Round.cond_incr. now destruct (Z.even m).
Qed.

Lemma round_aux_equiv sx mx ex lx :
  SpecFloat.binary_round_aux prec emax sx mx ex lx
  = BinarySingleNaN.binary_round_aux prec emax mode_NE sx mx ex lx.
Proof.
  unfold SpecFloat.binary_round_aux, BinarySingleNaN.binary_round_aux.
  destruct (shr_fexp prec emax mx ex lx) as [mrs' e']. cbn [shr_m].
  now rewrite (round_ne_equiv sx).
Qed.

Lemma round_equiv s m e :
  SpecFloat.binary_round prec emax s m e = BinarySingleNaN.binary_round prec emax mode_NE s m e.
Proof.
  unfold SpecFloat.binary_round, BinarySingleNaN.binary_round, shl_align_fexp.
  destruct (shl_align _ _ _) as [mz ez]. apply round_aux_equiv.
Qed.

Lemma normalize_equiv m e sz :
  SpecFloat.binary_normalize prec emax m e sz
  = B2SF (BinarySingleNaN.binary_normalize prec emax Hprec Hmax mode_NE m e sz).
Proof.
  destruct m as [|p|p]; cbn; [reflexivity| |]; rewrite B2SF_SF2B; apply round_equiv.
Qed.

Lemma mul_equiv (x y : binary_float prec emax) :
  f32_mul (B2SF x) (B2SF y) = B2SF (Bmult mode_NE x y).
Proof.
  destruct x as [sx|sx| |sx mx ex Bx]; destruct y as [sy|sy| |sy my ey By]; try reflexivity.
  cbn -[SpecFloat.binary_round_aux BinarySingleNaN.binary_round_aux].
  rewrite B2SF_SF2B. apply round_aux_equiv.
Qed.

Lemma div_equiv (x y : binary_float prec emax) :
  f32_div (B2SF x) (B2SF y) = B2SF (Bdiv mode_NE x y).
Proof.
  destruct x as [sx|sx| |sx mx ex Bx]; destruct y as [sy|sy| |sy my ey By]; try reflexivity.
  unfold f32_div. cbn [B2SF SFdiv Bdiv].
  rewrite B2SF_SF2B. destruct (SFdiv_core_binary _ _ _ _ _ _) as [[mz ez] lz].
  apply round_aux_equiv.
Qed.

Lemma add_equiv (x y : binary_float prec emax) :
  f32_add (B2SF x) (B2SF y) = B2SF (Bplus mode_NE x y).
Proof.
  destruct x as [sx|sx| |sx mx ex Bx]; destruct y as [sy|sy| |sy my ey By];
    try reflexivity; try (cbn; destruct (Bool.eqb _ _); reflexivity).
  apply normalize_equiv.
Qed.

(** ** Values *)

(** [x] is the finite float of value [r]. *)
Definition rep (x : f32) (r : R) : Prop :=
  exists b : binary_float prec emax, x = B2SF b /\ is_finite b = true /\ B2R b = r.

Definition in_range_R (r : R) : Prop := Rabs (rnd r) < bpow radix2 emax.

Lemma rep_add x y a b : rep x a -> rep y b -> in_range_R (a + b) -> rep (f32_add x y) (rnd (a + b)).
Proof.
  intros (bx & -> & Fx & <-) (by_ & -> & Fy & <-) Hr. rewrite add_equiv.
  pose proof (Bplus_correct prec emax Hprec Hmax mode_NE bx by_ Fx Fy) as H.
  rewrite Rlt_bool_true in H by exact Hr. destruct H as (H1 & H2 & _).
  eexists; split; [reflexivity|]. auto.
Qed.

Lemma rep_mul x y a b : rep x a -> rep y b -> in_range_R (a * b) -> rep (f32_mul x y) (rnd (a * b)).
Proof.
  intros (bx & -> & Fx & <-) (by_ & -> & Fy & <-) Hr. rewrite mul_equiv.
  pose proof (Bmult_correct prec emax Hprec Hmax mode_NE bx by_) as H.
  rewrite Rlt_bool_true in H by exact Hr. destruct H as (H1 & H2 & _).
  eexists; split; [reflexivity|]. rewrite H2, Fx, Fy. auto.
Qed.

Lemma rep_div x y a b : rep x a -> rep y b -> b <> 0 -> in_range_R (a / b) ->
  rep (f32_div x y) (rnd (a / b)).
Proof.
  intros (bx & -> & Fx & <-) (by_ & -> & Fy & <-) Hb Hr. rewrite div_equiv.
  pose proof (Bdiv_correct prec emax Hprec Hmax mode_NE bx by_ Hb) as H.
  rewrite Rlt_bool_true in H by exact Hr. destruct H as (H1 & H2 & _).
  eexists; split; [reflexivity|]. rewrite H2, Fx. auto.
Qed.

(** A quotient of positive values beyond the range is infinite. *)
Lemma div_overflow x y a b : rep x a -> rep y b -> 0 < a -> 0 < b -> ~ in_range_R (a / b) ->
  f32_div x y = S754_infinity false.
Proof.
  intros (bx & -> & Fx & <-) (by_ & -> & Fy & <-) Ha Hb Hr. rewrite div_equiv.
  pose proof (Bdiv_correct prec emax Hprec Hmax mode_NE bx by_ (Rgt_not_eq _ _ Hb)) as H.
  rewrite Rlt_bool_false in H by (apply Rnot_lt_le; exact Hr).
  rewrite H. unfold binary_overflow. cbn [overflow_to_inf].
  assert (S : forall z : binary_float prec emax, 0 < B2R z -> Bsign z = false).
  { intros z Hz. destruct z as [s|s| |s m e Hbz]; cbn in Hz; try lra.
    destruct s; [|reflexivity]. exfalso. assert (F2R (Float radix2 (Z.neg m) e) < 0) by (apply F2R_lt_0; reflexivity).
    cbn in Hz. lra. }
  rewrite !S by assumption. reflexivity.
Qed.

Lemma rep_of_Z z : in_range_R (IZR z) -> rep (SpecFloat.binary_normalize 24 128 z 0 false) (rnd (IZR z)).
Proof.
  intros Hr. rewrite normalize_equiv.
  pose proof (binary_normalize_correct prec emax Hprec Hmax mode_NE z 0 false) as H. cbv zeta in H.
  assert (E : F2R (Float radix2 z 0) = IZR z) by (unfold F2R; cbn; ring).
  rewrite E in H. rewrite Rlt_bool_true in H by exact Hr. destruct H as (H1 & H2 & _).
  eexists; split; [reflexivity|]. auto.
Qed.

Lemma rep_one : rep f32_one 1.
Proof.
  exists (@B754_finite prec emax false 8388608 (-23) eq_refl). do 2 (split; [reflexivity|]).
  cbn. unfold F2R. cbn [Fnum Fexp]. change (bpow radix2 (-23)) with (/ IZR 8388608). apply Rinv_r. lra.
Qed.

Definition fifth : R := 13421773 / 67108864.
Lemma rep_fifth : rep f32_fifth fifth.
Proof.
  exists (@B754_finite prec emax false 13421773 (-26) eq_refl). do 2 (split; [reflexivity|]).
  cbn. unfold F2R. cbn [Fnum Fexp]. change (bpow radix2 (-26)) with (/ IZR 67108864). reflexivity.
Qed.

(** ** Rounding facts *)

Local Instance fexp_valid : Valid_exp (fexp prec emax) := fexp_correct prec emax Hprec.

Lemma rnd_mono x y : x <= y -> rnd x <= rnd y.
Proof. intros H. apply round_le; auto with typeclass_instances. Qed.

Lemma bpow_Z k : (0 <= k)%Z -> bpow radix2 k = IZR (2 ^ k).
Proof. intros Hk. rewrite <- IZR_Zpower by assumption. reflexivity. Qed.

(** Integers of at most 24 bits, times a power of two, are exact. *)
Lemma rnd_scaled m e : (0 <= m <= 2 ^ 24)%Z -> (0 <= e)%Z -> rnd (IZR (m * 2 ^ e)) = IZR (m * 2 ^ e).
Proof.
  intros Hm He. apply round_generic; auto with typeclass_instances.
  apply generic_format_FLT.
  destruct (Z.eq_dec m (2 ^ 24)) as [->|Hn].
  - exists (Float radix2 1 (24 + e)); cbn [Fnum Fexp].
    + unfold F2R; cbn [Fnum Fexp]. rewrite bpow_Z by lia. rewrite <- mult_IZR. f_equal.
      rewrite Z.pow_add_r by lia. ring.
    + cbn; lia.
    + unfold SpecFloat.emin. lia.
  - exists (Float radix2 m e); cbn [Fnum Fexp].
    + unfold F2R; cbn [Fnum Fexp]. rewrite bpow_Z by lia. now rewrite <- mult_IZR.
    + change (radix2 ^ 24)%Z with (2 ^ 24)%Z. lia.
    + unfold SpecFloat.emin. lia.
Qed.

Lemma rnd_Z z : (0 <= z <= 2 ^ 24)%Z -> rnd (IZR z) = IZR z.
Proof. intros H. pose proof (rnd_scaled z 0 H). rewrite Z.mul_1_r in *. apply H0. lia. Qed.

Lemma rnd_0 : rnd 0 = 0.
Proof. apply (rnd_Z 0). lia. Qed.
Lemma rnd_1 : rnd 1 = 1.
Proof. apply (rnd_Z 1). lia. Qed.

Lemma rnd_nonneg x : 0 <= x -> 0 <= rnd x.
Proof. intros H. rewrite <- rnd_0. now apply rnd_mono. Qed.

(** Unit round-off. *)
Definition u : R := / 16777216.

(** Values that are 0 or at least 2^-100 have a small relative error. *)
Definition tiny : R := bpow radix2 (-100).

Lemma rel_error x : tiny <= x -> Rabs (rnd x - x) <= u * x.
Proof.
  intros Hx. pose proof (bpow_gt_0 radix2 (-100)) as Ht. unfold tiny in Hx.
  pose proof (relative_error_N_FLT radix2 (SpecFloat.emin prec emax) prec eq_refl
                (fun x => negb (Z.even x)) x) as H.
  assert (Hb : bpow radix2 (SpecFloat.emin prec emax + prec - 1) <= Rabs x).
  { rewrite Rabs_pos_eq by lra. apply Rle_trans with (2 := Hx).
    apply bpow_le. unfold SpecFloat.emin. lia. }
  specialize (H Hb). rewrite (Rabs_pos_eq x) in H by lra.
  refine (Rle_trans _ _ _ H _). apply Req_le.
  change (- prec + 1)%Z with (-23)%Z. change (bpow radix2 (-23)) with (/ 8388608).
  unfold u. field.
Qed.

Definition normal (x : R) : Prop := x = 0 \/ tiny <= x.

Lemma normal_nonneg x : normal x -> 0 <= x.
Proof. intros [-> |H]; [lra|]. pose proof (bpow_gt_0 radix2 (-100)). unfold tiny in H. lra. Qed.

Lemma rnd_bounds x : normal x -> x * (1 - u) <= rnd x <= x * (1 + u).
Proof.
  intros [-> |H1]; [rewrite rnd_0; lra|].
  pose proof (rel_error x H1) as H. apply Rabs_le_inv in H. lra.
Qed.

Lemma normal_Z z : (0 <= z)%Z -> normal (IZR z).
Proof.
  intros H. destruct (Z.eq_dec z 0) as [-> |N]; [now left|right].
  apply Rle_trans with 1; [|apply IZR_le; lia]. change 1 with (bpow radix2 0). apply bpow_le. lia.
Qed.

Lemma in_range_le x k : 0 <= x -> x <= bpow radix2 k -> (k <= 127)%Z -> (-100 <= k)%Z -> in_range_R x.
Proof.
  intros H0 H Hk Hl. unfold in_range_R. rewrite Rabs_pos_eq by now apply rnd_nonneg.
  apply Rle_lt_trans with (bpow radix2 k); [|apply bpow_lt; lia].
  replace (bpow radix2 k) with (rnd (bpow radix2 k)); [now apply rnd_mono|].
  apply round_generic; auto with typeclass_instances. apply generic_format_bpow.
  unfold fexp, SpecFloat.emin. lia.
Qed.

Lemma rep_of_N n : (n <= usize_max)%N ->
  rep (f32_of_N n) (rnd (IZR (Z.of_N n))).
Proof.
  intros H. apply rep_of_Z. apply in_range_le with 64%Z; try lia.
  - apply IZR_le. lia.
  - rewrite bpow_Z by lia. apply IZR_le. unfold usize_max in H. lia.
Qed.

Lemma rnd_of_N_small n : (n <= 2 ^ 24)%N -> rnd (IZR (Z.of_N n)) = IZR (Z.of_N n).
Proof. intros H. apply rnd_Z. lia. Qed.

(** ** Truncation *)

Lemma floor_rep x r : rep x r -> 0 <= r ->
  IZR (Z.of_N (f32_as_usize x)) <= r /\ ((f32_as_usize x < usize_max)%N -> r < IZR (Z.of_N (f32_as_usize x)) + 1).
Proof.
  intros (b & -> & Fb & <-) H0. unfold f32_as_usize.
  destruct b as [s|s| |s m e Hb]; try discriminate; cbn [B2SF floor_as_usize].
  - cbn. split; [lra|intros _; lra].
  - assert (s = false) as ->.
    { destruct s; [|reflexivity]. exfalso. assert (B2R (B754_finite true m e Hb) < 0); [|lra].
      apply F2R_lt_0. reflexivity. }
    assert (Hfl : IZR (floor_Z (S754_finite false m e)) <= B2R (B754_finite false m e Hb)
                  < IZR (floor_Z (S754_finite false m e)) + 1).
    { cbn [floor_Z]. unfold B2R, F2R. cbn [Fnum Fexp cond_Zopp].
      destruct (Z.leb_spec 0 e).
      - rewrite mult_IZR, bpow_Z by assumption. lra.
      - replace (bpow radix2 e) with (/ IZR (2 ^ (- e))).
        2: { rewrite <- (Z.opp_involutive e) at 2. rewrite bpow_opp.
             rewrite <- IZR_Zpower by lia. reflexivity. }
        assert (Hp : (0 < 2 ^ (- e))%Z) by (apply Z.pow_pos_nonneg; lia).
        assert (HpR : 0 < IZR (2 ^ (- e))) by now apply IZR_lt.
        split.
        + apply Rmult_le_reg_r with (IZR (2 ^ (- e))); [assumption|].
          rewrite Rmult_assoc, Rinv_l, Rmult_1_r by lra. rewrite <- mult_IZR. apply IZR_le.
          rewrite Z.mul_comm. now apply Z.mul_div_le.
        + apply Rmult_lt_reg_r with (IZR (2 ^ (- e))); [assumption|].
          rewrite Rmult_assoc, Rinv_l, Rmult_1_r by lra. rewrite <- plus_IZR, <- mult_IZR. apply IZR_lt.
          pose proof (Z.mul_succ_div_gt (Z.pos m) _ Hp). lia. }
    assert (Hnn : (0 <= floor_Z (S754_finite false m e))%Z).
    { cbn [floor_Z]. destruct (Z.leb_spec 0 e).
      + apply Z.mul_nonneg_nonneg; [lia|]. now apply Z.pow_nonneg.
      + apply Z.div_pos; [lia|]. apply Z.pow_pos_nonneg; lia. }
    split.
    + apply Rle_trans with (2 := proj1 Hfl). apply IZR_le. rewrite N2Z.inj_min, Z2N.id by assumption. lia.
    + intros Hlt. apply Rlt_le_trans with (1 := proj2 Hfl). apply Rplus_le_compat_r. apply IZR_le.
      rewrite N2Z.inj_min, Z2N.id by assumption. lia.
Qed.

(** The truncated quotient of non-negative values. *)
Lemma div_floor x y a b : rep x a -> rep y b -> 0 <= a -> 0 < b ->
  let n := f32_as_usize (f32_div x y) in
  IZR (Z.of_N n) <= rnd (a / b) /\ ((n < usize_max)%N -> rnd (a / b) < IZR (Z.of_N n) + 1).
Proof.
  intros Hx Hy Ha Hb n.
  assert (Hq : 0 <= a / b) by (apply Rmult_le_pos; [lra|apply Rlt_le; now apply Rinv_0_lt_compat]).
  destruct (Rlt_le_dec (Rabs (rnd (a / b))) (bpow radix2 emax)) as [Hr|Hr].
  - apply (floor_rep _ (rnd (a / b))); [|now apply rnd_nonneg]. apply rep_div; auto; lra.
  - assert (0 < a).
    { destruct (Req_dec a 0) as [-> |]; [|lra]. exfalso. unfold Rdiv in Hr. rewrite Rmult_0_l, rnd_0, Rabs_R0 in Hr.
      pose proof (bpow_gt_0 radix2 emax). lra. }
    assert (E : n = usize_max).
    { unfold n. rewrite (div_overflow x y a b); auto. unfold in_range_R. lra. }
    rewrite E. split; [|lia]. rewrite Rabs_pos_eq in Hr by now apply rnd_nonneg.
    apply Rle_trans with (2 := Hr). rewrite bpow_Z by lia. apply IZR_le. cbn. lia.
Qed.

(** ** Minimum with one *)

Lemma compare_rep x y a b : rep x a -> rep y b -> SFcompare x y = Some (Rcompare a b).
Proof.
  intros (bx & -> & Fx & <-) (by_ & -> & Fy & <-).
  pose proof (Bcompare_correct prec emax bx by_ Fx Fy) as H. exact H.
Qed.

Lemma min_one x c : rep x c -> rep (f32_min x f32_one) (Rmin c 1).
Proof.
  intros H. unfold f32_min. rewrite (compare_rep _ _ _ _ H rep_one).
  destruct (Rcompare_spec c 1) as [L|L|L].
  - rewrite Rmin_left by lra. exact H.
  - subst c. rewrite Rmin_left by lra. exact H.
  - rewrite Rmin_right by lra. exact rep_one.
Qed.

(** ** Extrapolation *)

Lemma u_pos : 0 < u. Proof. unfold u. lra. Qed.

Lemma rnd_ge_1 r : (1 <= r)%N -> 1 <= rnd (IZR (Z.of_N r)).
Proof. intros H. rewrite <- rnd_1 at 1. apply rnd_mono. apply IZR_le. lia. Qed.

Lemma extrapolated r num den pct c :
  (r <= usize_max)%N -> (1 <= num)%N -> (1 <= den)%N -> rep pct c -> 0 < c -> c <= 1 ->
  IZR (Z.of_N num) * ((1 - u) * (1 - u)) <= c * IZR (Z.of_N den) * (1 + u) ->
  c * IZR (Z.of_N den) * (1 - u) <= IZR (Z.of_N num) * ((1 + u) * (1 + u)) ->
  extrapolates r num den (f32_as_usize (f32_div (f32_of_N r) pct)).
Proof.
  intros Hr Hn Hd Hpct Hc0 Hc1 Hlo Hhi.
  set (R_ := rnd (IZR (Z.of_N r))).
  assert (HR0 : 0 <= R_) by (apply rnd_nonneg; apply IZR_le; lia).
  destruct (div_floor _ _ R_ c (rep_of_N r Hr) Hpct HR0 Hc0) as [F1 F2].
  set (n := f32_as_usize (f32_div (f32_of_N r) pct)) in *.
  assert (Hz : normal (IZR (Z.of_N r))) by (apply normal_Z; lia).
  pose proof (rnd_bounds _ Hz) as [R1 R2]. fold R_ in R1, R2.
  assert (Hq : normal (R_ / c)).
  { destruct (N.eq_dec r 0) as [-> |Hne].
    - left. unfold R_. cbn. rewrite rnd_0. unfold Rdiv. ring.
    - right. assert (1 <= R_) by (apply rnd_ge_1; lia).
      apply Rle_trans with 1; [change 1 with (bpow radix2 0); apply bpow_le; lia|].
      apply Rmult_le_reg_r with c; [assumption|]. unfold Rdiv. rewrite Rmult_assoc, Rinv_l by lra. lra. }
  pose proof (rnd_bounds _ Hq) as [Q1 Q2].
  set (x := rnd (R_ / c)) in *. set (rr := IZR (Z.of_N r)) in *. set (nn := IZR (Z.of_N n)) in *.
  set (pp := IZR (Z.of_N num)) in *. set (dd := IZR (Z.of_N den)) in *.
  assert (Hp1 : 1 <= pp) by (apply IZR_le; lia). assert (Hd1 : 1 <= dd) by (apply IZR_le; lia).
  assert (Hrr : 0 <= rr) by (apply IZR_le; lia). assert (Hnn : 0 <= nn) by (apply IZR_le; lia).
  assert (Hx0 : 0 <= x) by lra.
  assert (EC : R_ / c * c = R_) by (field; lra).
  assert (Xc1 : x * c <= R_ * (1 + u)).
  { apply Rle_trans with (R_ / c * (1 + u) * c); [apply Rmult_le_compat_r; lra|].
    replace (R_ / c * (1 + u) * c) with (R_ / c * c * (1 + u)) by ring. rewrite EC. lra. }
  assert (Xc2 : R_ * (1 - u) <= x * c).
  { apply Rle_trans with (R_ / c * (1 - u) * c); [|apply Rmult_le_compat_r; lra].
    replace (R_ / c * (1 - u) * c) with (R_ / c * c * (1 - u)) by ring. rewrite EC. lra. }
  pose proof u_pos as U0. assert (U1 : u <= / 16777216) by (unfold u; lra).
  split; [|split].
  - assert (G : nn * pp * 2097152 <= rr * dd * 2097153).
    { assert (A : x * pp * ((1 - u) * (1 - u)) <= rr * dd * ((1 + u) * (1 + u) * (1 + u))).
      { apply Rle_trans with (x * (c * dd * (1 + u))).
        - rewrite Rmult_assoc. apply Rmult_le_compat_l; lra.
        - apply Rle_trans with (R_ * (1 + u) * (dd * (1 + u))).
          + replace (x * (c * dd * (1 + u))) with (x * c * (dd * (1 + u))) by ring.
            apply Rmult_le_compat_r; [|assumption]. apply Rmult_le_pos; lra.
          + apply Rle_trans with (rr * (1 + u) * (1 + u) * (dd * (1 + u))); [|apply Req_le; ring].
            apply Rmult_le_compat_r; [apply Rmult_le_pos; lra|]. apply Rmult_le_compat_r; lra. }
      assert (B : nn * pp * ((1 - u) * (1 - u)) <= rr * dd * ((1 + u) * (1 + u) * (1 + u))).
      { apply Rle_trans with (2 := A). apply Rmult_le_compat_r; [nra|]. apply Rmult_le_compat_r; lra. }
      assert (Hrd : 0 <= rr * dd) by (apply Rmult_le_pos; lra).
      assert (Hnp : 0 <= nn * pp) by (apply Rmult_le_pos; lra).
      unfold u in B. set (a := nn * pp) in *. set (b := rr * dd) in *. lra. }
    unfold nn, pp, rr, dd in G. rewrite <- !mult_IZR in G. apply le_IZR in G. lia.
  - destruct (N.lt_ge_cases n usize_max) as [Hlt|Hge]; [right|left].
    + specialize (F2 Hlt). change (IZR (Z.of_N n)) with nn in F2.
      assert (G : rr * dd * 2097151 < (nn + 1) * pp * 2097152).
      { assert (A : rr * dd * ((1 - u) * (1 - u) * (1 - u)) <= x * pp * ((1 + u) * (1 + u))).
        { apply Rle_trans with (x * (c * dd * (1 - u))).
          - apply Rle_trans with (R_ * (1 - u) * (dd * (1 - u))).
            + apply Rle_trans with (rr * (1 - u) * (1 - u) * (dd * (1 - u))); [apply Req_le; ring|].
              apply Rmult_le_compat_r; [apply Rmult_le_pos; lra|]. apply Rmult_le_compat_r; lra.
            + replace (x * (c * dd * (1 - u))) with (x * c * (dd * (1 - u))) by ring.
              apply Rmult_le_compat_r; [apply Rmult_le_pos; lra|assumption].
          - rewrite (Rmult_assoc x pp). apply Rmult_le_compat_l; lra. }
        assert (B : x * pp * ((1 + u) * (1 + u)) < (nn + 1) * pp * ((1 + u) * (1 + u))).
        { apply Rmult_lt_compat_r; [nra|]. apply Rmult_lt_compat_r; lra. }
        assert (Hrd : 0 <= rr * dd) by (apply Rmult_le_pos; lra).
        assert (Hnp : 0 < (nn + 1) * pp) by (apply Rmult_lt_0_compat; lra).
        unfold u in A, B. set (a := (nn + 1) * pp) in *. set (b := rr * dd) in *. lra. }
      unfold nn, pp, rr, dd in G. rewrite <- plus_IZR, <- !mult_IZR in G. apply lt_IZR in G. lia.
    + unfold n, f32_as_usize, floor_as_usize in *. destruct (f32_div (f32_of_N r) pct) as [s|[]| |s m e];
        try (cbn in Hge; discriminate Hge); try reflexivity.
      * exfalso. revert Hge. unfold usize_max. lia.
      * exfalso. revert Hge. unfold usize_max. lia.
      * exfalso. revert Hge. unfold usize_max. lia.
      * lia.
  - intros Hr0. destruct (N.eq_dec n 0) as [Z|Z]; [|lia]. exfalso.
    assert (L : (n < usize_max)%N) by (rewrite Z; reflexivity). specialize (F2 L). unfold nn in *. rewrite Z in F2. cbn in F2.
    assert (1 <= R_) by (apply rnd_ge_1; lia).
    assert (1 <= x); [|lra]. rewrite <- rnd_1. apply rnd_mono.
    apply Rmult_le_reg_r with c; [assumption|]. rewrite EC. lra.
Qed.

(** ** How far the stage is *)

Lemma pct_complete r : (r <= usize_max)%N -> extrapolates r 1 1 (f32_as_usize (f32_div (f32_of_N r) f32_one)).
Proof.
  intros H. apply (extrapolated r 1 1 f32_one 1); try lia; try lra; try exact rep_one; cbn; unfold u; lra.
Qed.

Lemma pct_fifth r : (r <= usize_max)%N -> extrapolates r 1 5 (f32_as_usize (f32_div (f32_of_N r) f32_fifth)).
Proof.
  intros H. apply (extrapolated r 1 5 f32_fifth fifth); try lia; try exact rep_fifth; unfold fifth; cbn; unfold u; lra.
Qed.

Lemma positive_float n : (1 <= n)%N -> (n <= usize_max)%N -> exists m e, f32_of_N n = S754_finite false m e.
Proof.
  intros H1 H2. destruct (rep_of_N n H2) as (b & E & Fb & V). rewrite E.
  pose proof (rnd_ge_1 n H1) as G. rewrite <- V in G.
  destruct b as [s|s| |s m e Hb]; try discriminate; cbn in G; [lra|].
  destruct s; [|eexists; eexists; reflexivity].
  exfalso. assert (F2R (Float radix2 (Z.neg m) e) < 0) by (apply F2R_lt_0; reflexivity). cbn in G. lra.
Qed.

Lemma f32_of_0 : f32_of_N 0 = S754_zero false. Proof. reflexivity. Qed.

(** Nothing is expected from the leaves. *)
Lemma pct_nothing_expected pulled : (pulled <= usize_max)%N ->
  f32_min (f32_div (f32_of_N pulled) (f32_of_N 0)) f32_one = f32_one.
Proof.
  intros H. rewrite f32_of_0. destruct (N.eq_dec pulled 0) as [-> |Hn]; [reflexivity|].
  destruct (positive_float pulled) as (m & e & ->); [lia|assumption|]. reflexivity.
Qed.

(** Rows are expected, none were read. *)
Lemma pct_no_progress l : (1 <= l)%N -> (l <= usize_max)%N ->
  f32_min (f32_div (f32_of_N 0) (f32_of_N l)) f32_one = S754_zero false.
Proof. intros H1 H2. destruct (positive_float l H1 H2) as (m & e & ->). reflexivity. Qed.

Lemma no_progress_inflates r : (1 <= r)%N -> (r <= usize_max)%N ->
  f32_as_usize (f32_div (f32_of_N r) (S754_zero false)) = usize_max.
Proof. intros H1 H2. destruct (positive_float r H1 H2) as (m & e & ->). reflexivity. Qed.

(** Rows are expected and some were read. *)
Lemma pct_measured r p l : (r <= usize_max)%N -> (1 <= p)%N -> (p <= usize_max)%N -> (1 <= l)%N -> (l <= usize_max)%N ->
  extrapolates r (N.min p l) l (f32_as_usize (f32_div (f32_of_N r) (f32_min (f32_div (f32_of_N p) (f32_of_N l)) f32_one))).
Proof.
  intros Hr Hp1 Hp Hl1 Hl.
  set (P := rnd (IZR (Z.of_N p))). set (L := rnd (IZR (Z.of_N l))).
  assert (HP1 : 1 <= P) by now apply rnd_ge_1. assert (HL1 : 1 <= L) by now apply rnd_ge_1.
  assert (B64 : forall n, (n <= usize_max)%N -> rnd (IZR (Z.of_N n)) <= bpow radix2 64).
  { intros n Hn. rewrite bpow_Z by lia. change (2 ^ 64)%Z with (1 * 2 ^ 64)%Z. rewrite <- (rnd_scaled 1 64) by lia.
    apply rnd_mono. apply IZR_le. unfold usize_max in Hn. lia. }
  pose proof (B64 p Hp) as HPB. fold P in HPB. pose proof (B64 l Hl) as HLB. fold L in HLB.
  pose proof (bpow_gt_0 radix2 64) as Hb64.
  assert (Hq0 : 0 < P / L) by (apply Rmult_lt_0_compat; [lra|apply Rinv_0_lt_compat; lra]).
  assert (Hqn : normal (P / L)).
  { right. apply Rle_trans with (bpow radix2 (- 64)); [apply bpow_le; lia|].
    replace (-64)%Z with (Z.opp 64) by reflexivity. rewrite bpow_opp. apply Rmult_le_reg_r with L; [lra|]. unfold Rdiv. rewrite Rmult_assoc, Rinv_l by lra.
    apply Rle_trans with (/ bpow radix2 64 * bpow radix2 64); [apply Rmult_le_compat_l; [apply Rlt_le, Rinv_0_lt_compat; lra|assumption]|].
    rewrite Rinv_l by lra. lra. }
  assert (Hq : rep (f32_div (f32_of_N p) (f32_of_N l)) (rnd (P / L))).
  { apply rep_div; try apply rep_of_N; auto; try (fold L; lra).
    apply in_range_le with 64%Z; try lia; [lra|].
    apply Rle_trans with P; [|assumption]. apply Rmult_le_reg_r with L; [lra|]. unfold Rdiv.
    rewrite Rmult_assoc, Rinv_l by lra. nra. }
  pose proof (rnd_bounds _ Hqn) as [Q1 Q2].
  apply min_one in Hq.
  assert (HPn : normal (IZR (Z.of_N p))) by (apply normal_Z; lia).
  assert (HLn : normal (IZR (Z.of_N l))) by (apply normal_Z; lia).
  pose proof (rnd_bounds _ HPn) as [P1 P2]. fold P in P1, P2.
  pose proof (rnd_bounds _ HLn) as [L1 L2]. fold L in L1, L2.
  assert (EQ : P / L * L = P) by (field; lra).
  assert (Hpz : 1 <= IZR (Z.of_N p)) by (apply IZR_le; lia).
  assert (Hlz : 1 <= IZR (Z.of_N l)) by (apply IZR_le; lia).
  destruct (N.le_gt_cases l p) as [Hle|Hgt].
  - rewrite N.min_r by assumption.
    assert (1 <= rnd (P / L)).
    { rewrite <- rnd_1. apply rnd_mono. apply Rmult_le_reg_r with L; [lra|]. rewrite EQ.
      rewrite Rmult_1_l. apply rnd_mono. apply IZR_le. lia. }
    rewrite Rmin_right in Hq by assumption.
    apply (extrapolated r l l _ 1 Hr Hl1 Hl1 Hq); unfold u; lra.
  - rewrite N.min_l by lia.
    assert (rnd (P / L) <= 1).
    { rewrite <- rnd_1. apply rnd_mono. apply Rmult_le_reg_r with L; [lra|]. rewrite EQ.
      rewrite Rmult_1_l. apply rnd_mono. apply IZR_le. lia. }
    rewrite Rmin_left in Hq by assumption.
    set (c := rnd (P / L)) in *.
    assert (Hu : 0 < u < / 2) by (unfold u; lra).
    assert (Hc0 : 0 < c).
    { apply Rlt_le_trans with (2 := Q1). apply Rmult_lt_0_compat; lra. }
    apply (extrapolated r p l _ c Hr Hp1 Hl1 Hq Hc0); [assumption| |].
    + apply Rle_trans with (P * (1 - u)).
      { rewrite <- Rmult_assoc. apply Rmult_le_compat_r; lra. }
      apply Rle_trans with (c * L).
      { rewrite <- EQ. replace (P / L * L * (1 - u)) with (P / L * (1 - u) * L) by ring.
        apply Rmult_le_compat_r; lra. }
      rewrite Rmult_assoc. apply Rmult_le_compat_l; lra.
    + apply Rle_trans with (c * L).
      { rewrite Rmult_assoc. apply Rmult_le_compat_l; lra. }
      apply Rle_trans with (P * (1 + u)).
      { apply Rle_trans with (P / L * (1 + u) * L); [apply Rmult_le_compat_r; lra|].
        replace (P / L * (1 + u) * L) with (P / L * L * (1 + u)) by ring. rewrite EQ. lra. }
      rewrite <- Rmult_assoc. apply Rmult_le_compat_r; lra.
Qed.

(** A complete sample of few rows is exact. *)
Lemma complete_exact r : (r <= 2 ^ 24)%N -> f32_as_usize (f32_div (f32_of_N r) f32_one) = r.
Proof.
  intros H. assert (Hm : (r <= usize_max)%N) by (unfold usize_max; lia).
  pose proof (rep_of_N r Hm) as HR. rewrite rnd_of_N_small in HR by assumption.
  destruct (div_floor _ _ _ _ HR rep_one) as [F1 F2]; [apply IZR_le; lia|lra|].
  unfold Rdiv in F1, F2. rewrite Rinv_1, Rmult_1_r, rnd_of_N_small in F1, F2 by assumption.
  apply le_IZR in F1. assert (f32_as_usize (f32_div (f32_of_N r) f32_one) < usize_max)%N by (unfold usize_max; lia).
  specialize (F2 H0). rewrite <- plus_IZR in F2. apply lt_IZR in F2. lia.
Qed.

(** ** A fifth of the partitions *)

Lemma round_rep x r : rep x r -> 0 <= r -> r < 4294967296 ->
  IZR (Z.of_N (f32_round_as_usize x)) <= r + / 2 < IZR (Z.of_N (f32_round_as_usize x)) + 1.
Proof.
  intros (b & -> & Fb & <-) H0 H1. unfold f32_round_as_usize.
  destruct b as [s|s| |s m e Hb]; try discriminate; cbn [B2SF].
  - cbn. lra.
  - assert (s = false) as ->.
    { destruct s; [|reflexivity]. exfalso. assert (B2R (B754_finite true m e Hb) < 0); [|lra].
      apply F2R_lt_0. reflexivity. }
    set (z := (if (0 <=? e)%Z then Z.pos m * 2 ^ e else (2 * Z.pos m + 2 ^ (- e)) / (2 * 2 ^ (- e)))%Z).
    assert (Hz : IZR z <= B2R (B754_finite false m e Hb) + / 2 < IZR z + 1).
    { unfold z, B2R, F2R. cbn [Fnum Fexp cond_Zopp].
      destruct (Z.leb_spec 0 e).
      - rewrite mult_IZR, bpow_Z by assumption. lra.
      - replace (bpow radix2 e) with (/ IZR (2 ^ (- e))).
        2: { rewrite <- (Z.opp_involutive e) at 2. rewrite bpow_opp.
             rewrite <- IZR_Zpower by lia. reflexivity. }
        set (k := (2 ^ (- e))%Z). assert (Hp : (0 < k)%Z) by (apply Z.pow_pos_nonneg; lia).
        assert (HpR : 0 < IZR k) by now apply IZR_lt.
        assert (E2 : (IZR (Z.pos m) * / IZR k + / 2) * IZR (2 * k) = IZR (2 * Z.pos m + k)).
        { rewrite plus_IZR, !mult_IZR. field. lra. }
        assert (H2k : 0 < IZR (2 * k)) by (apply IZR_lt; lia).
        split.
        + apply Rmult_le_reg_r with (IZR (2 * k)); [assumption|]. rewrite E2, <- mult_IZR. apply IZR_le.
          rewrite Z.mul_comm. apply Z.mul_div_le. lia.
        + apply Rmult_lt_reg_r with (IZR (2 * k)); [assumption|]. rewrite E2, <- plus_IZR, <- mult_IZR. apply IZR_lt.
          assert (K : (0 < 2 * k)%Z) by lia. pose proof (Z.mul_succ_div_gt (2 * Z.pos m + k) _ K). lia. }
    assert (Hnn : (0 <= z)%Z).
    { assert (-1 < z)%Z; [|lia]. apply lt_IZR. change (IZR (-1)) with (-1). lra. }
    assert (Hub : (z < 4294967297)%Z).
    { apply lt_IZR. lra. }
    replace (Z.of_N (N.min (Z.to_N z) usize_max)) with z; [exact Hz|].
    rewrite N2Z.inj_min, Z2N.id by assumption. unfold usize_max. lia.
Qed.

Lemma enough_is_a_fifth total : (total <= 2 ^ 20)%N -> enough total = a_fifth total.
Proof.
  intros H. unfold enough, a_fifth. f_equal.
  assert (Hm : (total <= usize_max)%N) by (unfold usize_max; lia).
  pose proof (rep_of_N total Hm) as HT. rewrite rnd_of_N_small in HT by lia.
  set (t := IZR (Z.of_N total)) in *.
  assert (Ht0 : 0 <= t) by (apply IZR_le; lia).
  assert (Ht1 : t <= 1048576) by (apply IZR_le; lia).
  assert (Hn : normal (t * fifth)).
  { destruct (N.eq_dec total 0) as [E|E]; [left; unfold t; rewrite E; cbn; ring|right].
    assert (1 <= t) by (apply IZR_le; lia).
    apply Rle_trans with (bpow radix2 (-3)); [apply bpow_le; lia|]. change (bpow radix2 (-3)) with (/ 8). unfold fifth. lra. }
  assert (HM : rep (f32_mul (f32_of_N total) f32_fifth) (rnd (t * fifth))).
  { apply rep_mul; auto using rep_fifth. apply in_range_le with 20%Z; try lia; [unfold fifth; lra|].
    change (bpow radix2 20) with 1048576. unfold fifth. lra. }
  pose proof (rnd_bounds _ Hn) as [B1 B2].
  assert (B0 : 0 <= rnd (t * fifth)) by (apply rnd_nonneg; unfold fifth; lra).
  assert (B3 : rnd (t * fifth) < t / 5 + / 20) by (unfold fifth, u in *; lra).
  assert (B4 : t / 5 - / 20 < rnd (t * fifth)) by (unfold fifth, u in *; lra).
  destruct (round_rep _ _ HM B0) as [R1 R2]; [lra|].
  set (n := f32_round_as_usize _) in *.
  assert (G1 : IZR (20 * Z.of_N n) < IZR (4 * Z.of_N total + 11)).
  { rewrite plus_IZR, !mult_IZR. fold t. lra. }
  assert (G2 : IZR (4 * Z.of_N total + 9) < IZR (20 * Z.of_N n + 20)).
  { rewrite !plus_IZR, !mult_IZR. fold t. lra. }
  apply lt_IZR in G1, G2.
  apply N.div_unique with ((2 * total + 5) - 10 * n)%N; lia.
Qed.

(** ** Ratios *)

Lemma ratio_rep x : ratio x -> exists v, rep x v /\ 0 <= v <= 1.
Proof.
  intros [-> |(m & e & -> & Hb & He & Hm)].
  - exists 0. split; [exists (B754_zero false); auto|lra].
  - exists (F2R (Float radix2 (Z.pos m) e)). split.
    + exists (@B754_finite prec emax false m e Hb). auto.
    + split; [apply Rlt_le, F2R_gt_0; reflexivity|]. unfold F2R. cbn [Fnum Fexp].
      replace (bpow radix2 e) with (/ IZR (2 ^ (- e))).
      2: { rewrite <- (Z.opp_involutive e) at 2. rewrite bpow_opp. rewrite <- IZR_Zpower by lia. reflexivity. }
      assert (0 < 2 ^ (- e))%Z by (apply Z.pow_pos_nonneg; lia).
      apply Rmult_le_reg_r with (IZR (2 ^ (- e))); [now apply IZR_lt|].
      rewrite Rmult_assoc, Rinv_l, Rmult_1_r, Rmult_1_l by (apply Rgt_not_eq; now apply IZR_lt). now apply IZR_le.
Qed.

(** [k] values of at most 1 were added. *)
Definition sum_of (k : nat) (x : f32) : Prop := exists v, rep x v /\ 0 <= v <= INR k.

Lemma rnd_INR k : (Z.of_nat k <= 2 ^ 24)%Z -> rnd (INR k) = INR k.
Proof. intros H. rewrite INR_IZR_INZ. apply rnd_Z. lia. Qed.

Lemma in_range_INR x k : 0 <= x <= INR k -> (Z.of_nat k <= 2 ^ 24)%Z -> in_range_R x.
Proof.
  intros H Hk. apply in_range_le with 24%Z; try lia; [lra|]. apply Rle_trans with (1 := proj2 H).
  rewrite INR_IZR_INZ. change (bpow radix2 24) with (IZR 16777216). apply IZR_le. lia.
Qed.

Lemma sum_of_add k x y : (Z.of_nat k < 2 ^ 24)%Z -> sum_of k x -> ratio y -> sum_of (S k) (f32_add x y).
Proof.
  intros Hk (v & Hv & V0) Hy. destruct (ratio_rep y Hy) as (w & Hw & W0).
  assert (HS : 0 <= v + w <= INR (S k)) by (rewrite S_INR; lra).
  exists (rnd (v + w)). split.
  - apply rep_add; auto. apply in_range_INR with (S k); [assumption|lia].
  - split; [now apply rnd_nonneg|]. rewrite <- rnd_INR by lia. now apply rnd_mono.
Qed.

Lemma sum_of_mono k k' x : (k <= k')%nat -> sum_of k x -> sum_of k' x.
Proof. intros H (v & Hv & V). exists v. split; [assumption|]. apply le_INR in H. lra. Qed.

(** The average of [n] values of at most 1 is at most 1. *)
Lemma average_le_1 n x : (1 <= Z.of_nat n <= 2 ^ 24)%Z -> sum_of n x -> exists v, rep (f32_div x (f32_of_nat n)) v /\ 0 <= v <= 1.
Proof.
  intros Hn (v & Hv & V).
  assert (HN : rep (f32_of_nat n) (INR n)).
  { unfold f32_of_nat. rewrite INR_IZR_INZ. rewrite <- nat_N_Z. rewrite <- (rnd_of_N_small (N.of_nat n)) by lia. apply rep_of_N.
    unfold usize_max. lia. }
  assert (1 <= INR n) by (change 1 with (INR 1); apply le_INR; lia).
  assert (Hq : 0 <= v / INR n <= 1).
  { split; [apply Rmult_le_pos; [lra|apply Rlt_le, Rinv_0_lt_compat; lra]|].
    apply Rmult_le_reg_r with (INR n); [lra|]. unfold Rdiv. rewrite Rmult_assoc, Rinv_l by lra. lra. }
  exists (rnd (v / INR n)). split.
  - apply rep_div; auto; [lra|]. apply in_range_INR with 1%nat; [cbn; lra|lia].
  - split; [now apply rnd_nonneg|]. rewrite <- rnd_1. now apply rnd_mono.
Qed.

(** A proper float, finite or not. *)
Definition float (x : f32) : Prop := exists b : binary_float prec emax, x = B2SF b.

Lemma float_rep x r : rep x r -> float x.
Proof. intros (b & -> & _). now exists b. Qed.
Lemma float_div x y : float x -> float y -> float (f32_div x y).
Proof. intros (a & ->) (b & ->). rewrite div_equiv. eexists; reflexivity. Qed.
Lemma float_of_N n : (n <= usize_max)%N -> float (f32_of_N n).
Proof. intros H. eapply float_rep, rep_of_N, H. Qed.
Lemma float_min x y : float x -> float y -> float (f32_min x y).
Proof. intros Hx Hy. unfold f32_min. destruct (SFcompare x y) as [[]|]; auto. destruct x; auto. Qed.

Lemma small_mantissa m e : SpecFloat.bounded prec emax m e = true -> (Z.pos m < 2 ^ 24)%Z.
Proof.
  intros Hb. unfold SpecFloat.bounded in Hb. apply andb_prop in Hb. destruct Hb as [Hb _].
  unfold canonical_mantissa in Hb. apply Zeq_bool_eq in Hb. unfold SpecFloat.fexp, SpecFloat.emin in Hb.
  pose proof (Zpos_digits2_pos m) as D. rewrite D in Hb.
  assert (Zdigits radix2 (Z.pos m) <= 24)%Z by lia.
  pose proof (Zpower_gt_Zdigits radix2 24 (Z.pos m)) as G. apply G in H. exact H.
Qed.

(** A truncated float converts back exactly. *)
Lemma truncated_exact x : float x -> f32_as_usize x = usize_max \/ rnd (IZR (Z.of_N (f32_as_usize x))) = IZR (Z.of_N (f32_as_usize x)).
Proof.
  intros (b & ->). unfold f32_as_usize.
  destruct b as [s|s| |s m e Hb]; cbn [B2SF floor_as_usize]; try (right; apply rnd_0).
  - destruct s; [right; apply rnd_0|now left].
  - destruct (N.le_gt_cases (Z.to_N (floor_Z (S754_finite s m e))) usize_max) as [H|H]; [right|left; lia].
    rewrite N.min_l by assumption.
    destruct s.
    { replace (Z.to_N (floor_Z (S754_finite true m e))) with 0%N; [apply rnd_0|].
      cbn [floor_Z]. destruct (Z.leb_spec 0 e).
      - assert (0 < 2 ^ e)%Z by (apply Z.pow_pos_nonneg; lia). nia.
      - assert (0 < 2 ^ (- e))%Z by (apply Z.pow_pos_nonneg; lia).
        assert (Z.neg m / 2 ^ (- e) < 0)%Z by (apply Z.div_lt_upper_bound; lia). lia. }
    pose proof (small_mantissa m e Hb) as Hm.
    rewrite Z2N.id.
    + cbn [floor_Z]. destruct (Z.leb_spec 0 e) as [He|He].
      * apply rnd_scaled; lia.
      * apply rnd_Z. assert (0 < 2 ^ (- e))%Z by (apply Z.pow_pos_nonneg; lia).
        split; [apply Z.div_pos; lia|]. apply Z.div_le_upper_bound; nia.
    + cbn [floor_Z]. destruct (Z.leb_spec 0 e) as [He|He].
      * apply Z.mul_nonneg_nonneg; [lia|]. now apply Z.pow_nonneg.
      * apply Z.div_pos; [lia|]. apply Z.pow_pos_nonneg; lia.
Qed.

Lemma as_usize_max x : (f32_as_usize x <= usize_max)%N.
Proof.
  unfold f32_as_usize, floor_as_usize. destruct x as [s|[]| |s m e]; unfold usize_max; lia.
Qed.

(** A part of a truncated amount is at most that amount. *)
Lemma part_le x y v : rep y v -> 0 <= v <= 1 -> float x -> (f32_as_usize (f32_mul y (f32_of_N (f32_as_usize x))) <= f32_as_usize x)%N.
Proof.
  intros Hy Hv Hx. pose proof (truncated_exact x Hx) as C. pose proof (as_usize_max x) as Hn. set (n := f32_as_usize x) in *.
  destruct C as [-> |C]; [apply as_usize_max|].
  pose proof (rep_of_N n Hn) as HN. rewrite C in HN. set (t := IZR (Z.of_N n)) in *.
  assert (H0 : 0 <= t) by (apply IZR_le; lia).
  assert (HM : rep (f32_mul y (f32_of_N n)) (rnd (v * t))).
  { apply rep_mul; auto. apply in_range_le with 64%Z; try lia; [nra|].
    apply Rle_trans with t; [nra|]. rewrite bpow_Z by lia. apply IZR_le. unfold usize_max in Hn. lia. }
  destruct (floor_rep _ _ HM) as [F _]; [apply rnd_nonneg; nra|].
  assert (rnd (v * t) <= t) by (rewrite <- C; apply rnd_mono; nra).
  apply N2Z.inj_le. apply le_IZR. fold t. lra.
Qed.

(** A part of a whole is a ratio. *)
Lemma division_ratio a b : (a <= b)%N -> (1 <= b)%N -> (b <= usize_max)%N -> ratio (f32_div (f32_of_N a) (f32_of_N b)).
Proof.
  intros Hab H1 Hb. destruct (N.eq_dec a 0) as [-> |Ha].
  { left. destruct (positive_float b H1 Hb) as (m & e & ->). reflexivity. }
  assert (Ha1 : (1 <= a)%N) by lia. assert (Ham : (a <= usize_max)%N) by lia.
  pose proof (rep_of_N a Ham) as HA. pose proof (rep_of_N b Hb) as HB.
  set (A := rnd (IZR (Z.of_N a))) in *. set (B := rnd (IZR (Z.of_N b))) in *.
  assert (A1 : 1 <= A) by now apply rnd_ge_1.
  assert (AB : A <= B) by (apply rnd_mono, IZR_le; lia).
  assert (Hq : 0 <= A / B <= 1).
  { split; [apply Rmult_le_pos; [lra|apply Rlt_le, Rinv_0_lt_compat; lra]|].
    apply Rmult_le_reg_r with B; [lra|]. unfold Rdiv. rewrite Rmult_assoc, Rinv_l by lra. lra. }
  assert (HQ : rep (f32_div (f32_of_N a) (f32_of_N b)) (rnd (A / B))).
  { apply rep_div; auto; [lra|]. apply in_range_INR with 1%nat; [cbn; lra|lia]. }
  assert (HL : rnd (A / B) <= 1) by (rewrite <- rnd_1; now apply rnd_mono).
  assert (HP : 0 < rnd (A / B)).
  { assert (BB : B <= bpow radix2 64).
    { unfold B. rewrite bpow_Z by lia. change (2 ^ 64)%Z with (1 * 2 ^ 64)%Z. rewrite <- (rnd_scaled 1 64) by lia.
      apply rnd_mono. apply IZR_le. unfold usize_max in Hb. lia. }
    apply Rlt_le_trans with (bpow radix2 (Z.opp 64)); [apply bpow_gt_0|].
    replace (bpow radix2 (Z.opp 64)) with (rnd (bpow radix2 (Z.opp 64))).
    - apply rnd_mono. rewrite bpow_opp. apply Rmult_le_reg_r with B; [lra|]. unfold Rdiv. rewrite Rmult_assoc, Rinv_l by lra.
      pose proof (bpow_gt_0 radix2 64). apply Rle_trans with (/ bpow radix2 64 * bpow radix2 64).
      + apply Rmult_le_compat_l; [apply Rlt_le, Rinv_0_lt_compat; lra|assumption].
      + rewrite Rinv_l by lra. lra.
    - apply round_generic; auto with typeclass_instances. apply generic_format_bpow. unfold fexp, SpecFloat.emin. lia. }
  destruct HQ as (q & -> & Fq & V). rewrite <- V in *. clear V.
  destruct q as [s|s| |s m e Hbd]; try discriminate; [cbn in HP; lra|].
  destruct s.
  { exfalso. assert (B2R (B754_finite true m e Hbd) < 0) by (apply F2R_lt_0; reflexivity). lra. }
  right. exists m, e. split; [reflexivity|]. split; [exact Hbd|].
  cbn in HL. unfold F2R in HL. cbn [Fnum Fexp] in HL.
  destruct (Z.le_gt_cases 0 e) as [He|He].
  - exfalso. rewrite bpow_Z, <- mult_IZR in HL by assumption. apply le_IZR in HL.
    assert (0 < 2 ^ e)%Z by (apply Z.pow_pos_nonneg; lia). assert (E1 : (2 ^ e = 1)%Z) by nia.
    assert (m = 1%positive) by nia. subst m.
    assert (e = 0)%Z. { destruct (Z.eq_dec e 0); [assumption|]. pose proof (Z.pow_gt_1 2 e). lia. }
    subst e. discriminate Hbd.
  - split; [assumption|]. apply le_IZR.
    replace (bpow radix2 e) with (/ IZR (2 ^ (- e))) in HL.
    2: { rewrite <- (Z.opp_involutive e) at 2. rewrite bpow_opp. rewrite <- IZR_Zpower by lia. reflexivity. }
    assert (0 < 2 ^ (- e))%Z by (apply Z.pow_pos_nonneg; lia). assert (0 < IZR (2 ^ (- e))) by now apply IZR_lt.
    apply Rmult_le_compat_r with (r := IZR (2 ^ (- e))) in HL; [|lra].
    rewrite Rmult_assoc, Rinv_l, Rmult_1_r, Rmult_1_l in HL by lra. exact HL.
Qed.
