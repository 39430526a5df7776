(** Rounding in [split_children] never allocates more slots than there are: the floors of the
    IEEE-754 shares of integer weights sum up to at most the budget. Uses Flocq's real-valued
    semantics of binary64 to bound the error. *)
From Verif Require Import Base NetModel CiuModel CiuSpec CiuProofs.
From Coq Require Import ZArith NArith SpecFloat Reals Lra.
From Flocq Require Import Core BinarySingleNaN Relative.

Local Notation prec := 53%Z.
Local Notation emax := 1024%Z.
Local Instance Hprec : FLX.Prec_gt_0 prec := eq_refl _.
Local Instance Hmax : Prec_lt_emax prec emax := eq_refl _.

Local Open Scope R_scope.

Definition rnd (x : R) : R := round radix2 (fexp prec emax) (round_mode mode_NE) x.

(** ** The standard library's operations are Flocq's *)

Lemma round_ne_equiv s m l : round_nearest_even m l = choice_mode mode_NE s m l.
Proof.
  destruct l as [|c]; [reflexivity|]. destruct c; try reflexivity.
  cbn. unfold Round.cond_incr. now destruct (Z.even m).
Qed.

Lemma round_aux_equiv sx mx ex lx :
  SpecFloat.binary_round_aux prec emax sx mx ex lx
  = BinarySingleNaN.binary_round_aux prec emax mode_NE sx mx ex lx.
Proof.
  unfold SpecFloat.binary_round_aux, BinarySingleNaN.binary_round_aux.
  destruct (shr_fexp prec emax mx ex lx) as [mrs' e']. cbn [shr_m].
  now rewrite (round_ne_equiv sx).
Qed.

Lemma round_equiv s m e :
  SpecFloat.binary_round prec emax s m e = BinarySingleNaN.binary_round prec emax mode_NE s m e.
Proof.
  unfold SpecFloat.binary_round, BinarySingleNaN.binary_round, shl_align_fexp.
  destruct (shl_align _ _ _) as [mz ez]. apply round_aux_equiv.
Qed.

Lemma normalize_equiv m e sz :
  SpecFloat.binary_normalize prec emax m e sz
  = B2SF (BinarySingleNaN.binary_normalize prec emax Hprec Hmax mode_NE m e sz).
Proof.
  destruct m as [|p|p]; cbn; [reflexivity| |]; rewrite B2SF_SF2B; apply round_equiv.
Qed.

Lemma mul_equiv (x y : binary_float prec emax) :
  f64_mul (B2SF x) (B2SF y) = B2SF (Bmult mode_NE x y).
Proof.
  destruct x as [sx|sx| |sx mx ex Bx]; destruct y as [sy|sy| |sy my ey By]; try reflexivity.
  cbn -[SpecFloat.binary_round_aux BinarySingleNaN.binary_round_aux].
  rewrite B2SF_SF2B. apply round_aux_equiv.
Qed.

Lemma div_equiv (x y : binary_float prec emax) :
  f64_div (B2SF x) (B2SF y) = B2SF (Bdiv mode_NE x y).
Proof.
  destruct x as [sx|sx| |sx mx ex Bx]; destruct y as [sy|sy| |sy my ey By]; try reflexivity.
  unfold f64_div. cbn [B2SF SFdiv Bdiv].
  rewrite B2SF_SF2B. destruct (SFdiv_core_binary _ _ _ _ _ _) as [[mz ez] lz].
  apply round_aux_equiv.
Qed.

Lemma add_equiv (x y : binary_float prec emax) :
  f64_add (B2SF x) (B2SF y) = B2SF (Bplus mode_NE x y).
Proof.
  destruct x as [sx|sx| |sx mx ex Bx]; destruct y as [sy|sy| |sy my ey By];
    try reflexivity; try (cbn; destruct (Bool.eqb _ _); reflexivity).
  apply normalize_equiv.
Qed.

(** ** Values *)

(** [x] is the finite double of value [r]. *)
Definition rep (x : f64) (r : R) : Prop :=
  exists b : binary_float prec emax, x = B2SF b /\ is_finite b = true /\ B2R b = r.

Definition in_range_R (r : R) : Prop := Rabs (rnd r) < bpow radix2 emax.

Lemma rep_add x y a b : rep x a -> rep y b -> in_range_R (a + b) -> rep (f64_add x y) (rnd (a + b)).
Proof.
  intros (bx & -> & Fx & <-) (by_ & -> & Fy & <-) Hr. rewrite add_equiv.
  pose proof (Bplus_correct prec emax Hprec Hmax mode_NE bx by_ Fx Fy) as H.
  rewrite Rlt_bool_true in H by exact Hr. destruct H as (H1 & H2 & _).
  eexists; split; [reflexivity|]. auto.
Qed.

Lemma rep_mul x y a b : rep x a -> rep y b -> in_range_R (a * b) -> rep (f64_mul x y) (rnd (a * b)).
Proof.
  intros (bx & -> & Fx & <-) (by_ & -> & Fy & <-) Hr. rewrite mul_equiv.
  pose proof (Bmult_correct prec emax Hprec Hmax mode_NE bx by_) as H.
  rewrite Rlt_bool_true in H by exact Hr. destruct H as (H1 & H2 & _).
  eexists; split; [reflexivity|]. rewrite H2, Fx, Fy. auto.
Qed.

Lemma rep_div x y a b : rep x a -> rep y b -> b <> 0 -> in_range_R (a / b) ->
  rep (f64_div x y) (rnd (a / b)).
Proof.
  intros (bx & -> & Fx & <-) (by_ & -> & Fy & <-) Hb Hr. rewrite div_equiv.
  pose proof (Bdiv_correct prec emax Hprec Hmax mode_NE bx by_ Hb) as H.
  rewrite Rlt_bool_true in H by exact Hr. destruct H as (H1 & H2 & _).
  eexists; split; [reflexivity|]. rewrite H2, Fx. auto.
Qed.

Lemma rep_of_Z z : in_range_R (IZR z) -> rep (f64_of_Z z) (rnd (IZR z)).
Proof.
  intros Hr. unfold f64_of_Z. rewrite normalize_equiv.
  pose proof (binary_normalize_correct prec emax Hprec Hmax mode_NE z 0 false) as H. cbv zeta in H.
  assert (E : F2R (Float radix2 z 0) = IZR z) by (unfold F2R; cbn; ring).
  rewrite E in H. rewrite Rlt_bool_true in H by exact Hr. destruct H as (H1 & H2 & _).
  eexists; split; [reflexivity|]. auto.
Qed.

Lemma rep_zero : rep f64_zero 0.
Proof. exists (B754_zero false). auto. Qed.

(** ** Rounding facts *)

Local Instance fexp_valid : Valid_exp (fexp prec emax) := fexp_correct prec emax Hprec.

Lemma rnd_mono x y : x <= y -> rnd x <= rnd y.
Proof. intros H. apply round_le; auto with typeclass_instances. Qed.

Lemma rnd_Z z : (Z.abs z <= 2 ^ 53)%Z -> rnd (IZR z) = IZR z.
Proof.
  intros Hz. apply round_generic; auto with typeclass_instances.
  apply generic_format_FLT. 
  destruct (Z.eq_dec (Z.abs z) (2 ^ 53)) as [He|Hn].
  - exists (Float radix2 (Z.sgn z) 53); cbn [Fnum Fexp].
    + unfold F2R; cbn [Fnum Fexp]. change (bpow radix2 53) with (IZR (2 ^ 53)). rewrite <- mult_IZR.
      f_equal. rewrite <- He. now rewrite Z.mul_comm, Z.abs_sgn.
    + destruct z; cbn; lia.
    + unfold SpecFloat.emin. lia.
  - exists (Float radix2 z 0); cbn [Fnum Fexp].
    + unfold F2R; cbn. ring.
    + change (radix2 ^ 53)%Z with (2 ^ 53)%Z. lia.
    + unfold SpecFloat.emin. lia.
Qed.

(** Integers times a power of two that fit 53 bits are exact. *)
Lemma rnd_scaled m e : (0 <= m <= 2 ^ 53)%Z -> (0 <= e)%Z -> rnd (IZR (m * 2 ^ e)) = IZR (m * 2 ^ e).
Proof.
  intros Hm He. apply round_generic; auto with typeclass_instances.
  apply generic_format_FLT.
  assert (Hp : forall k, (0 <= k)%Z -> bpow radix2 k = IZR (2 ^ k)).
  { intros k Hk. rewrite <- IZR_Zpower by assumption. reflexivity. }
  destruct (Z.eq_dec m (2 ^ 53)) as [->|Hn].
  - exists (Float radix2 1 (53 + e)); cbn [Fnum Fexp].
    + unfold F2R; cbn [Fnum Fexp]. rewrite Hp by lia. rewrite <- mult_IZR. f_equal.
      rewrite Z.pow_add_r by lia. ring.
    + cbn; lia.
    + unfold SpecFloat.emin. lia.
  - exists (Float radix2 m e); cbn [Fnum Fexp].
    + unfold F2R; cbn [Fnum Fexp]. rewrite Hp by lia. now rewrite <- mult_IZR.
    + change (radix2 ^ 53)%Z with (2 ^ 53)%Z. lia.
    + unfold SpecFloat.emin. lia.
Qed.

Lemma rnd_0 : rnd 0 = 0.
Proof. apply (rnd_Z 0). lia. Qed.
Lemma rnd_1 : rnd 1 = 1.
Proof. apply (rnd_Z 1). lia. Qed.

Lemma rnd_nonneg x : 0 <= x -> 0 <= rnd x.
Proof. intros H. rewrite <- rnd_0. now apply rnd_mono. Qed.

(** Unit round-off. *)
Definition u : R := / IZR (2 ^ 53).

Lemma u_pos : 0 < u.
Proof. apply Rinv_0_lt_compat. apply IZR_lt. reflexivity. Qed.

Lemma rel_error x : / 2 <= x -> Rabs (rnd x - x) <= u * x.
Proof.
  intros Hx.
  pose proof (relative_error_N_FLT radix2 (SpecFloat.emin prec emax) prec eq_refl
                (fun x => negb (Z.even x)) x) as H.
  assert (Hb : bpow radix2 (SpecFloat.emin prec emax + prec - 1) <= Rabs x).
  { rewrite Rabs_pos_eq by lra. apply Rle_trans with (2 := Hx).
    change (/ 2) with (bpow radix2 (-1)). apply bpow_le. unfold SpecFloat.emin. lia. }
  specialize (H Hb). rewrite (Rabs_pos_eq x) in H by lra.
  refine (Rle_trans _ _ _ H _). apply Req_le.
  change (- prec + 1)%Z with (-52)%Z. change (bpow radix2 (-52)) with (/ IZR (2 ^ 52)).
  unfold u. replace (IZR (2 ^ 53)) with (2 * IZR (2 ^ 52)) by (rewrite <- mult_IZR; reflexivity).
  rewrite Rinv_mult; auto.
Qed.

Lemma rnd_upper x : 0 <= x -> 1 <= rnd x -> rnd x <= x * (1 + u).
Proof.
  intros H0 H1. destruct (Rle_lt_dec (/ 2) x) as [Hx|Hx].
  - pose proof (rel_error x Hx) as H. apply Rabs_le_inv in H. lra.
  - exfalso. assert (rnd x <= rnd (/ 2)) by (apply rnd_mono; lra).
    assert (Hh : rnd (/ 2) = / 2).
    { change (/ 2) with (bpow radix2 (-1)). apply round_generic; auto with typeclass_instances.
      apply generic_format_bpow. cbn. lia. }
    lra.
Qed.

Lemma rnd_lower x : x = 0 \/ 1 <= x -> x * (1 - u) <= rnd x.
Proof.
  intros [->|H1]; [rewrite rnd_0; lra|].
  assert (Hx : / 2 <= x) by lra.
  pose proof (rel_error x Hx) as H. apply Rabs_le_inv in H. lra.
Qed.

Lemma rnd_upper01 x : x = 0 \/ 1 <= x -> rnd x <= x * (1 + u).
Proof.
  intros [->|H1]; [rewrite rnd_0; lra|].
  assert (Hx : / 2 <= x) by lra.
  pose proof (rel_error x Hx) as H. apply Rabs_le_inv in H. lra.
Qed.

Lemma in_range_small x m e : (0 <= m <= 2 ^ 53)%Z -> (0 <= e <= 200)%Z ->
  0 <= x -> x <= IZR (m * 2 ^ e) -> in_range_R x.
Proof.
  intros Hm He H0 H. unfold in_range_R. rewrite Rabs_pos_eq by now apply rnd_nonneg.
  apply Rle_lt_trans with (IZR (m * 2 ^ e)).
  - rewrite <- (rnd_scaled m e) by lia. now apply rnd_mono.
  - change (bpow radix2 emax) with (IZR (2 ^ 1024)). apply IZR_lt.
    apply Z.le_lt_trans with (2 ^ 53 * 2 ^ 200)%Z.
    + apply Z.mul_le_mono_nonneg; try lia. apply Z.pow_le_mono_r; lia.
    + rewrite <- Z.pow_add_r by lia. apply Z.pow_lt_mono_r; lia.
Qed.

(** ** Weights *)

(** The double of an integer below 2^64 is 0 or at least 1, and at most 2^64. *)
Lemma rep_weight n : (0 <= n < 2 ^ 64)%Z ->
  exists w, rep (f64_of_Z n) w /\ (w = 0 \/ 1 <= w) /\ w <= IZR (2 ^ 64) /\ (n = 0%Z -> w = 0) /\
            ((n <= 2 ^ 53)%Z -> w = IZR n).
Proof.
  intros Hn. exists (rnd (IZR n)).
  assert (Hle : IZR n <= IZR (1 * 2 ^ 64)) by (apply IZR_le; lia).
  assert (H0 : 0 <= IZR n) by (apply IZR_le; lia).
  split; [|split; [|split; [|split]]].
  - apply rep_of_Z. apply in_range_small with 1%Z 64%Z; auto; lia.
  - destruct (Z.eq_dec n 0) as [->|Hne]; [left; apply rnd_0|right].
    rewrite <- rnd_1. apply rnd_mono. apply IZR_le. lia.
  - change (2 ^ 64)%Z with (1 * 2 ^ 64)%Z. rewrite <- (rnd_scaled 1 64) by lia. now apply rnd_mono.
  - intros ->. apply rnd_0.
  - intros H. apply rnd_Z. lia.
Qed.

Definition nice (w : R) : Prop := (w = 0 \/ 1 <= w) /\ w <= IZR (2 ^ 64).

Fixpoint Rsum (l : list R) : R := match l with [] => 0 | x :: l => x + Rsum l end.

Lemma nice_nonneg w : nice w -> 0 <= w.
Proof. intros [[->|H] _]; lra. Qed.

Lemma Rsum_nonneg l : Forall nice l -> 0 <= Rsum l.
Proof.
  induction 1 as [|w l Hw Hl IH]; cbn; [lra|]. apply nice_nonneg in Hw. lra.
Qed.

Lemma u_lt_1 : u < 1.
Proof.
  unfold u. rewrite <- Rinv_1. apply Rinv_lt_contravar; [rewrite Rmult_1_l|]; apply IZR_lt; reflexivity.
Qed.

(** The running total. [k] values were added before. *)
Lemma total_aux ws : forall fs acc s k,
  Forall2 rep fs ws -> Forall nice ws -> rep acc s ->
  (s = 0 \/ 1 <= s) -> (0 <= k)%Z -> s <= IZR (k * 2 ^ 64) ->
  (k + Z.of_nat (List.length ws) <= 2 ^ 53)%Z ->
  exists t, rep (fold_left f64_add fs acc) t /\
    (t = 0 \/ 1 <= t) /\
    (s + Rsum ws) * (1 - u) ^ (List.length ws) <= t /\
    (t = 0 -> s = 0 /\ Forall (fun w => w = 0) ws) /\
    t <= IZR ((k + Z.of_nat (List.length ws)) * 2 ^ 64).
Proof.
  induction ws as [|w ws IH]; intros fs acc s k Hfs Hn Hacc Hs Hk Hle Hkn.
  - inversion Hfs; subst. cbn [fold_left List.length Rsum pow]. exists s.
    repeat split; auto; [lra|]. rewrite Z.add_0_r. assumption.
  - inversion Hfs as [|f ? fs' ? Hf Hfs' Ea Eb]; subst. inversion Hn as [|? ? Hw Hn']; subst.
    destruct Hw as [Hw01 Hwle].
    cbn [List.length] in Hkn.
    assert (Hsum01 : s + w = 0 \/ 1 <= s + w) by (destruct Hs, Hw01; subst; [left|right|right|right]; lra).
    assert (Hsumle : s + w <= IZR ((k + 1) * 2 ^ 64)).
    { rewrite Z.mul_add_distr_r, plus_IZR, Z.mul_1_l. lra. }
    assert (H0 : 0 <= s + w) by (destruct Hsum01; lra).
    destruct (IH fs' (f64_add acc f) (rnd (s + w)) (k + 1)%Z) as (t & Ht & Ht01 & Htl & Htz & Htu); auto.
    + apply rep_add; auto. apply in_range_small with (k + 1)%Z 64%Z; auto; lia.
    + destruct Hsum01 as [->|H]; [left; apply rnd_0|right]. rewrite <- rnd_1. now apply rnd_mono.
    + lia.
    + rewrite <- rnd_scaled by lia. now apply rnd_mono.
    + lia.
    + cbn [fold_left List.length Rsum pow]. exists t. split; [exact Ht|]. split; [exact Ht01|].
      split; [|split].
      * apply Rle_trans with (2 := Htl). rewrite (Rmult_comm (1 - u)), <- Rmult_assoc.
        rewrite (Rmult_comm _ (1 - u)), <- Rmult_assoc.
        apply Rmult_le_compat_r; [apply pow_le; pose proof u_lt_1; lra|].
        pose proof (rnd_lower (s + w) Hsum01). pose proof (Rsum_nonneg ws Hn').
        pose proof u_pos. pose proof u_lt_1.
        assert (Rsum ws * (1 - u) <= Rsum ws) by (rewrite <- (Rmult_1_r (Rsum ws)) at 2; apply Rmult_le_compat_l; lra).
        lra.
      * intros Hz. destruct (Htz Hz) as [Hr Hall].
        assert (Hsw : s + w = 0).
        { destruct Hsum01 as [?|H1]; auto. exfalso. apply rnd_mono in H1. rewrite rnd_1 in H1. lra. }
        assert (0 <= s) by (destruct Hs; lra). assert (0 <= w) by (destruct Hw01; lra).
        split; [lra|]. constructor; [lra|assumption].
      * refine (Rle_trans _ _ _ Htu _). apply IZR_le. apply Z.mul_le_mono_nonneg_r; lia.
Qed.

(** ** Floors *)

Lemma floor_rep x r : rep x r -> 0 <= r -> IZR (Z.of_N (floor_as_usize x)) <= r.
Proof.
  intros (b & -> & Fb & <-) H0. destruct b as [s|s| |s m e Hb]; try discriminate; cbn [B2SF floor_as_usize].
  - cbn. lra.
  - assert (Hfl : IZR (floor_Z (S754_finite s m e)) <= B2R (B754_finite s m e Hb)).
    { cbn [floor_Z]. unfold B2R, F2R. cbn [Fnum Fexp].
      set (v := if s then Z.neg m else Z.pos m).
      change (cond_Zopp s (Z.pos m)) with v.
      destruct (Z.leb_spec 0 e).
      - rewrite mult_IZR. replace (IZR (2 ^ e)) with (bpow radix2 e); [apply Rle_refl|].
        rewrite <- IZR_Zpower by assumption. reflexivity.
      - replace (bpow radix2 e) with (/ IZR (2 ^ (- e))).
        2: { rewrite <- (Z.opp_involutive e) at 2. rewrite bpow_opp.
             rewrite <- IZR_Zpower by lia. reflexivity. }
        assert (Hp : (0 < 2 ^ (- e))%Z) by (apply Z.pow_pos_nonneg; lia).
        assert (HpR : 0 < IZR (2 ^ (- e))) by now apply IZR_lt.
        apply Rmult_le_reg_r with (IZR (2 ^ (- e))); [assumption|].
        rewrite Rmult_assoc, Rinv_l, Rmult_1_r by lra. rewrite <- mult_IZR. apply IZR_le.
        rewrite Z.mul_comm. now apply Z.mul_div_le. }
    assert (Hnn : (0 <= floor_Z (S754_finite s m e))%Z).
    { destruct s.
      - exfalso. assert (B2R (B754_finite true m e Hb) < 0); [|lra].
        apply F2R_lt_0. reflexivity.
      - cbn [floor_Z]. destruct (Z.leb_spec 0 e).
        + apply Z.mul_nonneg_nonneg; [lia|]. now apply Z.pow_nonneg.
        + apply Z.div_pos; [lia|]. apply Z.pow_pos_nonneg; lia. }
    apply Rle_trans with (2 := Hfl). apply IZR_le. rewrite N2Z.inj_min, Z2N.id by assumption. lia.
Qed.

Lemma lt_zero_rep x r : rep x r -> f64_lt f64_zero x = Rlt_bool 0 r.
Proof.
  intros (b & -> & Fb & <-). destruct b as [s|s| |s m e Hb]; try discriminate.
  - cbn. rewrite Rlt_bool_false; [reflexivity|lra].
  - destruct s; cbn [B2SF]; unfold f64_lt, f64_zero, SFltb; cbn [SFcompare].
    + symmetry. apply Rlt_bool_false. apply Rlt_le. apply F2R_lt_0. reflexivity.
    + symmetry. apply Rlt_bool_true. apply F2R_gt_0. reflexivity.
Qed.

Lemma capped_floor_le c s : (capped_floor c s <= N.to_nat (floor_as_usize s))%nat.
Proof. unfold capped_floor. destruct (cw_max c); lia. Qed.

Lemma bernoulli n : 1 - INR n * u <= (1 - u) ^ n.
Proof.
  pose proof u_pos. pose proof u_lt_1.
  induction n as [|n IH]; [cbn; lra|]. rewrite S_INR. cbn [pow].
  assert (0 <= INR n) by apply pos_INR.
  assert ((1 - u) * (1 - INR n * u) <= (1 - u) * (1 - u) ^ n) by (apply Rmult_le_compat_l; lra).
  assert (0 <= INR n * (u * u)) by (apply Rmult_le_pos; [assumption|]; nra).
  nra.
Qed.

Lemma integer_weights_rep children : Forall integer_weight children ->
  exists ws, Forall2 rep (map weight children) ws /\ Forall nice ws.
Proof.
  induction 1 as [|c cs [n [Hn Hc]] _ (ws & H1 & H2)]; [exists []; split; constructor|].
  destruct (rep_weight (Z.of_nat n)) as (w & Hr & H01 & Hle & _); [lia|].
  exists (w :: ws). split; cbn [map]; constructor; auto.
  - rewrite Hc. exact Hr.
  - split; assumption.
Qed.

(** A list of shares whose floors are bounded by [q * w_i] sums up to at most [q * sum w]. *)
Lemma sum_floors children : forall sh ws q,
  List.length sh = List.length children ->
  0 <= q -> Forall (fun w => 0 <= w) ws ->
  Forall2 (fun s w => IZR (Z.of_N (floor_as_usize s)) <= q * w) sh ws ->
  INR (list_sum (init_counts children sh)) <= q * Rsum ws.
Proof.
  unfold init_counts. induction children as [|c cs IH]; intros sh ws q Hl Hq Hw HF.
  - cbn. destruct sh; [|discriminate]. inversion HF; subst. cbn. lra.
  - destruct sh as [|s sh]; [discriminate|]. inversion HF as [|? w ? ws' Hs HF']; subst.
    inversion Hw; subst. cbn [combine map Rsum]. rewrite list_sum_cons, plus_INR.
    specialize (IH sh ws' q). cbn in Hl. rewrite Rmult_plus_distr_l.
    apply Rplus_le_compat; [|apply IH; auto].
    refine (Rle_trans _ _ _ _ Hs). rewrite INR_IZR_INZ. apply IZR_le.
    pose proof (capped_floor_le c s). lia.
Qed.

Lemma le_of_real a b : INR a < INR b + 1 -> (a <= b)%nat.
Proof.
  intros H. rewrite <- S_INR in H. apply INR_lt in H. lia.
Qed.

Lemma floor_small x : 0 <= x -> forall f, rep f (rnd x) ->
  IZR (Z.of_N (floor_as_usize f)) <= x * (1 + u).
Proof.
  intros H0 f Hf. pose proof (floor_rep f (rnd x) Hf (rnd_nonneg x H0)) as Hfl.
  pose proof u_pos.
  destruct (N.eq_dec (floor_as_usize f) 0) as [->|Hne]; [cbn; nra|].
  assert (1 <= IZR (Z.of_N (floor_as_usize f))) by (apply IZR_le; lia).
  refine (Rle_trans _ _ _ Hfl _). apply rnd_upper; lra.
Qed.

Lemma share_bound (budget : nat) f w tf t :
  (0 < Z.of_nat budget <= 2 ^ 53)%Z ->
  rep (f64_of_nat budget) (IZR (Z.of_nat budget)) ->
  rep f w -> nice w -> rep tf t -> 1 <= t ->
  IZR (Z.of_N (floor_as_usize (f64_div (f64_mul (f64_of_nat budget) f) tf)))
    <= IZR (Z.of_nat budget) * ((1 + u) * (1 + u)) / t * w.
Proof.
  intros Hb HB Hf Hw Ht Ht1.
  pose proof (nice_nonneg _ Hw) as Hw0. destruct Hw as [Hw01 Hwle].
  assert (HB1 : 1 <= IZR (Z.of_nat budget)) by (apply IZR_le; lia).
  set (B := IZR (Z.of_nat budget)) in *.
  assert (HBw01 : B * w = 0 \/ 1 <= B * w) by (destruct Hw01; [left; subst; ring|right; nra]).
  assert (HBw0 : 0 <= B * w) by (destruct HBw01; lra).
  assert (HBwle : B * w <= IZR (Z.of_nat budget * 2 ^ 64)).
  { rewrite mult_IZR. fold B. apply Rmult_le_compat_l; [lra|assumption]. }
  assert (HBw : rep (f64_mul (f64_of_nat budget) f) (rnd (B * w))).
  { apply rep_mul; auto. apply in_range_small with (Z.of_nat budget) 64%Z; auto; lia. }
  assert (Hp0 : 0 <= rnd (B * w)) by now apply rnd_nonneg.
  assert (Hple : rnd (B * w) <= IZR (Z.of_nat budget * 2 ^ 64)).
  { rewrite <- rnd_scaled by lia. now apply rnd_mono. }
  assert (Hti : 0 < / t <= 1).
  { split; [apply Rinv_0_lt_compat; lra|]. rewrite <- Rinv_1. apply Rinv_le_contravar; lra. }
  assert (Hd0 : 0 <= rnd (B * w) / t) by (apply Rmult_le_pos; lra).
  assert (Hs : rep (f64_div (f64_mul (f64_of_nat budget) f) tf) (rnd (rnd (B * w) / t))).
  { apply rep_div; auto; [lra|].
    apply in_range_small with (Z.of_nat budget) 64%Z; auto; [lia|lia|].
    apply Rle_trans with (2 := Hple). unfold Rdiv. rewrite <- (Rmult_1_r (rnd (B * w))) at 2.
    apply Rmult_le_compat_l; lra. }
  refine (Rle_trans _ _ _ (floor_small _ Hd0 _ Hs) _).
  pose proof (rnd_upper01 (B * w) HBw01) as Hup. pose proof u_pos.
  unfold Rdiv.
  replace (B * ((1 + u) * (1 + u)) * / t * w) with (B * w * (1 + u) * (/ t * (1 + u))) by ring.
  rewrite Rmult_assoc. apply Rmult_le_compat_r; [|assumption]. nra.
Qed.

Theorem integer_floors_fit children budget :
  Forall integer_weight children -> children <> [] -> (0 < budget)%nat ->
  (Z.of_nat budget * (2 * Z.of_nat (List.length children) + 3) < 2 ^ 53)%Z ->
  floors_fit children budget.
Proof.
  intros Hint Hne Hb Hsmall. unfold floors_fit. apply le_of_real.
  destruct (integer_weights_rep children Hint) as (ws & Hrep & Hnice).
  assert (Hlw : List.length ws = List.length children).
  { clear - Hrep. remember (map weight children) as fs eqn:E. revert children E.
    induction Hrep; intros [|c cs] E; try discriminate; cbn in *; auto.
    injection E as -> ->. f_equal. eapply IHHrep; eauto. }
  remember (List.length children) as n eqn:En.
  assert (Hn : (0 < n)%nat) by (destruct children; [contradiction|cbn in En; lia]).
  assert (Hn53 : (Z.of_nat n <= 2 ^ 53)%Z) by nia.
  assert (Hb53 : (Z.of_nat budget <= 2 ^ 53)%Z) by nia.
  destruct (total_aux ws (map weight children) f64_zero 0 0) as (t & Ht & Ht01 & Htl & Htz & Htu);
    auto using rep_zero; [lia|cbn; lra|lia|].
  rewrite Hlw in *. rewrite Rplus_0_l in Htl. rewrite Z.add_0_l in Htu.
  fold (total_weight children) in Ht.
  destruct (rep_weight (Z.of_nat budget)) as (B & HB & _ & _ & _ & HBv); [lia|].
  specialize (HBv Hb53). subst B.
  assert (HB1 : 1 <= IZR (Z.of_nat budget)) by (apply IZR_le; lia).
  assert (Hn1 : 1 <= IZR (Z.of_nat n)) by (apply IZR_le; lia).
  assert (HBn : IZR (Z.of_nat budget) * (2 * IZR (Z.of_nat n) + 3) * u < 1).
  { apply IZR_lt in Hsmall. rewrite mult_IZR, plus_IZR, mult_IZR in Hsmall.
    unfold u. apply Rmult_lt_reg_r with (IZR (2 ^ 53)); [apply IZR_lt; reflexivity|].
    rewrite Rmult_assoc, Rinv_l by (apply not_0_IZR; discriminate). lra. }
  pose proof u_pos as Hu. pose proof u_lt_1 as Hu1.
  assert (H3u : (1 + u) * (1 + u) <= 1 + 3 * u) by nra.
  pose proof (bernoulli n) as Hber. rewrite INR_IZR_INZ in Hber.
  rewrite (INR_IZR_INZ budget).
  unfold shares. rewrite <- En. rewrite (lt_zero_rep _ _ Ht).
  destruct (Rlt_bool_spec 0 t) as [Htpos|Htneg].
  - assert (Ht1 : 1 <= t) by (destruct Ht01; lra).
    set (B := IZR (Z.of_nat budget)) in *.
    assert (Hti : 0 < / t) by (apply Rinv_0_lt_compat; lra).
    apply Rle_lt_trans with (B * ((1 + u) * (1 + u)) / t * Rsum ws).
    + apply sum_floors.
      * apply map_length.
      * apply Rmult_le_pos; [nra|lra].
      * eapply Forall_impl; [|exact Hnice]. apply nice_nonneg.
      * assert (Hall : forall l ws, Forall2 rep (map weight l) ws -> Forall nice ws ->
          Forall2 (fun s w => IZR (Z.of_N (floor_as_usize s)) <= B * ((1 + u) * (1 + u)) / t * w)
            (map (fun c => f64_div (f64_mul (f64_of_nat budget) (weight c)) (total_weight children)) l) ws).
        { clear - Hb Hb53 HB Ht Ht1 B. induction l as [|c l IH]; intros ws Hr Hn; cbn [map] in *;
            inversion Hr; subst; [constructor|]. inversion Hn; subst.
          constructor; [|apply IH; assumption]. apply share_bound; auto. lia. }
        apply Hall; assumption.
    + set (N := IZR (Z.of_nat n)) in *. set (S := Rsum ws) in *.
      assert (HS0 : 0 <= S) by now apply Rsum_nonneg.
      assert (HSt : S * (1 - N * u) <= t).
      { apply Rle_trans with (2 := Htl). now apply Rmult_le_compat_l. }
      assert (HNu : 0 < 1 - N * u) by nra.
      (* S / t <= 1 / (1 - N u) *)
      apply Rmult_lt_reg_r with (t * (1 - N * u)); [nra|].
      replace (B * ((1 + u) * (1 + u)) / t * S * (t * (1 - N * u)))
        with (B * ((1 + u) * (1 + u)) * (S * (1 - N * u))) by (field; lra).
      apply Rle_lt_trans with (B * ((1 + u) * (1 + u)) * t).
      { apply Rmult_le_compat_l; [nra|assumption]. }
      replace ((B + 1) * (t * (1 - N * u))) with ((B + 1) * (1 - N * u) * t) by ring.
      apply Rmult_lt_compat_r; [lra|].
      apply Rle_lt_trans with (B * (1 + 3 * u)); [apply Rmult_le_compat_l; lra|].
      assert (HBN : (B + 1) * N <= 2 * B * N) by nra.
      assert ((B + 1) * N * u <= 2 * B * N * u) by (apply Rmult_le_compat_r; lra).
      nra.
  - (* all weights are zero: equal shares *)
    set (B := IZR (Z.of_nat budget)) in *. set (N := IZR (Z.of_nat n)) in *.
    destruct (rep_weight (Z.of_nat n)) as (N' & HN & _ & _ & _ & HNv); [lia|].
    specialize (HNv Hn53). subst N'. fold N in HN.
    assert (Hni : 0 < / N <= 1).
    { split; [apply Rinv_0_lt_compat; lra|]. rewrite <- Rinv_1. apply Rinv_le_contravar; lra. }
    assert (Hd0 : 0 <= B / N) by (apply Rmult_le_pos; lra).
    assert (Hs : rep (f64_div (f64_of_nat budget) (f64_of_nat n)) (rnd (B / N))).
    { apply rep_div; auto; [lra|].
      apply in_range_small with (Z.of_nat budget) 0%Z; auto; [lia|lia|].
      rewrite Z.mul_1_r. unfold Rdiv. rewrite <- (Rmult_1_r (IZR (Z.of_nat budget))).
      apply Rmult_le_compat_l; unfold B in *; lra. }
    pose proof (floor_small _ Hd0 _ Hs) as Hfl.
    apply Rle_lt_trans with (B / N * (1 + u) * Rsum (repeat 1 n)).
    + apply sum_floors.
      * rewrite repeat_length. exact En.
      * apply Rmult_le_pos; lra.
      * apply Forall_forall. intros x Hx. apply repeat_spec in Hx. lra.
      * assert (Hall : forall k, Forall2
            (fun s w => IZR (Z.of_N (floor_as_usize s)) <= B / N * (1 + u) * w)
            (repeat (f64_div (f64_of_nat budget) (f64_of_nat n)) k) (repeat 1 k)); [|apply Hall].
        intros k. induction k as [|k IH]; cbn [repeat]; constructor; [|exact IH].
        rewrite Rmult_1_r. exact Hfl.
    + replace (Rsum (repeat 1 n)) with N.
      2: { unfold N. rewrite <- INR_IZR_INZ. clear. induction n as [|n IH]; [reflexivity|].
           cbn [repeat Rsum]. rewrite S_INR, IH. ring. }
      replace (B / N * (1 + u) * N) with (B * (1 + u)) by (field; lra). nra.
Qed.

Lemma rep_valid x r : rep x r -> 0 <= r -> f64_lt x f64_zero = false /\ f64_is_finite x = true.
Proof.
  intros (b & -> & Fb & <-) H. destruct b as [s|s| |s m e Hb]; try discriminate; [split; reflexivity|].
  destruct s; [exfalso|split; reflexivity].
  assert (B2R (B754_finite true m e Hb) < 0); [|lra]. apply F2R_lt_0. reflexivity.
Qed.

Lemma integer_weight_valid c : integer_weight c -> cw_max c <> Some 0%nat -> valid_weight c = true.
Proof.
  intros [n [Hn Hc]] Hm. destruct (rep_weight (Z.of_nat n)) as (w & Hr & H01 & _); [lia|].
  destruct (rep_valid _ _ Hr) as [H1 H2]; [destruct H01; lra|].
  unfold valid_weight. rewrite Hc. unfold f64_of_nat. rewrite H1, H2.
  destruct (cw_max c) as [[|m]|]; [congruence|reflexivity|reflexivity].
Qed.
