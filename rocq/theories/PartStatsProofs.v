(** Shares in binary32. *)
From Verif Require Import Base CiuModel SamplerModel GatherModel GatherFloat CostFloat PartStatsModel PartStatsSpec.
From Coq Require Import NArith ZArith SpecFloat Reals Lra Lia.
From Flocq Require Import Core.Core.
Local Open Scope R_scope.

Definition share (v n : N) : N := f32_as_usize (f32_mul (f32_of_N v) (f32_div f32_one (f32_of_N n))).

Lemma u_val : u = / 16777216. Proof. reflexivity. Qed.

(** The value that is truncated. *)
Lemma share_rep v n : (v <= usize_max)%N -> (1 <= n)%N -> (n <= usize_max)%N ->
  exists r, rep (f32_mul (f32_of_N v) (f32_div f32_one (f32_of_N n))) r /\ 0 <= r /\
    r = rnd (rnd (IZR (Z.of_N v)) * rnd (1 / rnd (IZR (Z.of_N n)))) /\
    IZR (Z.of_N v) / IZR (Z.of_N n) * (1 - 6 * u) <= r <= IZR (Z.of_N v) / IZR (Z.of_N n) * (1 + 6 * u).
Proof.
  intros Hv Hn1 Hn. set (V := IZR (Z.of_N v)). set (M := IZR (Z.of_N n)).
  assert (HV0 : 0 <= V) by (apply IZR_le; lia).
  assert (HM1 : 1 <= M) by (apply IZR_le; lia).
  assert (HMm : M <= bpow radix2 64) by (rewrite bpow_Z by lia; apply IZR_le; unfold usize_max in Hn; lia).
  assert (HVm : V <= bpow radix2 64) by (rewrite bpow_Z by lia; apply IZR_le; unfold usize_max in Hv; lia).
  pose proof (rep_of_N v Hv) as Rv. pose proof (rep_of_N n Hn) as Rn. fold V in Rv. fold M in Rn.
  set (W := rnd V) in *. set (P := rnd M) in *.
  assert (HP : M * (1 - u) <= P <= M * (1 + u)) by (apply rnd_bounds; apply normal_Z; lia).
  assert (HW : V * (1 - u) <= W <= V * (1 + u)) by (apply rnd_bounds; apply normal_Z; lia).
  assert (HP1 : 1 <= P) by (apply rnd_ge_1; lia).
  assert (HPm : P <= bpow radix2 65).
  { apply Rle_trans with (rnd (bpow radix2 64)); [now apply rnd_mono|]. unfold P.
    rewrite bpow_Z by lia. replace (2 ^ 64)%Z with (1 * 2 ^ 64)%Z by lia. rewrite rnd_scaled by lia. rewrite bpow_Z by lia. apply IZR_le. lia. }
  assert (Hinv : 0 < / P) by (apply Rinv_0_lt_compat; lra).
  assert (Hq : bpow radix2 (-65) <= 1 / P <= 1).
  { unfold Rdiv. rewrite Rmult_1_l. split.
    - change (bpow radix2 (-65)) with (/ bpow radix2 65). apply Rinv_le; lra.
    - rewrite <- Rinv_1. apply Rinv_le; lra. }
  assert (Hqn : normal (1 / P)).
  { right. apply Rle_trans with (2 := proj1 Hq). apply bpow_le. lia. }
  assert (Rq : rep (f32_div f32_one (f32_of_N n)) (rnd (1 / P))).
  { apply rep_div; [apply rep_one|exact Rn|lra|]. apply in_range_le with 0%Z; try lia; [lra|]. change (bpow radix2 0) with 1. lra. }
  set (Q := rnd (1 / P)) in *. pose proof (rnd_bounds _ Hqn) as HQ. fold Q in HQ.
  assert (HQl : bpow radix2 (-65) <= Q).
  { unfold Q. replace (bpow radix2 (-65)) with (rnd (bpow radix2 (-65))); [apply rnd_mono; lra|].
    apply round_generic; auto with typeclass_instances. apply generic_format_bpow. unfold fexp, SpecFloat.emin. cbn. lia. }
  assert (HQ1 : Q <= 1) by (apply Rle_trans with (rnd 1); [apply rnd_mono; lra|rewrite rnd_1; lra]).
  pose proof (bpow_gt_0 radix2 (-65)) as Hb65.
  assert (HW0 : 0 <= W) by (apply rnd_nonneg; assumption).
  assert (HWQ : normal (W * Q)).
  { destruct (N.eq_dec v 0) as [E|E].
    - left. unfold W, V. rewrite E. cbn. rewrite rnd_0. ring.
    - right. apply Rle_trans with (1 * bpow radix2 (-65)); [rewrite Rmult_1_l; apply bpow_le; lia|].
      apply Rmult_le_compat; [lra|lra|apply rnd_ge_1; lia|exact HQl]. }
  assert (HWm : W <= bpow radix2 64).
  { unfold W. replace (bpow radix2 64) with (rnd (bpow radix2 64)); [now apply rnd_mono|].
    rewrite bpow_Z by lia. replace (2 ^ 64)%Z with (1 * 2 ^ 64)%Z by lia. rewrite rnd_scaled by lia. reflexivity. }
  assert (Hp0 : 0 <= W * Q) by (apply Rmult_le_pos; lra).
  exists (rnd (W * Q)). split; [|split; [|split; [reflexivity|]]].
  - apply rep_mul; auto. apply in_range_le with 64%Z; try lia; [exact Hp0|].
    apply Rle_trans with (W * 1); [apply Rmult_le_compat_l; lra|lra].
  - now apply rnd_nonneg.
  - pose proof (rnd_bounds _ HWQ) as HR.
    (* 1/P against 1/M *)
    assert (HiP : / M * (1 - u) <= 1 / P <= / M * (1 + 2 * u)).
    { assert (0 < M) by lra. assert (0 < P) by lra. split.
      - apply Rmult_le_reg_r with (M * P); [nra|]. unfold Rdiv. rewrite Rmult_1_l.
        replace (/ M * (1 - u) * (M * P)) with ((1 - u) * P) by (field; lra). replace (/ P * (M * P)) with M by (field; lra).
        apply Rle_trans with ((1 - u) * (M * (1 + u))).
        + apply Rmult_le_compat_l; [rewrite u_val; lra|lra].
        + replace ((1 - u) * (M * (1 + u))) with (M * (1 - u * u)) by ring. rewrite <- (Rmult_1_r M) at 2. apply Rmult_le_compat_l; [lra|].
          rewrite u_val. lra.
      - apply Rmult_le_reg_r with (M * P); [nra|]. unfold Rdiv. rewrite Rmult_1_l.
        replace (/ M * (1 + 2 * u) * (M * P)) with ((1 + 2 * u) * P) by (field; lra). replace (/ P * (M * P)) with M by (field; lra).
        apply Rle_trans with ((1 + 2 * u) * (M * (1 - u))).
        + replace ((1 + 2 * u) * (M * (1 - u))) with (M * (1 + u - 2 * u * u)) by ring. rewrite <- (Rmult_1_r M) at 1.
          apply Rmult_le_compat_l; [lra|]. rewrite u_val. lra.
        + apply Rmult_le_compat_l; [rewrite u_val; lra|lra]. }
    assert (HiM : 0 < / M) by (apply Rinv_0_lt_compat; lra).
    set (I := / M) in *. change (V / M) with (V * I).
    assert (HVI : 0 <= V * I) by (apply Rmult_le_pos; lra).
    assert (HQb : I * ((1 - u) * (1 - u)) <= Q <= I * ((1 + 2 * u) * (1 + u))).
    { split.
      - apply Rle_trans with (2 := proj1 HQ). rewrite <- Rmult_assoc. apply Rmult_le_compat_r; [rewrite u_val; lra|apply HiP].
      - apply Rle_trans with (1 := proj2 HQ). rewrite <- Rmult_assoc. apply Rmult_le_compat_r; [rewrite u_val; lra|apply HiP]. }
    assert (HWQb : V * I * ((1 - u) * ((1 - u) * (1 - u))) <= W * Q <= V * I * ((1 + u) * ((1 + 2 * u) * (1 + u)))).
    { split.
      - replace (V * I * ((1 - u) * ((1 - u) * (1 - u)))) with ((V * (1 - u)) * (I * ((1 - u) * (1 - u)))) by ring.
        apply Rmult_le_compat; [apply Rmult_le_pos; [lra|rewrite u_val; lra]|apply Rmult_le_pos; [lra|rewrite u_val; lra]|apply HW|apply HQb].
      - replace (V * I * ((1 + u) * ((1 + 2 * u) * (1 + u)))) with ((V * (1 + u)) * (I * ((1 + 2 * u) * (1 + u)))) by ring.
        apply Rmult_le_compat; [lra|lra|apply HW|apply HQb]. }
    split.
    + apply Rle_trans with (2 := proj1 HR). apply Rle_trans with (V * I * ((1 - u) * ((1 - u) * (1 - u))) * (1 - u)).
      * rewrite (Rmult_assoc (V * I)). apply Rmult_le_compat_l; [exact HVI|]. rewrite u_val. lra.
      * apply Rmult_le_compat_r; [rewrite u_val; lra|apply HWQb].
    + apply Rle_trans with (1 := proj2 HR). apply Rle_trans with (V * I * ((1 + u) * ((1 + 2 * u) * (1 + u))) * (1 + u)).
      * apply Rmult_le_compat_r; [rewrite u_val; lra|apply HWQb].
      * rewrite (Rmult_assoc (V * I)). apply Rmult_le_compat_l; [exact HVI|]. rewrite u_val. lra.
Qed.

Lemma share_equal v n : (v <= usize_max)%N -> (1 <= n)%N -> (n <= usize_max)%N -> equal_share n v (share v n).
Proof.
  intros Hv Hn1 Hn. destruct (share_rep v n Hv Hn1 Hn) as (r & Rr & Hr0 & _ & Hl & Hu).
  destruct (floor_rep _ _ Rr Hr0) as [F1 F2]. fold (share v n) in F1, F2.
  set (V := IZR (Z.of_N v)) in *. set (M := IZR (Z.of_N n)) in *. set (S := share v n) in *.
  assert (HM : 1 <= M) by (apply IZR_le; lia). assert (HV : 0 <= V) by (apply IZR_le; lia).
  assert (Hk : V / M * M = V) by (field; lra).
  assert (Hk0 : 0 <= V / M) by (apply Rmult_le_pos; [lra|apply Rlt_le, Rinv_0_lt_compat; lra]).
  split.
  - apply N2Z.inj_le, le_IZR. rewrite !N2Z.inj_mul, N2Z.inj_add, !mult_IZR, plus_IZR. fold V M. change (IZR (Z.of_N (2 ^ 21))) with 2097152. change (IZR (Z.of_N 1)) with 1.
    assert (HMS : M * IZR (Z.of_N S) <= V * (1 + 6 * u)).
    { apply Rle_trans with (M * (V / M * (1 + 6 * u))); [apply Rmult_le_compat_l; lra|].
      apply Req_le. rewrite <- Hk at 2. ring. }
    rewrite u_val in HMS. lra.
  - destruct (N.eq_dec S usize_max) as [E|E].
    + rewrite E. nia.
    + assert (HS : (S < usize_max)%N) by (pose proof (as_usize_max (f32_mul (f32_of_N v) (f32_div f32_one (f32_of_N n)))); unfold S, share in *; lia).
      specialize (F2 HS). apply N2Z.inj_le, le_IZR. rewrite !N2Z.inj_mul, !N2Z.inj_add, !mult_IZR, !plus_IZR. fold V M.
      change (IZR (Z.of_N (2 ^ 21))) with 2097152. change (IZR (Z.of_N 1)) with 1.
      assert (HMS : V * (1 - 6 * u) <= M * (IZR (Z.of_N S) + 1)).
      { apply Rle_trans with (M * (V / M * (1 - 6 * u))); [apply Req_le; rewrite <- Hk at 1; ring|]. apply Rmult_le_compat_l; lra. }
      assert (0 <= M * (IZR (Z.of_N S) + 1)) by (apply Rmult_le_pos; [lra|]; pose proof (IZR_le 0 (Z.of_N S) ltac:(lia)); lra).
      rewrite u_val in HMS. lra.
Qed.

Lemma share_mono v w n : (v <= w)%N -> (w <= usize_max)%N -> (1 <= n)%N -> (n <= usize_max)%N -> (share v n <= share w n)%N.
Proof.
  intros Hvw Hw Hn1 Hn. destruct (share_rep v n ltac:(lia) Hn1 Hn) as (r & Rr & Hr0 & Er & _).
  destruct (share_rep w n Hw Hn1 Hn) as (t & Rt & Ht0 & Et & _).
  destruct (floor_rep _ _ Rr Hr0) as [F1 _]. fold (share v n) in F1.
  destruct (floor_rep _ _ Rt Ht0) as [_ F2]. fold (share w n) in F2.
  assert (Hrt : r <= t).
  { rewrite Er, Et. apply rnd_mono. apply Rmult_le_compat_r; [|apply rnd_mono, IZR_le; lia].
    apply rnd_nonneg. unfold Rdiv. rewrite Rmult_1_l. apply Rlt_le, Rinv_0_lt_compat. pose proof (rnd_ge_1 n Hn1). lra. }
  pose proof (as_usize_max (f32_mul (f32_of_N v) (f32_div f32_one (f32_of_N n)))) as Hm. fold (share v n) in Hm.
  destruct (N.ltb_spec (share w n) usize_max) as [L|L]; [|lia]. specialize (F2 L).
  assert (H : IZR (Z.of_N (share v n)) < IZR (Z.of_N (share w n) + 1)) by (rewrite plus_IZR; lra).
  apply lt_IZR in H. lia.
Qed.

(** Halving is exact. *)
Lemma share_power v k : (v <= 2 ^ 24)%N -> (k <= 24)%N -> share v (2 ^ k) = (v / 2 ^ k)%N.
Proof.
  intros Hv Hk. assert (Hp : (2 ^ k <= 2 ^ 24)%N) by (apply N.pow_le_mono_r; lia).
  assert (Hp1 : (1 <= 2 ^ k)%N) by (pose proof (N.pow_nonzero 2 k ltac:(lia)); lia).
  destruct (share_rep v (2 ^ k) ltac:(unfold usize_max; lia) Hp1 ltac:(unfold usize_max; lia)) as (r & Rr & Hr0 & Er & _).
  rewrite !rnd_of_N_small in Er by assumption. rewrite N2Z.inj_pow in Er. change (Z.of_N 2) with 2%Z in Er.
  assert (Eb : IZR (2 ^ Z.of_N k) = bpow radix2 (Z.of_N k)) by (symmetry; apply bpow_Z; lia).
  assert (E1 : 1 / IZR (2 ^ Z.of_N k) = bpow radix2 (- Z.of_N k)) by (rewrite Eb, bpow_opp; unfold Rdiv; ring).
  assert (E2 : rnd (1 / IZR (2 ^ Z.of_N k)) = bpow radix2 (- Z.of_N k)).
  { rewrite E1. apply round_generic; auto with typeclass_instances. apply generic_format_bpow. unfold fexp, FLT_exp, SpecFloat.emin. lia. }
  rewrite E2 in Er.
  assert (E3 : rnd (IZR (Z.of_N v) * bpow radix2 (- Z.of_N k)) = IZR (Z.of_N v) * bpow radix2 (- Z.of_N k)).
  { destruct (N.eq_dec v (2 ^ 24)) as [->|Hne].
    - change (IZR (Z.of_N (2 ^ 24))) with (bpow radix2 24). rewrite <- bpow_plus. apply round_generic; auto with typeclass_instances.
      apply generic_format_bpow. unfold fexp, FLT_exp, SpecFloat.emin. lia.
    - apply round_generic; auto with typeclass_instances. apply generic_format_FLT.
      exists (Float radix2 (Z.of_N v) (- Z.of_N k)); [reflexivity| |].
      + cbn [Fnum]. rewrite Z.abs_eq by lia. change (radix2 ^ 24)%Z with (2 ^ 24)%Z. lia.
      + cbn [Fexp]. unfold SpecFloat.emin. lia. }
  rewrite E3 in Er. destruct (floor_rep _ _ Rr Hr0) as [F1 F2]. fold (share v (2 ^ k)) in F1, F2.
  assert (Hb : 0 < bpow radix2 (Z.of_N k)) by apply bpow_gt_0.
  assert (Er' : r * IZR (2 ^ Z.of_N k) = IZR (Z.of_N v)).
  { rewrite Er, Eb, Rmult_assoc, <- bpow_plus. replace (- Z.of_N k + Z.of_N k)%Z with 0%Z by lia. cbn. ring. }
  assert (HS : (share v (2 ^ k) < usize_max)%N).
  { assert (H : IZR (Z.of_N (share v (2 ^ k))) <= IZR (Z.of_N v)).
    { apply Rle_trans with (1 := F1). rewrite <- Er'. rewrite <- (Rmult_1_r r) at 1. apply Rmult_le_compat_l; [exact Hr0|].
      apply (IZR_le 1). change 2%Z with (Z.of_N 2). rewrite <- N2Z.inj_pow. lia. }
    apply le_IZR in H. unfold usize_max. lia. }
  specialize (F2 HS). apply N.div_unique with (v - 2 ^ k * share v (2 ^ k))%N.
  - apply N2Z.inj_lt. assert (Hlow : (Z.of_N (share v (2 ^ k)) * 2 ^ Z.of_N k <= Z.of_N v)%Z).
    { apply le_IZR. rewrite mult_IZR, <- Er'. apply Rmult_le_compat_r; [rewrite Eb; lra|exact F1]. }
    assert (Hhi : (Z.of_N v < (Z.of_N (share v (2 ^ k)) + 1) * 2 ^ Z.of_N k)%Z).
    { apply lt_IZR. rewrite mult_IZR, plus_IZR, <- Er'. apply Rmult_lt_compat_r; [rewrite Eb; lra|exact F2]. }
    rewrite N2Z.inj_sub; rewrite ?N2Z.inj_mul, ?N2Z.inj_pow; change (Z.of_N 2) with 2%Z; [nia|].
    apply N2Z.inj_le. rewrite N2Z.inj_mul, N2Z.inj_pow. change (Z.of_N 2) with 2%Z. lia.
  - assert (Hlow : (Z.of_N (share v (2 ^ k)) * 2 ^ Z.of_N k <= Z.of_N v)%Z).
    { apply le_IZR. rewrite mult_IZR, <- Er'. apply Rmult_le_compat_r; [rewrite Eb; lra|exact F1]. }
    assert ((2 ^ k * share v (2 ^ k) <= v)%N); [|lia].
    apply N2Z.inj_le. rewrite N2Z.inj_mul, N2Z.inj_pow. change (Z.of_N 2) with 2%Z. lia.
Qed.
