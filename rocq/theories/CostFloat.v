(** The constants of the estimate are whole numbers, kept exactly by binary32 up to 2^24. *)
From Verif Require Import Base CiuModel SamplerModel GatherModel GatherFloat CostModel.
From Coq Require Import ZArith NArith SpecFloat Reals Lra Lia.
Local Open Scope R_scope.

Definition whole (x : f32) (k : N) : Prop := rep x (IZR (Z.of_N k)) /\ (k <= 2 ^ 24)%N.

Lemma range_small k : (k <= 2 ^ 24)%N -> in_range_R (IZR (Z.of_N k)).
Proof.
  intros H. apply in_range_le with 24%Z; try lia.
  - apply IZR_le. lia.
  - rewrite bpow_Z by lia. apply IZR_le. lia.
Qed.

Lemma whole_of_N k : (k <= 2 ^ 24)%N -> whole (f32_of_N k) k.
Proof.
  intros H. split; [|assumption]. rewrite <- (rnd_of_N_small k) by assumption. apply rep_of_N. unfold usize_max. lia.
Qed.

Lemma whole_one : whole f32_one 1.
Proof. split; [apply rep_one|lia]. Qed.

Lemma whole_add x y a b : whole x a -> whole y b -> (a + b <= 2 ^ 24)%N -> whole (f32_add x y) (a + b).
Proof.
  intros [Hx _] [Hy _] H. split; [|assumption].
  rewrite <- rnd_of_N_small by assumption. rewrite N2Z.inj_add, plus_IZR.
  apply rep_add; auto. rewrite <- plus_IZR, <- N2Z.inj_add. now apply range_small.
Qed.

Lemma whole_mul x y a b : whole x a -> whole y b -> (a * b <= 2 ^ 24)%N -> whole (f32_mul x y) (a * b).
Proof.
  intros [Hx _] [Hy _] H. split; [|assumption].
  rewrite <- rnd_of_N_small by assumption. rewrite N2Z.inj_mul, mult_IZR.
  apply rep_mul; auto. rewrite <- mult_IZR, <- N2Z.inj_mul. now apply range_small.
Qed.

Lemma whole_usize x k : whole x k -> f32_as_usize x = k.
Proof.
  intros [Hx Hk]. destruct (floor_rep x _ Hx) as [F1 F2]; [apply IZR_le; lia|].
  assert (Hm : (f32_as_usize x < usize_max)%N).
  { apply le_IZR in F1. unfold usize_max. lia. }
  apply le_IZR in F1. specialize (F2 Hm). rewrite <- plus_IZR in F2. apply lt_IZR in F2. lia.
Qed.

(** Equal floats are truncated to the same number. *)
Lemma feqb_usize x y : SFeqb x y = true -> f32_as_usize x = f32_as_usize y.
Proof.
  unfold SFeqb, f32_as_usize. destruct x as [sx|sx| |sx mx ex], y as [sy|sy| |sy my ey]; cbn [SFcompare floor_as_usize]; try discriminate; auto;
    try (destruct sx; discriminate); try (destruct sy; discriminate).
  - destruct sx, sy; try discriminate; reflexivity.
  - destruct sx, sy; try discriminate; destruct (Z.compare_spec ex ey); try discriminate; subst;
      destruct (Pos.compare_cont Eq mx my) eqn:E; try discriminate; intros _; apply Pos.compare_eq in E; now subst.
Qed.
