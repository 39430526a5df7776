(** Proofs about the run-time statistics. *)
From Verif Require Import Base CiuModel SamplerModel GatherModel GatherSpec GatherFloat.
From Coq Require Import NArith ZArith SpecFloat Reals.
Local Open Scope nat_scope.

(** ** Without overflow *)

Lemma usize_add_ok a b c : usize_add true a b = Ok c -> c = (a + b)%N /\ (c <= usize_max)%N.
Proof. unfold usize_add. destruct (N.leb_spec (a + b) usize_max); [|discriminate]. intros [= <-]. auto. Qed.
Lemma usize_mul_ok a b c : usize_mul true a b = Ok c -> c = (a * b)%N /\ (c <= usize_max)%N.
Proof. unfold usize_mul. destruct (N.leb_spec (a * b) usize_max); [|discriminate]. intros [= <-]. auto. Qed.
Lemma usize_div_ok a b c : usize_div a b = Ok c -> c = (a / b)%N /\ b <> 0%N.
Proof. unfold usize_div. destruct (N.eqb_spec b 0); [discriminate|]. intros [= <-]. auto. Qed.

Lemma div_le a b : b <> 0%N -> (a / b <= a)%N.
Proof. intros H. apply N.div_le_upper_bound; nia. Qed.

Fixpoint vsum (a b : list N) : list N :=
  match a, b with x :: a, y :: b => (x + y)%N :: vsum a b | _, _ => [] end.

Lemma sum_into_ok a : forall b c, sum_into true a b = Ok c -> c = vsum a b.
Proof.
  induction a as [|x a IH]; intros [|y b] c; cbn; try (intros [= <-]; reflexivity).
  destruct (usize_add true x y) as [z| |] eqn:E; cbn; try discriminate.
  destruct (sum_into true a b) as [l| |] eqn:E2; cbn; try discriminate. intros [= <-].
  apply usize_add_ok in E as [-> _]. now rewrite (IH _ _ E2).
Qed.

Lemma element_wise_sum_ok a b c : element_wise_sum true a b = Ok c -> c = vsum a b /\ List.length a = List.length b.
Proof.
  unfold element_wise_sum. destruct (Nat.eqb_spec (List.length a) (List.length b)); [|discriminate].
  intros H. split; [now apply sum_into_ok|assumption].
Qed.

Lemma vsum_length a : forall b, List.length a = List.length b -> List.length (vsum a b) = List.length a.
Proof. induction a as [|x a IH]; intros [|y b] H; cbn in *; try discriminate; auto. Qed.

Lemma vsum_nth a : forall b i, List.length a = List.length b -> nth i (vsum a b) 0%N = (nth i a 0 + nth i b 0)%N.
Proof.
  induction a as [|x a IH]; intros [|y b] i H; cbn in *; try discriminate; [now destruct i|].
  destruct i; auto.
Qed.

(** ** The reports used *)

Definition has_bytesb (s : sample) : bool := existsb (fun v => 0 <? v)%N (s_bytes s).
Lemma has_bytesb_spec s : has_bytesb s = true <-> has_bytes s.
Proof.
  unfold has_bytesb, has_bytes. rewrite existsb_exists.
  split; intros (b & H & G); exists b; split; auto; now apply N.ltb_lt.
Qed.

Definition found_count (l : list sample) : nat := List.length (filter has_bytesb l).
Lemma found_iff l n : found l n <-> n = found_count l.
Proof.
  unfold found_count. revert n. induction l as [|s l IH]; intros n; cbn.
  - split; [inversion 1; reflexivity|]. intros ->. constructor.
  - destruct (has_bytesb s) eqn:E; cbn; split.
    + inversion 1 as [|s' l' k Hb Hf|s' l' k Hb Hf]; subst; [f_equal; now apply IH|]. apply has_bytesb_spec in E. contradiction.
    + intros ->. apply found_yes; [now apply has_bytesb_spec|]. now apply IH.
    + inversion 1 as [|s' l' k Hb Hf|s' l' k Hb Hf]; subst; [|now apply IH].
      apply has_bytesb_spec in Hb. congruence.
    + intros ->. apply found_no; [|now apply IH]. intros Hb. apply has_bytesb_spec in Hb. congruence.
Qed.

Lemma satisfied_iff total l : satisfied total l <-> (a_fifth total <= N.of_nat (found_count l))%N \/ N.of_nat (List.length l) = total.
Proof.
  unfold satisfied. split; intros [H|H]; auto.
  - destruct H as (n & Hf & Hn). apply found_iff in Hf. subst. auto.
  - left. exists (found_count l). split; [now apply found_iff|assumption].
Qed.

Definition ended_count (l : list sample) : nat := List.length (filter s_eos l).

(** What is added up, for the reports [l] so far. *)
Definition added (n_cols : nat) (l : list sample) (g : gathered) : Prop :=
  g_rows g = Nsum (map s_rows l) /\ g_pulled g = Nsum (map s_pulled l) /\
  (g_rows g <= usize_max)%N /\ (g_pulled g <= usize_max)%N /\
  List.length (g_bytes g) = n_cols /\
  (forall i, nth i (g_bytes g) 0%N = Nsum (map (fun s => nth i (s_bytes s) 0%N) l)) /\
  (forall s, In s l -> List.length (s_bytes s) = n_cols) /\
  g_ndv g = map s_ndv l /\ g_nulls g = map s_nulls l /\
  g_with_bytes g = N.of_nat (found_count l) /\ g_eos g = N.of_nat (ended_count l) /\ g_done g = N.of_nat (List.length l).

Lemma Nsum_app a b : Nsum (a ++ b) = (Nsum a + Nsum b)%N.
Proof. unfold Nsum. induction a as [|x a IH]; cbn; [lia|]. rewrite IH. lia. Qed.

Lemma Nsum_snoc {A} (f : A -> N) l x : Nsum (map f (l ++ [x])) = (Nsum (map f l) + f x)%N.
Proof. rewrite map_app, Nsum_app. cbn. lia. Qed.

Lemma nothing_added n_cols : added n_cols [] (nothing_gathered n_cols).
Proof.
  unfold added, nothing_gathered. cbn. do 4 (split; [unfold usize_max; lia|]).
  split; [apply repeat_length|].
  split; [induction n_cols as [|n IH]; intros [|i]; cbn; auto|].
  split; [intros s []|]. repeat split.
Qed.

Lemma add_sample_added n_cols l g s g' : added n_cols l g -> add_sample true g s = Ok g' -> added n_cols (l ++ [s]) g'.
Proof.
  intros (R & P & RM & PM & L & B & LB & ND & NU & W & E & D) H. unfold add_sample in H.
  destruct (usize_add true (g_rows g) (s_rows s)) as [rows| |] eqn:E1; cbn in H; try discriminate.
  destruct (usize_add true (g_pulled g) (s_pulled s)) as [pulled| |] eqn:E2; cbn in H; try discriminate.
  destruct (element_wise_sum true (g_bytes g) (s_bytes s)) as [bytes| |] eqn:E3; cbn in H; try discriminate.
  injection H as <-. apply usize_add_ok in E1 as [-> M1], E2 as [-> M2]. apply element_wise_sum_ok in E3 as [-> E3].
  unfold added. cbn [g_rows g_pulled g_bytes g_ndv g_nulls g_with_bytes g_eos g_done].
  split; [rewrite Nsum_snoc, R; reflexivity|]. split; [rewrite Nsum_snoc, P; reflexivity|].
  split; [exact M1|]. split; [exact M2|].
  split; [rewrite vsum_length; auto|].
  split. { intros i. rewrite vsum_nth by assumption. rewrite Nsum_snoc, B. reflexivity. }
  split. { intros x Hx. apply in_app_or in Hx as [Hx|[<-|[]]]; [now apply LB|congruence]. }
  split; [rewrite ND, map_app; reflexivity|]. split; [rewrite NU, map_app; reflexivity|].
  unfold found_count, ended_count in *. rewrite !filter_app, !app_length. cbn. fold (has_bytesb s).
  split; [|split].
  - rewrite W. destruct (has_bytesb s); cbn; lia.
  - rewrite E. destruct (s_eos s); cbn; lia.
  - rewrite D. lia.
Qed.

Lemma collect_added n_cols total : (total <= 2 ^ 20)%N -> forall arrivals l g g',
  added n_cols l g -> (l <> [] -> ~ satisfied total l) ->
  (forall a x b, l = a ++ x :: b -> a <> [] -> ~ satisfied total a) ->
  collect true total g arrivals = Ok g' ->
  exists used later, arrivals = used ++ later /\ added n_cols (l ++ used) g' /\
    (later = [] \/ satisfied total (l ++ used)) /\ (used = [] -> later = []) /\
    (forall a x b, l ++ used = a ++ x :: b -> a <> [] -> ~ satisfied total a).
Proof.
  intros Ht. induction arrivals as [|s arrivals IH]; intros l g g' Ha Hns Hpre H; cbn in H.
  - injection H as <-. exists [], []. rewrite (app_nil_r l). split; [reflexivity|]. split; [assumption|].
    split; [now left|]. split; [reflexivity|assumption].
  - destruct (add_sample true g s) as [g1| |] eqn:E; cbn in H; try discriminate.
    pose proof (add_sample_added _ _ _ _ _ Ha E) as A1.
    assert (W : g_with_bytes g1 = N.of_nat (found_count (l ++ [s]))) by apply A1.
    assert (D : g_done g1 = N.of_nat (List.length (l ++ [s]))) by apply A1.
    rewrite enough_is_a_fifth in H by assumption. rewrite W, D in H.
    assert (Pre : forall a x b, l ++ [s] = a ++ x :: b -> a <> [] -> ~ satisfied total a).
    { intros a x b Eq Ne. destruct b as [|y b] using rev_ind.
      - apply app_inj_tail in Eq as [-> _]. now apply Hns.
      - rewrite app_comm_cons, app_assoc in Eq. apply app_inj_tail in Eq as [Eq _]. eapply Hpre; eauto. }
    destruct (N.leb_spec (a_fifth total) (N.of_nat (found_count (l ++ [s])))) as [L1|L1].
    + injection H as <-. exists [s], arrivals. do 2 (split; [auto|]). split; [right; apply satisfied_iff; auto|]. split; [discriminate|assumption].
    + destruct (N.eqb_spec (N.of_nat (List.length (l ++ [s]))) total) as [L2|L2].
      * injection H as <-. exists [s], arrivals. do 2 (split; [auto|]). split; [right; apply satisfied_iff; auto|]. split; [discriminate|assumption].
      * destruct (IH (l ++ [s]) g1 g') as (used & later & E1 & E2 & E3 & E4 & E5); auto.
        { intros _ Hs. apply satisfied_iff in Hs as [Hs|Hs]; [lia|contradiction]. }
        exists (s :: used), later. rewrite <- app_assoc in *. cbn in *. subst arrivals.
        split; [reflexivity|]. split; [assumption|]. split; [assumption|]. split; [discriminate|assumption].
Qed.

Lemma collect_needed n_cols total arrivals g : (total <= 2 ^ 20)%N ->
  collect true total (nothing_gathered n_cols) arrivals = Ok g ->
  exists used, needed total arrivals used /\ added n_cols used g.
Proof.
  intros Ht H.
  destruct (collect_added n_cols total Ht arrivals [] _ g (nothing_added n_cols)) as (used & later & E1 & E2 & E3 & E4 & E5); auto.
  - intros [] x b; discriminate.
  - exists used. split; [|assumption]. exists later. auto.
Qed.

(** ** Announced rows *)

Definition known (o : option N) : N := match o with Some n => n | None => 0%N end.

Lemma leaf_rows_some leaves : forall t o, (t <= usize_max)%N -> leaf_rows true (Some t) leaves = Ok o ->
  o = Some (t + Nsum (map known leaves))%N /\ (t + Nsum (map known leaves) <= usize_max)%N.
Proof.
  induction leaves as [|[n|] leaves IH]; intros t o Ht H; cbn [leaf_rows map Nsum fold_right known] in *.
  - injection H as <-. rewrite N.add_0_r. auto.
  - destruct (usize_add true t n) as [t'| |] eqn:E; cbn [bind] in H; try discriminate.
    apply usize_add_ok in E as [-> M]. destruct (IH _ _ M H) as [-> G]. fold (Nsum (map known leaves)) in *.
    rewrite N.add_assoc. auto.
  - apply IH in H; auto.
Qed.

Lemma leaf_rows_announced leaves o : Forall (fun l => match l with Some n => (n <= usize_max)%N | None => True end) leaves ->
  leaf_rows true None leaves = Ok o -> announced leaves o /\ match o with Some l => (l <= usize_max)%N | None => True end.
Proof.
  intros F. assert (G : forall leaves, Forall (fun l => match l with Some n => (n <= usize_max)%N | None => True end) leaves ->
    leaf_rows true None leaves = Ok o ->
    ((forall x, In x leaves -> x = None) /\ o = None) \/
    ((exists n, In (Some n) leaves) /\ o = Some (Nsum (map known leaves)) /\ (Nsum (map known leaves) <= usize_max)%N)).
  { clear. induction leaves as [|[n|] leaves IH]; intros F H; cbn [leaf_rows] in H.
    - left. injection H as <-. split; [intros x []|reflexivity].
    - inversion F as [|? ? Hn F']; subst. apply leaf_rows_some in H as [-> M]; [|assumption].
      right. split; [exists n; now left|]. cbn [map Nsum fold_right known]. auto.
    - inversion F as [|? ? _ F']; subst. destruct (IH F' H) as [[A B]|[(n & A) B]].
      + left. split; [|assumption]. intros x [<-|Hx]; auto.
      + right. split; [exists n; now right|]. cbn [map Nsum fold_right known]. rewrite N.add_0_l. exact B. }
  intros H. destruct (G leaves F H) as [[A ->]|[A [-> M]]].
  - split; [now constructor|exact Logic.I].
  - split; [|assumption]. constructor. exact A.
Qed.

(** ** Progress *)

Lemma ended_count_le l : ended_count l <= List.length l.
Proof. unfold ended_count. induction l as [|s l IH]; cbn; [lia|]. destruct (s_eos s); cbn; lia. Qed.

Lemma ended_all l : ended_count l = List.length l <-> all_ended l.
Proof.
  unfold all_ended. induction l as [|s l IH]; cbn; [split; [intros _ x []|reflexivity]|].
  pose proof (ended_count_le l) as G. unfold ended_count in *. cbn. destruct (s_eos s) eqn:E; cbn; split.
  - intros H x [<-|Hx]; [assumption|]. apply IH; [lia|assumption].
  - intros H. f_equal. apply IH. intros x Hx. apply H. now right.
  - intros H. lia.
  - intros H. specialize (H s (or_introl eq_refl)). congruence.
Qed.

Definition bounded_leaves (leaves : list (option N)) : Prop :=
  Forall (fun l => match l with Some n => (n <= usize_max)%N | None => True end) leaves.

(** The completed part is known, and amounts are divided by it. *)
Lemma pct_progress n_cols used g leaves pulled estimate : added n_cols used g -> (pulled <= usize_max)%N ->
  bounded_leaves leaves ->
  (if (g_eos g =? g_done g)%N then Ok None else leaf_rows true None leaves) = Ok estimate ->
  exists num den, progress leaves used pulled num den /\ (num <= den)%N /\ (1 <= den)%N /\
    (forall x, (x <= usize_max)%N -> (0 < num)%N -> extrapolates x num den (f32_as_usize (f32_div (f32_of_N x) (estimated_pct_sampled g pulled estimate)))) /\
    (num = 0%N -> estimated_pct_sampled g pulled estimate = S754_zero false).
Proof.
  intros (_ & _ & _ & _ & _ & _ & _ & _ & _ & _ & E & D) Hp F H. unfold estimated_pct_sampled.
  destruct (N.eqb_spec (g_eos g) (g_done g)) as [Q|Q].
  - exists 1%N, 1%N. split; [apply progress_complete; apply ended_all; lia|]. do 2 (split; [lia|]). split; [|discriminate].
    intros x Hx _. now apply pct_complete.
  - assert (NA : ~ all_ended used) by (intros A; apply ended_all in A; lia).
    apply leaf_rows_announced in H as [A M]; [|assumption]. destruct estimate as [l|].
    + destruct (N.eq_dec l 0) as [-> |Hl].
      * exists 1%N, 1%N. split; [now apply progress_nothing_expected|]. do 2 (split; [lia|]). split; [|discriminate].
        intros x Hx _. rewrite pct_nothing_expected by assumption. now apply pct_complete.
      * exists (N.min pulled l), l. split; [apply progress_measured; auto; lia|]. do 2 (split; [lia|]). split.
        -- intros x Hx Hpos. apply pct_measured; auto; lia.
        -- intros Z. assert (pulled = 0)%N as -> by lia. apply pct_no_progress; [lia|assumption].
    + exists 1%N, 5%N. split; [now apply progress_unknown|]. do 2 (split; [lia|]). split; [|discriminate].
      intros x Hx _. now apply pct_fifth.
Qed.

Lemma pct_float n_cols used g leaves pulled estimate : added n_cols used g -> (pulled <= usize_max)%N -> bounded_leaves leaves ->
  (if (g_eos g =? g_done g)%N then Ok None else leaf_rows true None leaves) = Ok estimate -> float (estimated_pct_sampled g pulled estimate).
Proof.
  intros _ Hp F H. unfold estimated_pct_sampled. destruct (g_eos g =? g_done g)%N; [exact (float_rep _ _ rep_one)|].
  apply leaf_rows_announced in H as [_ M]; [|assumption]. destruct estimate as [l|]; [|exact (float_rep _ _ rep_fifth)].
  apply float_min; [|exact (float_rep _ _ rep_one)]. apply float_div; now apply float_of_N.
Qed.

(** ** The estimate *)

Lemma mapM_mul_div k d l l1 l2 : vec_mul true l k = Ok l1 -> vec_div l1 d = Ok l2 ->
  l2 = map (fun x => (x * k / d)%N) l.
Proof.
  unfold vec_mul, vec_div. revert l1 l2. induction l as [|x l IH]; intros l1 l2 H1 H2; cbn in H1.
  - injection H1 as <-. cbn in H2. injection H2 as <-. reflexivity.
  - destruct (usize_mul true x k) as [y| |] eqn:E; cbn in H1; try discriminate.
    destruct (mapM _ l) as [ys| |] eqn:E2; cbn in H1; try discriminate. injection H1 as <-.
    cbn in H2. destruct (usize_div y d) as [z| |] eqn:E3; cbn in H2; try discriminate.
    destruct (mapM (fun x => usize_div x d) ys) as [zs| |] eqn:E4; cbn in H2; try discriminate. injection H2 as <-.
    apply usize_mul_ok in E as [-> _]. apply usize_div_ok in E3 as [-> _]. cbn. now rewrite (IH ys zs).
Qed.

Lemma mapM_mul k l l1 : vec_mul true l k = Ok l1 -> l1 = map (fun x => (x * k)%N) l.
Proof.
  unfold vec_mul. revert l1. induction l as [|x l IH]; intros l1 H1; cbn in H1.
  - injection H1 as <-. reflexivity.
  - destruct (usize_mul true x k) as [y| |] eqn:E; cbn in H1; try discriminate.
    destruct (mapM _ l) as [ys| |] eqn:E2; cbn in H1; try discriminate. injection H1 as <-.
    apply usize_mul_ok in E as [-> _]. cbn. now rewrite (IH ys).
Qed.

Lemma usize_sum_ok l : forall a s, usize_sum true a l = Ok s -> s = (a + Nsum l)%N.
Proof.
  induction l as [|x l IH]; intros a s H; cbn in H.
  - injection H as <-. cbn. lia.
  - destruct (usize_add true a x) as [y| |] eqn:E; cbn in H; try discriminate.
    apply usize_add_ok in E as [-> _]. apply IH in H. cbn. fold (Nsum l). lia.
Qed.

(** The columns' bytes for all partitions. *)
Definition bytes_of_column (total : N) (used : list sample) (i : nat) : N :=
  for_all_partitions total (fun s => nth i (s_bytes s) 0%N) used.

Lemma extrapolate_ok pc nc total leaves used g s : added nc used g -> used <> [] -> bounded_leaves leaves ->
  extrapolate true pc nc total leaves g = Ok s ->
  exists num den pct, progress leaves used (for_all_partitions total s_pulled used) num den /\ (num <= den)%N /\ (1 <= den)%N /\
    (for_all_partitions total s_rows used <= usize_max)%N /\
    (forall x, (x <= usize_max)%N -> (0 < num)%N -> extrapolates x num den (f32_as_usize (f32_div (f32_of_N x) pct))) /\
    (num = 0%N -> pct = S754_zero false) /\ float pct /\ (all_ended used -> pct = f32_one) /\
    let n := f32_as_usize (f32_div (f32_of_N (for_all_partitions total s_rows used)) pct) in
    let k := f32_as_usize (f32_div f32_one pct) in
    if (n =? 0)%N then s = zero_stats nc
    else exists ndv nulls, vec_avg_reduce (map s_ndv used) = Ok ndv /\ List.length ndv = nc /\
      vec_avg_reduce (map s_nulls used) = Ok nulls /\ List.length nulls = nc /\
      num_rows s = Inexact n /\
      total_byte_size s = Inexact (Nsum (map (fun i => (bytes_of_column total used i * k)%N) (seq 0 nc))) /\
      columns s = map (fun '(d, z, b) => mkColStats (Inexact (f32_as_usize (f32_mul z (f32_of_N n))))
                                           (Inexact (f32_as_usize (f32_mul d (f32_of_N n)))) (Inexact b))
                    (combine (combine ndv nulls) (map (fun i => (bytes_of_column total used i * k)%N) (seq 0 nc))).
Proof.
  intros A Hne F H. pose proof A as (R & P & RM & PM & L & B & LB & ND & NU & W & E & D).
  unfold extrapolate in H.
  assert (Hd : N.of_nat (List.length used) <> 0%N) by (destruct used; cbn; [congruence|lia]).
  destruct (N.eqb_spec (g_done g) 0) as [Q|_]; [lia|].
  destruct (vec_mul true (g_bytes g) total) as [b0| |] eqn:E1; cbn [bind] in H; try discriminate.
  destruct (vec_div b0 (g_done g)) as [b1| |] eqn:E2; cbn [bind] in H; try discriminate.
  destruct (usize_mul true (g_rows g) total) as [r0| |] eqn:E3; cbn [bind] in H; try discriminate.
  destruct (usize_div r0 (g_done g)) as [r1| |] eqn:E4; cbn [bind] in H; try discriminate.
  destruct (usize_mul true (g_pulled g) total) as [p0| |] eqn:E5; cbn [bind] in H; try discriminate.
  destruct (usize_div p0 (g_done g)) as [p1| |] eqn:E6; cbn [bind] in H; try discriminate.
  match type of H with bind ?x _ = _ => destruct x as [estimate| |] eqn:E7; cbn [bind] in H; try discriminate end.
  pose proof (mapM_mul_div _ _ _ _ _ E1 E2) as Hb1. clear E1 E2.
  apply usize_mul_ok in E3 as [-> M3], E5 as [-> M5]. apply usize_div_ok in E4 as [E4 Hd4], E6 as [E6 _].
  rewrite R, D in E4. rewrite P, D in E6. fold (for_all_partitions total s_rows used) in E4.
  fold (for_all_partitions total s_pulled used) in E6. subst r1 p1.
  assert (M4 : (for_all_partitions total s_rows used <= usize_max)%N).
  { unfold for_all_partitions. rewrite <- R. pose proof (div_le (g_rows g * total) _ Hd). lia. }
  assert (M6 : (for_all_partitions total s_pulled used <= usize_max)%N).
  { unfold for_all_partitions. rewrite <- P. pose proof (div_le (g_pulled g * total) _ Hd). lia. }
  destruct (pct_progress nc used g leaves _ estimate A M6 F E7) as (num & den & Hpr & Hnd & Hden & Hex & Hz).
  exists num, den, (estimated_pct_sampled g (for_all_partitions total s_pulled used) estimate).
  set (pct := estimated_pct_sampled g (for_all_partitions total s_pulled used) estimate) in *.
  do 6 (split; [assumption|]). split; [now apply (pct_float nc used g leaves)|].
  split. { intros Al. apply ended_all in Al. unfold pct, estimated_pct_sampled. rewrite E, D, Al, N.eqb_refl. reflexivity. }
  cbv zeta.
  set (n := f32_as_usize (f32_div (f32_of_N (for_all_partitions total s_rows used)) pct)) in *.
  destruct (n =? 0)%N; [now injection H as <-|].
  destruct (vec_mul true b1 (f32_as_usize (f32_div f32_one pct))) as [pc'| |] eqn:E8; cbn [bind] in H; try discriminate.
  destruct (usize_sum true 0 pc') as [tb| |] eqn:E9; cbn [bind] in H; try discriminate.
  destruct (vec_avg_reduce (g_ndv g)) as [ndv| |] eqn:E10; cbn [bind] in H; try discriminate.
  destruct (Nat.eqb_spec (List.length ndv) nc) as [Ln|]; [|discriminate H]. cbn [negb] in H.
  destruct (vec_avg_reduce (g_nulls g)) as [nulls| |] eqn:E11; cbn [bind] in H; try discriminate.
  destruct (Nat.eqb_spec (List.length nulls) nc) as [Lz|]; [|discriminate H]. cbn [negb] in H.
  injection H as <-. exists ndv, nulls. rewrite <- ND, <- NU. do 4 (split; [assumption|]).
  apply mapM_mul in E8. apply usize_sum_ok in E9. rewrite N.add_0_l in E9.
  assert (HB : pc' = map (fun i => (bytes_of_column total used i * f32_as_usize (f32_div f32_one pct))%N) (seq 0 nc)).
  { subst pc' b1. rewrite map_map.
    assert (G : g_bytes g = map (fun i => nth i (g_bytes g) 0%N) (seq 0 nc)).
    { rewrite <- L. clear. generalize (g_bytes g). intros l. induction l as [|x l IH]; cbn; [reflexivity|].
      f_equal. rewrite <- seq_shift, map_map. exact IH. }
    rewrite G, map_map. apply map_ext. intros i. unfold bytes_of_column, for_all_partitions. rewrite <- B, D. reflexivity. }
  rewrite HB in E9 |- *. cbn [num_rows total_byte_size columns]. split; [reflexivity|]. split; [now rewrite E9|]. reflexivity.
Qed.

Lemma needed_length total arrivals used : (1 <= total)%N -> needed total arrivals used -> (N.of_nat (List.length used) <= total)%N.
Proof.
  intros Ht (later & _ & _ & _ & Hp). destruct (N.le_gt_cases (N.of_nat (List.length used)) total) as [H|H]; [assumption|].
  exfalso. set (k := N.to_nat total). assert (Hk : 1 <= k < List.length used) by (unfold k; lia).
  destruct (skipn k used) as [|x r] eqn:E.
  - apply (f_equal (@List.length _)) in E. rewrite skipn_length in E. cbn in E. lia.
  - apply (Hp (firstn k used) x r).
    + rewrite <- E. symmetry. apply firstn_skipn.
    + intros Z. apply (f_equal (@List.length _)) in Z. rewrite firstn_length in Z. cbn in Z. lia.
    + apply satisfied_iff. right. rewrite firstn_length. unfold k in *. lia.
Qed.

Lemma no_rows total used : (N.of_nat (List.length used) <= total)%N -> used <> [] ->
  for_all_partitions total s_rows used = 0%N -> forall s, In s used -> s_rows s = 0%N.
Proof.
  intros Hl Hne H. unfold for_all_partitions in H.
  assert (Hd : N.of_nat (List.length used) <> 0%N) by (destruct used; cbn; [congruence|lia]).
  assert (Z : Nsum (map s_rows used) = 0%N).
  { apply N.div_small_iff in H; [|assumption]. destruct (N.eq_dec (Nsum (map s_rows used)) 0) as [|Hn]; [assumption|]. nia. }
  clear -Z. induction used as [|x used IH]; intros s []; cbn in Z; fold (Nsum (map s_rows used)) in Z; subst; [lia|].
  apply IH; [lia|assumption].
Qed.

(** ** Averages *)

Lemma f32_sums_sum_of k : forall acc v, (Z.of_nat k < 2 ^ 24)%Z -> Forall (sum_of k) acc -> Forall ratio v ->
  Forall (sum_of (S k)) (f32_sums acc v).
Proof.
  intros acc v Hk. revert v. unfold f32_sums. induction acc as [|x acc IH]; intros [|y v] Ha Hv; cbn; auto.
  inversion Ha; inversion Hv; subst. constructor; [now apply sum_of_add|]. now apply IH.
Qed.

Lemma avg_from_sum_of vecs : forall k acc l, (Z.of_nat k + Z.of_nat (List.length vecs) <= 2 ^ 24)%Z ->
  Forall (sum_of k) acc -> Forall (Forall ratio) vecs -> avg_from acc vecs = Ok l -> Forall (sum_of (k + List.length vecs)) l.
Proof.
  induction vecs as [|v vecs IH]; intros k acc l Hk Ha Hv H; cbn [avg_from List.length] in *.
  - injection H as <-. rewrite Nat.add_0_r. exact Ha.
  - inversion Hv as [|? ? Hv1 Hv2]; subst. destruct v as [|y v].
    + apply IH with (k := k) in H; auto; [|lia]. eapply Forall_impl; [|exact H]. intros x. apply sum_of_mono. lia.
    + destruct (List.length acc =? List.length (y :: v)); [|discriminate].
      apply IH with (k := S k) in H; auto; [|lia|].
      * eapply Forall_impl; [|exact H]. intros x. apply sum_of_mono. lia.
      * apply f32_sums_sum_of; auto. lia.
Qed.

Lemma first_nonempty_spec vecs : forall v rest, first_nonempty vecs = Some (v, rest) -> Forall (Forall ratio) vecs ->
  Forall ratio v /\ Forall (Forall ratio) rest /\ S (List.length rest) <= List.length vecs.
Proof.
  induction vecs as [|[|y w] vecs IH]; intros v rest H F; cbn in H; try discriminate; inversion F; subst.
  - destruct (IH _ _ H) as (A & B & C); auto. repeat split; auto. cbn. lia.
  - injection H as <- <-. auto.
Qed.

Lemma ratio_sum_of x : ratio x -> sum_of 1 x.
Proof. intros H. destruct (ratio_rep x H) as (v & Hv & V). exists v. cbn. auto. Qed.

Lemma averages vecs l : (Z.of_nat (List.length vecs) <= 2 ^ 24)%Z -> Forall (Forall ratio) vecs -> vec_avg_reduce vecs = Ok l ->
  Forall (fun x => exists v, rep x v /\ (0 <= v <= 1)%R) l.
Proof.
  intros Hl F H. unfold vec_avg_reduce in H. destruct (first_nonempty vecs) as [[v rest]|] eqn:E; [|injection H as <-; constructor].
  destruct (first_nonempty_spec _ _ _ E F) as (A & B & C).
  destruct (avg_from v rest) as [acc| |] eqn:Ea; cbn [bind] in H; try discriminate. injection H as <-.
  apply avg_from_sum_of with (k := 1) in Ea; auto; [|lia|].
  - apply Forall_map. eapply Forall_impl; [|exact Ea]. intros x Hx. apply average_le_1; [lia|].
    eapply sum_of_mono; [|exact Hx]. lia.
  - eapply Forall_impl; [|exact A]. intros x. apply ratio_sum_of.
Qed.

(** ** Without overflow checks nothing changes unless there is an overflow *)

Definition agrees {A} (a b : Res A) : Prop := forall x, a = Ok x -> b = Ok x.

Lemma agrees_bind {A B} (a a' : Res A) (f f' : A -> Res B) : agrees a a' -> (forall x, a = Ok x -> agrees (f x) (f' x)) -> agrees (bind a f) (bind a' f').
Proof.
  intros H G y. destruct a as [x| |]; cbn; try discriminate. rewrite (H x eq_refl). cbn. now apply G.
Qed.
Lemma agrees_refl {A} (a : Res A) : agrees a a.
Proof. intros x H. exact H. Qed.
Lemma agrees_add a b : agrees (usize_add true a b) (usize_add false a b).
Proof. intros x. unfold usize_add. destruct (a + b <=? usize_max)%N; [auto|discriminate]. Qed.
Lemma agrees_mul a b : agrees (usize_mul true a b) (usize_mul false a b).
Proof. intros x. unfold usize_mul. destruct (a * b <=? usize_max)%N; [auto|discriminate]. Qed.
Lemma agrees_sum_into a : forall b, agrees (sum_into true a b) (sum_into false a b).
Proof.
  induction a as [|x a IH]; intros [|y b]; try apply agrees_refl. cbn.
  apply agrees_bind; [apply agrees_add|]. intros z _. apply agrees_bind; [apply IH|]. intros l _. apply agrees_refl.
Qed.
Lemma agrees_vec_mul l k : agrees (vec_mul true l k) (vec_mul false l k).
Proof.
  unfold vec_mul. induction l as [|x l IH]; [apply agrees_refl|]. cbn. apply agrees_bind; [apply agrees_mul|].
  intros y _. apply agrees_bind; [apply IH|]. intros ys _. apply agrees_refl.
Qed.
Lemma agrees_leaf_rows l : forall t, agrees (leaf_rows true t l) (leaf_rows false t l).
Proof.
  induction l as [|[n|] l IH]; intros t; cbn; [apply agrees_refl| |apply IH].
  destruct t; [|apply IH]. apply agrees_bind; [apply agrees_add|]. intros x _. apply IH.
Qed.
Lemma agrees_sum l : forall a, agrees (usize_sum true a l) (usize_sum false a l).
Proof.
  induction l as [|x l IH]; intros a; cbn; [apply agrees_refl|]. apply agrees_bind; [apply agrees_add|]. intros y _. apply IH.
Qed.
Lemma agrees_add_sample g s : agrees (add_sample true g s) (add_sample false g s).
Proof.
  unfold add_sample. apply agrees_bind; [apply agrees_add|]. intros r _. apply agrees_bind; [apply agrees_add|]. intros p _.
  apply agrees_bind; [|intros b _; apply agrees_refl]. unfold element_wise_sum.
  destruct (_ =? _); [apply agrees_sum_into|apply agrees_refl].
Qed.
Lemma agrees_collect total l : forall g, agrees (collect true total g l) (collect false total g l).
Proof.
  induction l as [|s l IH]; intros g; cbn [collect]; [apply agrees_refl|]. apply agrees_bind; [apply agrees_add_sample|].
  intros g' _. destruct (enough total <=? g_with_bytes g')%N; [apply agrees_refl|]. destruct (g_done g' =? total)%N; [apply agrees_refl|apply IH].
Qed.
Lemma agrees_extrapolate pc nc total leaves g : agrees (extrapolate true pc nc total leaves g) (extrapolate false pc nc total leaves g).
Proof.
  unfold extrapolate. destruct (g_done g =? 0)%N; [apply agrees_refl|].
  apply agrees_bind; [apply agrees_vec_mul|]. intros b _. apply agrees_bind; [apply agrees_refl|]. intros b' _.
  apply agrees_bind; [apply agrees_mul|]. intros r _. apply agrees_bind; [apply agrees_refl|]. intros r' _.
  apply agrees_bind; [apply agrees_mul|]. intros p _. apply agrees_bind; [apply agrees_refl|]. intros p' _.
  apply agrees_bind. { destruct (g_eos g =? g_done g)%N; [apply agrees_refl|apply agrees_leaf_rows]. }
  intros e _. cbv zeta. destruct (_ =? 0)%N; [apply agrees_refl|].
  apply agrees_bind; [apply agrees_vec_mul|]. intros c _. apply agrees_bind; [apply agrees_sum|]. intros t _. apply agrees_refl.
Qed.
Lemma agrees_gather pc nc pt t leaves l : agrees (gather true pc nc pt t leaves l) (gather false pc nc pt t leaves l).
Proof.
  unfold gather. apply agrees_bind; [apply agrees_mul|]. intros total _. apply agrees_bind; [apply agrees_collect|].
  intros g _. apply agrees_extrapolate.
Qed.

(** ** Together *)

Lemma gather_ok pc nc pt t leaves arrivals s : (pt * t <= 2 ^ 20)%N -> bounded_leaves leaves -> (arrivals <> []) ->
  gather true pc nc pt t leaves arrivals = Ok s ->
  exists g used, used <> [] /\ needed (pt * t) arrivals used /\ added nc used g /\ extrapolate true pc nc (pt * t) leaves g = Ok s.
Proof.
  intros Ht F Hne H. unfold gather in H.
  destruct (usize_mul true pt t) as [total| |] eqn:E; cbn [bind] in H; try discriminate. apply usize_mul_ok in E as [-> _].
  destruct (collect true (pt * t) (nothing_gathered nc) arrivals) as [g| |] eqn:E; cbn [bind] in H; try discriminate.
  destruct (collect_needed nc _ _ _ Ht E) as (used & N & A). exists g, used. split; [|auto].
  intros ->. destruct N as (later & -> & _ & Z & _). rewrite (Z eq_refl) in Hne. contradiction.
Qed.

Lemma gather_nothing pc nc pt t leaves s : gather true pc nc pt t leaves [] = Ok s -> s = zero_stats pc.
Proof.
  unfold gather. destruct (usize_mul true pt t) as [total| |]; cbn [bind]; try discriminate. cbn. now intros [= <-].
Qed.
