(** Theorems about run-time statistics: C47, C64, C66, C67. *)
From Verif Require Import Base CiuModel SamplerModel SamplerSpec SamplerProofs SamplerProps GatherModel GatherSpec GatherFloat GatherProofs.
From Coq Require Import NArith ZArith SpecFloat.

Lemma byte_sizes n k (f : nat -> N) (d z : list f32) : List.length d = k -> List.length z = k ->
  map byte_size (map (fun '(d, z, b) => mkColStats (Inexact (f32_as_usize (f32_mul z (f32_of_N n))))
      (Inexact (f32_as_usize (f32_mul d (f32_of_N n)))) (Inexact b)) (combine (combine d z) (map f (seq 0 k)))) = map (fun i => Inexact (f i)) (seq 0 k).
Proof.
  generalize 0. revert d z. induction k as [|k IH]; intros [|x d] [|y z] i H1 H2; cbn in *; try discriminate; [reflexivity|].
  f_equal. apply IH; lia.
Qed.

Section Props.
Variables (plan_cols n_cols : nat) (per_task tasks : N) (leaves : list (option N)).
(** At most 2^20 partitions are sampled, and leaves announce [usize] values. *)
Hypothesis few_partitions : (per_task * tasks <= 2 ^ 20)%N.
Hypothesis usize_leaves : forall n, In (Some n) leaves -> (n <= usize_max)%N.
Notation total := (per_task * tasks)%N.
(** With overflow checks; [C64_overflow_checks] is about builds without them. *)
Notation gather := (gather true plan_cols n_cols per_task tasks leaves).

Lemma leaves_bounded : bounded_leaves leaves.
Proof using usize_leaves. apply Forall_forall. intros [n|] H; [now apply usize_leaves|exact Logic.I]. Qed.

(** ** C64: estimates extrapolate what was sampled *)

(** Rows: the sampled rows, for all partitions, divided by the completed part of the stage, whenever some progress
    is known. Only the reports needed are waited for. *)
Theorem C64_row_estimate : forall arrivals s n, gather arrivals = Ok s -> num_rows s = Inexact n ->
  exists used num den, needed total arrivals used /\ used <> [] /\
    progress leaves used (for_all_partitions total s_pulled used) num den /\
    ((0 < num)%N -> extrapolates (for_all_partitions total s_rows used) num den n).
Proof using few_partitions usize_leaves.
  intros [|a arrivals] s n H Hn; [apply gather_nothing in H; subst; discriminate Hn|].
  destruct (gather_ok _ _ _ _ _ _ _ few_partitions leaves_bounded (fun e => @nil_cons _ _ _ (eq_sym e)) H) as (g & used & Hu & Nd & A & X).
  destruct (extrapolate_ok _ _ _ _ _ _ _ A Hu leaves_bounded X) as (num & den & pct & P & _ & _ & R & E & _ & _ & _ & G).
  exists used, num, den. do 3 (split; [assumption|]). intros Hp. cbv zeta in G.
  destruct (_ =? 0)%N; [subst; discriminate Hn|].
  destruct G as (ndv & nulls & _ & _ & _ & _ & G & _). rewrite Hn in G. injection G as ->. now apply E.
Qed.

(** Bytes: the sampled bytes of each column, for all partitions, times a whole number [k] that extrapolates one;
    in total their sum. Missing: the number is cut to an integer before it is applied, so bytes grow less than rows,
    see [C64_bytes_refuted]. *)
Theorem C64_byte_estimate_partial : forall arrivals s n, gather arrivals = Ok s -> num_rows s = Inexact n ->
  exists used num den k, needed total arrivals used /\ used <> [] /\
    progress leaves used (for_all_partitions total s_pulled used) num den /\
    ((0 < num)%N -> extrapolates 1 num den k) /\
    let bytes i := (for_all_partitions total (fun s => nth i (s_bytes s) 0%N) used * k)%N in
    map byte_size (columns s) = map (fun i => Inexact (bytes i)) (seq 0 n_cols) /\
    total_byte_size s = Inexact (Nsum (map bytes (seq 0 n_cols))).
Proof using few_partitions usize_leaves.
  intros [|a arrivals] s n H Hn; [apply gather_nothing in H; subst; discriminate Hn|].
  destruct (gather_ok _ _ _ _ _ _ _ few_partitions leaves_bounded (fun e => @nil_cons _ _ _ (eq_sym e)) H) as (g & used & Hu & Nd & A & X).
  destruct (extrapolate_ok _ _ _ _ _ _ _ A Hu leaves_bounded X) as (num & den & pct & P & _ & _ & R & E & _ & _ & _ & G).
  exists used, num, den, (f32_as_usize (f32_div f32_one pct)). do 3 (split; [assumption|]).
  split. { intros Hp. change f32_one with (f32_of_N 1). apply E; [unfold usize_max; lia|assumption]. }
  cbv zeta in G |- *. destruct (_ =? 0)%N; [subst; discriminate Hn|].
  destruct G as (ndv & nulls & _ & L1 & _ & L2 & _ & G1 & G2). split; [|exact G1].
  rewrite G2. now rewrite byte_sizes by assumption.
Qed.

(** Reports that all reached the end of their partitions: rows (up to 2^24) and bytes are those reported, scaled by
    the number of partitions that did not report. *)
Theorem C64_complete_sample : forall arrivals s n, gather arrivals = Ok s -> num_rows s = Inexact n ->
  exists used, needed total arrivals used /\ used <> [] /\
    (all_ended used -> (for_all_partitions total s_rows used <= 2 ^ 24)%N ->
     n = for_all_partitions total s_rows used /\
     map byte_size (columns s) = map (fun i => Inexact (for_all_partitions total (fun s => nth i (s_bytes s) 0%N) used)) (seq 0 n_cols)) /\
    (N.of_nat (List.length used) = total -> forall f, for_all_partitions total f used = Nsum (map f used)).
Proof using few_partitions usize_leaves.
  intros [|a arrivals] s n H Hn; [apply gather_nothing in H; subst; discriminate Hn|].
  destruct (gather_ok _ _ _ _ _ _ _ few_partitions leaves_bounded (fun e => @nil_cons _ _ _ (eq_sym e)) H) as (g & used & Hu & Nd & A & X).
  destruct (extrapolate_ok _ _ _ _ _ _ _ A Hu leaves_bounded X) as (num & den & pct & P & _ & _ & R & E & _ & _ & Al & G).
  exists used. do 2 (split; [assumption|]). split.
  - intros He Hr. specialize (Al He). subst pct. cbv zeta in G. rewrite complete_exact in G by assumption.
    destruct (_ =? 0)%N; [subst; discriminate Hn|].
    destruct G as (ndv & nulls & _ & L1 & _ & L2 & G0 & _ & G2). split; [congruence|].
    rewrite G2. rewrite byte_sizes by assumption. apply map_ext. intros i.
    change (f32_as_usize (f32_div f32_one f32_one)) with 1%N. rewrite N.mul_1_r. reflexivity.
  - intros L f. unfold for_all_partitions. rewrite L. apply N.div_mul. destruct used; [congruence|]. cbn in L. lia.
Qed.

(** Without overflow checks: the same statistics, unless there is an overflow. *)
Theorem C64_overflow_checks : forall arrivals s, gather arrivals = Ok s ->
  GatherModel.gather false plan_cols n_cols per_task tasks leaves arrivals = Ok s.
Proof using. intros arrivals s. apply agrees_gather. Qed.

(** ** C47: stages that made no progress *)

(** Nothing was read from the leaves, but the sampled partitions ended, or no leaf announces its rows: at most five
    times the sampled rows. Missing: leaves that do announce rows. *)
Theorem C47_fallback_partial : forall arrivals s n, gather arrivals = Ok s -> num_rows s = Inexact n ->
  exists used, needed total arrivals used /\
    (all_ended used \/ announced leaves None ->
     (n * 2 ^ 21 <= 5 * for_all_partitions total s_rows used * (2 ^ 21 + 1))%N).
Proof using few_partitions usize_leaves.
  intros arrivals s n H Hn. destruct (C64_row_estimate arrivals s n H Hn) as (used & num & den & Nd & _ & P & E).
  exists used. split; [assumption|]. intros Hc. destruct P as [Al|NA An|l NA An Hl|NA An].
  - destruct E as [E _]; [lia|]. lia.
  - destruct E as [E _]; [lia|]. lia.
  - exfalso. destruct Hc as [Hc|Hc]; [contradiction|]. inversion Hc as [x Hx|]; subst. inversion An as [|y (k & Hk)]; subst.
    specialize (Hx _ Hk). discriminate.
  - destruct E as [E _]; [lia|]. lia.
Qed.

(** Leaves announce rows, and the reports say that none were read: the largest number there is. *)
Theorem C47_no_progress_inflated : forall arrivals s n l, gather arrivals = Ok s -> num_rows s = Inexact n ->
  announced leaves (Some l) -> (0 < l)%N ->
  exists used, needed total arrivals used /\
    (~ all_ended used -> for_all_partitions total s_pulled used = 0%N -> n = usize_max).
Proof using few_partitions usize_leaves.
  intros [|a arrivals] s n l H Hn HA Hl; [apply gather_nothing in H; subst; discriminate Hn|].
  destruct (gather_ok _ _ _ _ _ _ _ few_partitions leaves_bounded (fun e => @nil_cons _ _ _ (eq_sym e)) H) as (g & used & Hu & Nd & A & X).
  destruct (extrapolate_ok _ _ _ _ _ _ _ A Hu leaves_bounded X) as (num & den & pct & P & _ & _ & R & E & Z & _ & _ & G).
  exists used. split; [assumption|]. intros NE Hp. rewrite Hp in P.
  assert (num = 0%N) as ->.
  { assert (U : forall x, announced leaves x -> x = Some l).
    { intros x Hx. inversion HA as [|y (k & Hk)]; subst. inversion Hx as [y Hy|y _]; subst; [|reflexivity].
      specialize (Hy _ Hk). discriminate. }
    destruct P as [Al|NA An|l' NA An Hl'|NA An]; [contradiction| | |].
    - specialize (U _ An). injection U as <-. lia.
    - apply N.min_0_l.
    - specialize (U _ An). discriminate. }
  rewrite (Z eq_refl) in G. cbv zeta in G.
  destruct (N.eq_dec (for_all_partitions total s_rows used) 0) as [E0|E0].
  - rewrite E0 in G. cbn in G. subst. discriminate Hn.
  - rewrite no_progress_inflates in G by lia. cbn [N.eqb] in G.
    destruct (usize_max =? 0)%N eqn:Q; [discriminate Q|].
    destruct G as (ndv & nulls & _ & _ & _ & _ & G & _). congruence.
Qed.

(** ** C66: estimated counts of a column do not exceed the rows *)

Theorem C66_counts_within_rows : forall arrivals s n, gather arrivals = Ok s -> num_rows s = Inexact n ->
  (Z.of_nat (List.length arrivals) <= 2 ^ 24)%Z ->
  (forall r x, In r arrivals -> In x (s_ndv r) \/ In x (s_nulls r) -> ratio x) ->
  List.length (columns s) = n_cols /\
  forall c, In c (columns s) -> at_most (null_count c) n /\ at_most (distinct_count c) n.
Proof using few_partitions usize_leaves.
  intros [|a arrivals] s n H Hn HL Hr; [apply gather_nothing in H; subst; discriminate Hn|].
  destruct (gather_ok _ _ _ _ _ _ _ few_partitions leaves_bounded (fun e => @nil_cons _ _ _ (eq_sym e)) H) as (g & used & Hu & Nd & A & X).
  destruct (extrapolate_ok _ _ _ _ _ _ _ A Hu leaves_bounded X) as (num & den & pct & P & _ & _ & R & E & _ & Fl & _ & G).
  destruct Nd as (later & Ea & _).
  assert (Hlen : (Z.of_nat (List.length used) <= 2 ^ 24)%Z).
  { rewrite Ea, app_length in HL. lia. }
  assert (HI : forall r, In r used -> In r (a :: arrivals)) by (intros r Hi; rewrite Ea; apply in_or_app; now left).
  cbv zeta in G. destruct (_ =? 0)%N; [subst; discriminate Hn|].
  destruct G as (ndv & nulls & V1 & L1 & V2 & L2 & G0 & _ & G2). rewrite Hn in G0. injection G0 as En.
  apply averages in V1; [|now rewrite map_length|].
  2: { apply Forall_map, Forall_forall. intros r Hi. apply Forall_forall. intros x Hx. eapply Hr; eauto. }
  apply averages in V2; [|now rewrite map_length|].
  2: { apply Forall_map, Forall_forall. intros r Hi. apply Forall_forall. intros x Hx. eapply Hr; eauto. }
  assert (FX : float (f32_div (f32_of_N (for_all_partitions total s_rows used)) pct)) by (apply float_div; [now apply float_of_N|assumption]).
  split.
  - rewrite G2, map_length, !combine_length, map_length, seq_length. lia.
  - intros c Hc. rewrite G2 in Hc. apply in_map_iff in Hc as ([[d z] b] & <- & Hc). cbn [null_count distinct_count].
    apply in_combine_l in Hc. pose proof (in_combine_l _ _ _ _ Hc) as Hd. apply in_combine_r in Hc.
    rewrite Forall_forall in V1, V2. destruct (V1 _ Hd) as (v1 & R1 & B1). destruct (V2 _ Hc) as (v2 & R2 & B2).
    rewrite En. split.
    + eexists. split; [reflexivity|]. eapply part_le; eauto.
    + eexists. split; [reflexivity|]. eapply part_le; eauto.
Qed.

(** ** C67: numbers reported as exact are exact *)

(** An exact number of rows is always 0, and is only claimed if no report that was waited for had rows. Missing:
    partitions that go on, or were not waited for, see [C67_exact_refuted]. *)
Theorem C67_exact_zero_partial : forall arrivals s n, (1 <= total)%N -> gather arrivals = Ok s -> num_rows s = Exact n ->
  n = 0%N /\ exists used, needed total arrivals used /\ forall r, In r used -> s_rows r = 0%N.
Proof using few_partitions usize_leaves.
  intros [|a arrivals] s n Ht H Hn.
  { apply gather_nothing in H; subst. injection Hn as <-. split; [reflexivity|]. exists []. split; [|intros r []].
    exists []. split; [reflexivity|]. split; [now left|]. split; [reflexivity|]. intros [] x r; discriminate. }
  destruct (gather_ok _ _ _ _ _ _ _ few_partitions leaves_bounded (fun e => @nil_cons _ _ _ (eq_sym e)) H) as (g & used & Hu & Nd & A & X).
  destruct (extrapolate_ok _ _ _ _ _ _ _ A Hu leaves_bounded X) as (num & den & pct & P & Hnd & Hden & R & E & Z & _ & _ & G).
  cbv zeta in G. destruct (N.eqb_spec (f32_as_usize (f32_div (f32_of_N (for_all_partitions total s_rows used)) pct)) 0) as [E0|E0].
  - subst s. injection Hn as <-. split; [reflexivity|]. exists used. split; [assumption|].
    apply (no_rows total); auto; [now apply (needed_length _ _ _ Ht Nd)|].
    destruct (N.eq_dec num 0) as [Q|Q].
    + specialize (Z Q). subst pct. destruct (N.eq_dec (for_all_partitions total s_rows used) 0) as [|Q2]; [assumption|].
      rewrite no_progress_inflates in E0 by lia. discriminate E0.
    + destruct (E (for_all_partitions total s_rows used) R) as (_ & _ & E2); [lia|]. rewrite E0 in E2. lia.
  - destruct G as (ndv & nulls & _ & _ & _ & _ & G & _). congruence.
Qed.

End Props.

(** ** C66: what workers report *)

Lemma null_values_le {val} c (bs : list (batch val)) n_cols : Forall (wf_batch n_cols) bs ->
  List.length (filter is_null (column_values c bs)) <= list_sum (map b_rows bs).
Proof.
  intros F. apply Nat.le_trans with (List.length (column_values c bs)); [clear F; induction (column_values c bs) as [|v l IH]; cbn; [lia|destruct (is_null v); cbn; lia]|].
  unfold column_values. induction F as [|b bs [_ Hb] F IH]; cbn; [lia|]. rewrite app_length. fold (list_sum (map b_rows bs)).
  enough (List.length (match nth_error (b_cols b) c with Some col => c_vals col | None => [] end) <= b_rows b) by lia.
  destruct (nth_error (b_cols b) c) as [col|] eqn:E; cbn; [|lia].
  apply nth_error_In in E. rewrite Forall_forall in Hb. rewrite (Hb _ E). lia.
Qed.

Lemma distinct_le {val} (val_dec : forall x y : val, {x = y} + {x <> y}) vs ix : List.length (distinct val_dec vs ix) <= List.length ix.
Proof.
  unfold distinct. apply Nat.le_trans with (List.length (flat_map (fun i => match nth_error vs i with Some (Some v) => [v] | _ => [] end) ix)).
  - apply NoDup_incl_length; [apply NoDup_nodup|]. intros x Hx. now apply nodup_In in Hx.
  - induction ix as [|i ix IH]; cbn; [lia|]. rewrite app_length. destruct (nth_error vs i) as [[v|]|]; cbn; lia.
Qed.

(** The ratios that a sampled partition reports are between 0 and 1, as [C66_counts_within_rows] asks for. *)
Theorem C66_reported_ratios : forall {val} (val_dec : forall x y : val, {x = y} + {x <> y}) {err} limit max_sample n_cols
    (sources : list (source val err)) s i src p li,
  0 < limit -> 0 < max_sample ->
  (forall n bs, messages src n = map inl bs -> (N.of_nat (list_sum (map b_rows bs)) <= usize_max)%N) ->
  steps (step val_dec limit max_sample n_cols) (kicked_off sources) s ->
  nth_error sources i = Some src -> nth_error (s_parts s) i = Some p -> wf_source n_cols src -> p_report p = Some li ->
  forall x, In x (s_ndv (decoded li)) \/ In x (s_nulls (decoded li)) -> ratio x.
Proof.
  intros val val_dec err limit max_sample n_cols sources s i src p li Hl Hm Hu R Hs Hp Hwf E x Hx. cbn in Hx.
  destruct (C58_reports_are_true val_dec limit max_sample n_cols sources s i src p li Hl R Hs Hp Hwf E) as (_ & [(n & bs & M & D & _)|(e & pulled & _ & ->)]).
  2: { cbn in Hx. left. destruct Hx as [Hx|Hx]; apply repeat_spec in Hx; congruence. }
  destruct D as (_ & _ & Ln & Lz & _ & Dp & Dz). specialize (Hu n bs M).
  assert (Hb : Forall (wf_batch n_cols) bs).
  { apply Forall_forall. intros b Hb. apply (messages_wf n_cols src n Hwf). rewrite M. now apply in_map. }
  destruct (Nat.eq_dec (list_sum (map b_rows bs)) 0) as [Z|Z].
  { specialize (Dz Z). rewrite Forall_forall in Dz. left. symmetry. apply Dz. apply in_or_app. tauto. }
  destruct Dp as (D1 & ix & Hix & D2); [lia|]. destruct Hx as [Hx|Hx]; apply In_nth_error in Hx as (c & Hc).
  - assert (c < n_cols) by (rewrite <- Ln; apply nth_error_Some; congruence). rewrite D2 in Hc by assumption. injection Hc as <-.
    unfold f32_of_nat. pose proof (distinct_le val_dec (column_values c bs) ix).
    assert (1 <= List.length ix <= list_sum (map b_rows bs)).
    { unfold sample_of in Hix. destruct (Nat.leb_spec (list_sum (map b_rows bs)) max_sample).
      - subst ix. rewrite seq_length. lia.
      - lia. }
    apply division_ratio; lia.
  - assert (c < n_cols) by (rewrite <- Lz; apply nth_error_Some; congruence). rewrite D1 in Hc by assumption. injection Hc as <-.
    unfold f32_of_nat. pose proof (null_values_le c bs n_cols Hb). apply division_ratio; lia.
Qed.

(** ** Concrete cases *)
Module GatherEx.

Definition half : f32 := f32_div (f32_of_N 1) (f32_of_N 2).
(** A partition with 100 rows sampled of one column, half of them null, after 50 leaf rows. *)
Definition sample0 (eos : bool) : sample := mkSample 100 [800%N] [half] [half] 50 eos.

(** Two reports from four partitions; 100 of the announced 1000 rows were read... *)
Definition leaves0 : list (option N) := [Some 600%N; None; Some 400%N].
Example C64_case : exists s n, gather true 1 1 4 1 leaves0 [sample0 false; sample0 false] = Ok s /\ num_rows s = Inexact n /\
  n = 2000%N /\ map byte_size (columns s) = [Inexact 16000%N] /\
  map null_count (columns s) = [Inexact 1000%N] /\ map distinct_count (columns s) = [Inexact 1000%N].
Proof. eexists _, _. split; [vm_compute; reflexivity|]. repeat split. Qed.
Example C64_case_hypotheses : (4 * 1 <= 2 ^ 20)%N /\ (forall n, In (Some n) leaves0 -> (n <= usize_max)%N) /\
  (forall x, In x (s_ndv (sample0 false)) \/ In x (s_nulls (sample0 false)) -> ratio x).
Proof.
  split; [lia|]. split.
  - intros n [H|[H|[H|[]]]]; try discriminate H; injection H as <-; unfold usize_max; lia.
  - intros x [[<- |[]]|[<- |[]]]; apply division_ratio; unfold usize_max; lia.
Qed.
(** ... all ended... *)
Example C64_complete_case : exists s, gather true 1 1 2 1 leaves0 [sample0 true; sample0 true] = Ok s /\ num_rows s = Inexact 200%N /\
  map byte_size (columns s) = [Inexact 1600%N].
Proof. eexists. split; [vm_compute; reflexivity|]. split; reflexivity. Qed.
(** ... and no leaf announces its rows. *)
Example C47_case : exists s, gather true 1 1 2 1 [None] [sample0 false; sample0 false] = Ok s /\ num_rows s = Inexact 1000%N /\ announced [None] None.
Proof. eexists. split; [vm_compute; reflexivity|]. split; [reflexivity|]. constructor. intros o [<- |[]]. reflexivity. Qed.

(** Six of ten rows were read. The rows are estimated as 10, the bytes stay those of the sample. *)
Theorem C64_bytes_refuted : exists arrivals leaves s, gather true 1 1 1 1 leaves arrivals = Ok s /\
  progress leaves arrivals (for_all_partitions 1 s_pulled arrivals) 6 10 /\
  for_all_partitions 1 (fun s => nth 0 (s_bytes s) 0%N) arrivals = 600%N /\
  map byte_size (columns s) = [Inexact 600%N] /\ ~ extrapolates 600 6 10 600.
Proof.
  exists [mkSample 6 [600%N] [half] [half] 6 false], [Some 10%N]. eexists. split; [vm_compute; reflexivity|]. split.
  - change 6%N with (N.min 6 10) at 2. apply (progress_measured _ _ 6 10).
    + intros H. specialize (H _ (or_introl eq_refl)). discriminate H.
    + change (announced [Some 10%N] (Some 10%N)). apply (announced_rows [Some 10%N]). exists 10%N. now left.
    + lia.
  - split; [reflexivity|]. split; [reflexivity|]. intros (_ & [H|H] & _); [discriminate H|]. revert H. vm_compute. discriminate.
Qed.

(** One row was sampled before the leaf was seen to have given any of its 10 rows: the estimate is 2^64 - 1 rows. *)
Theorem C47_no_progress_refuted : exists arrivals s, gather true 1 1 1 1 [Some 10%N] arrivals = Ok s /\
  for_all_partitions 1 s_rows arrivals = 1%N /\ num_rows s = Inexact usize_max.
Proof. exists [mkSample 1 [1%N] [half] [half] 0 false]. eexists. split; [vm_compute; reflexivity|]. split; reflexivity. Qed.
(** With eight bytes in the sample it is a panic, or a wrapped number of bytes without overflow checks. *)
Theorem C47_no_progress_panics_refuted : exists arrivals s msg, gather true 1 1 1 1 [Some 10%N] arrivals = Panic msg /\
  gather false 1 1 1 1 [Some 10%N] arrivals = Ok s /\ num_rows s = Inexact usize_max /\ total_byte_size s = Inexact (2 ^ 64 - 8).
Proof. exists [mkSample 1 [8%N] [half] [half] 0 false]. eexists _, _. split; [vm_compute; reflexivity|]. split; [vm_compute; reflexivity|]. split; reflexivity. Qed.

(** A partition gives an empty batch, pauses, and then gives a row. Its sample makes the stage's rows [Exact 0]. *)
Import SamplerEx.
Definition src_late := script [Ready (inl (b [])); Pending; Ready (inl (b [Some 1]))].
Definition li_late : load_info := mkLoadInfo 0 0 [0] [S754_zero false] [S754_zero false] 0 false.
Theorem C67_exact_refuted : exists (src : source nat string) s p li st,
  wf_source 1 src /\ ends_with src [inl (b []); inl (b [Some 1])] /\
  steps (step Nat.eq_dec 1000 1000 1) (kicked_off [src]) s /\ nth_error (s_parts s) 0 = Some p /\ p_report p = Some li /\
  gather true 1 1 1 1 [None] [decoded li] = Ok st /\ num_rows st = Exact 0.
Proof.
  exists src_late. eexists _, _, li_late. eexists. split; [|split; [|split; [|split; [|split; [|split]]]]].
  - intros n x H. destruct n as [|[|[|n]]]; cbn in H; try discriminate H; try (injection H as <-; split; [reflexivity|repeat constructor]).
    destruct n; discriminate H.
  - exists 3. split; [|split; reflexivity]. intros m Hm. destruct m as [|[|[|m]]]; cbn; try discriminate. lia.
  - task 0. rep 0 (@inl (list (batch nat)) string [b []]) (@nil nat) 0 li_late. apply steps_refl.
  - reflexivity.
  - reflexivity.
  - vm_compute. reflexivity.
  - reflexivity.
Qed.
(** A stage without rows. *)
Example C67_case : exists s, gather true 1 1 2 1 [None] [mkSample 0 [0%N] [half] [half] 0 true; mkSample 0 [0%N] [half] [half] 0 true] = Ok s /\ num_rows s = Exact 0.
Proof. eexists. split; [vm_compute; reflexivity|]. reflexivity. Qed.
End GatherEx.

Print Assumptions C64_row_estimate.
Print Assumptions C64_byte_estimate_partial.
Print Assumptions C64_complete_sample.
Print Assumptions C64_overflow_checks.
Print Assumptions GatherEx.C64_bytes_refuted.
Print Assumptions C47_fallback_partial.
Print Assumptions C47_no_progress_inflated.
Print Assumptions GatherEx.C47_no_progress_refuted.
Print Assumptions GatherEx.C47_no_progress_panics_refuted.
Print Assumptions C66_counts_within_rows.
Print Assumptions C66_reported_ratios.
Print Assumptions C67_exact_zero_partial.
Print Assumptions GatherEx.C67_exact_refuted.
