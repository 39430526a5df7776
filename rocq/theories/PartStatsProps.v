(** Statistics announced for the partitions of a stage (C77). *)
From Verif Require Import Base CiuModel SamplerModel GatherModel GatherFloat PartStatsModel PartStatsSpec PartStatsProofs.
From Coq Require Import NArith Lia.
Local Open Scope N_scope.

(** The statistics of the whole stage are those gathered; unknown ones are announced as unknown. *)
Theorem C77_whole_stage s n n_cols : partition_statistics (RemoteStats (Some s)) None n n_cols = Ok s.
Proof. reflexivity. Qed.

Theorem C77_unknown p n n_cols t : partition_statistics (RemoteStats None) p n n_cols = Ok t ->
  num_rows t = Absent /\ total_byte_size t = Absent /\ List.length (columns t) = n_cols /\
  Forall (fun c => null_count c = Absent /\ distinct_count c = Absent /\ byte_size c = Absent) (columns t).
Proof.
  intros E. injection E as <-. cbn. split; [reflexivity|]. split; [reflexivity|]. split; [apply repeat_length|].
  apply Forall_forall. intros c Hc. apply repeat_spec in Hc. subst c. auto.
Qed.

Lemma shared_multiplied n p : fits p -> 1 <= n -> n <= usize_max -> shared n p (multiply_precision p (f32_div f32_one (f32_of_N n))).
Proof. destruct p as [v|v|]; cbn; intros Hv H1 H2; [| |exact I]; now apply share_equal. Qed.

(** Every figure announced for a partition is an equal share of the stage's, of the same kind. *)
Theorem C77_equal_shares s p n n_cols : stats_fit s -> 1 <= n -> n <= usize_max ->
  exists t, partition_statistics (RemoteStats (Some s)) (Some p) n n_cols = Ok t /\ stats_shared n s t.
Proof.
  intros (Hr & Hb & Hc) H1 H2. eexists. split; [reflexivity|]. split; [|split].
  - now apply shared_multiplied.
  - now apply shared_multiplied.
  - cbn. induction Hc as [|c cs (Hn & Hd & Hs) _ IH]; constructor; [|exact IH]. split; [|split]; now apply shared_multiplied.
Qed.

(** For a power of two partitions and up to 2^24 rows, the share is the quotient. *)
Theorem C77_powers_of_two s p k n_cols v : num_rows s = Inexact v -> v <= 2 ^ 24 -> k <= 24 ->
  exists t, partition_statistics (RemoteStats (Some s)) (Some p) (2 ^ k) n_cols = Ok t /\ num_rows t = Inexact (v / 2 ^ k).
Proof.
  intros E Hv Hk. eexists. split; [reflexivity|]. unfold multiply_stats. cbn [num_rows]. rewrite E. cbn [multiply_precision].
  f_equal. exact (share_power v k Hv Hk).
Qed.

(** More rows in the stage are never announced as fewer in a partition. *)
Theorem C77_monotone s s' p n n_cols v v' t t' w w' :
  num_rows s = Inexact v -> num_rows s' = Inexact v' -> v <= v' -> v' <= usize_max -> 1 <= n -> n <= usize_max ->
  partition_statistics (RemoteStats (Some s)) (Some p) n n_cols = Ok t ->
  partition_statistics (RemoteStats (Some s')) (Some p) n n_cols = Ok t' ->
  num_rows t = Inexact w -> num_rows t' = Inexact w' -> w <= w'.
Proof.
  intros E E' Hv Hv' H1 H2 Et Et' Ew Ew'. injection Et as <-. injection Et' as <-. cbn in Ew, Ew'. rewrite E in Ew. rewrite E' in Ew'.
  cbn in Ew, Ew'. injection Ew as <-. injection Ew' as <-. now apply share_mono.
Qed.

(** ** Figures that claim to be exact *)

Lemma zero_only_zero n : only_zero_exact (zero_stats n).
Proof.
  split; [reflexivity|]. split; [reflexivity|]. cbn. apply Forall_forall. intros c Hc. apply repeat_spec in Hc. subst c. cbn. auto.
Qed.

Lemma gathered_only_zero checks plan_cols n_cols per_task tasks leaves arrivals s :
  gather checks plan_cols n_cols per_task tasks leaves arrivals = Ok s -> only_zero_exact s.
Proof.
  unfold gather. destruct (usize_mul checks per_task tasks) as [total| |]; cbn [bind]; try discriminate.
  destruct (collect checks total (nothing_gathered n_cols) arrivals) as [g| |]; cbn [bind]; try discriminate.
  unfold extrapolate. destruct (g_done g =? 0); [intros E; injection E as <-; apply zero_only_zero|].
  destruct (vec_mul checks (g_bytes g) total) as [b| |]; cbn [bind]; try discriminate.
  destruct (vec_div b (g_done g)) as [bytes| |]; cbn [bind]; try discriminate.
  destruct (usize_mul checks (g_rows g) total) as [r| |]; cbn [bind]; try discriminate.
  destruct (usize_div r (g_done g)) as [rows| |]; cbn [bind]; try discriminate.
  destruct (usize_mul checks (g_pulled g) total) as [p| |]; cbn [bind]; try discriminate.
  destruct (usize_div p (g_done g)) as [pulled| |]; cbn [bind]; try discriminate.
  destruct (if g_eos g =? g_done g then Ok None else leaf_rows checks None leaves) as [estimate| |]; cbn [bind]; try discriminate.
  cbv zeta. destruct (f32_as_usize _ =? 0); [intros E; injection E as <-; apply zero_only_zero|].
  destruct (vec_mul checks bytes _) as [per_col| |]; cbn [bind]; try discriminate.
  destruct (usize_sum checks 0 per_col) as [tb| |]; cbn [bind]; try discriminate.
  destruct (vec_avg_reduce (g_ndv g)) as [ndv| |]; cbn [bind]; try discriminate. destruct (negb _); try discriminate.
  destruct (vec_avg_reduce (g_nulls g)) as [nulls| |]; cbn [bind]; try discriminate. destruct (negb _); try discriminate.
  intros E. injection E as <-. split; [exact I|]. split; [exact I|]. cbn [columns]. apply Forall_map, Forall_forall.
  intros [[d n] b'] _. cbn. auto.
Qed.

Lemma share_of_nothing n : 1 <= n -> n <= usize_max -> share 0 n = 0.
Proof.
  intros H1 H2. destruct (share_equal 0 n (N.le_0_l _) H1 H2) as [H _]. set (x := share 0 n) in *. clearbody x.
  destruct (N.eq_dec x 0) as [E|E]; [exact E|]. assert (1 <= n * x) by nia. lia.
Qed.

(** Whatever was gathered, what is exact for the stage is zero and exact for its partitions: partitions that hold what
    the stage holds satisfy all the claims. *)
Theorem C77_exact_claims checks plan_cols n_cols per_task tasks leaves arrivals s p n n_cols' t :
  gather checks plan_cols n_cols per_task tasks leaves arrivals = Ok s -> 1 <= n -> n <= usize_max ->
  partition_statistics (RemoteStats (Some s)) (Some p) n n_cols' = Ok t ->
  only_zero_exact t /\
  forall held, true_of (num_rows s) (fold_right N.add 0 held) -> Forall (true_of (num_rows t)) held.
Proof.
  intros H H1 H2 E. pose proof (gathered_only_zero _ _ _ _ _ _ _ _ H) as (Hr & Hb & Hc).
  assert (Hz : forall q, exact_is_zero q -> exact_is_zero (multiply_precision q (f32_div f32_one (f32_of_N n)))).
  { intros [v|v|]; cbn; try tauto. intros ->. exact (share_of_nothing n H1 H2). }
  injection E as <-. unfold multiply_stats. split.
  - split; [now apply Hz|]. split; [now apply Hz|]. cbn [columns]. apply Forall_map. revert Hc. apply Forall_impl.
    intros c (A & B & C). cbn [null_count distinct_count byte_size]. auto.
  - intros held Hheld. cbn [num_rows]. destruct (num_rows s) as [v|v|]; [|apply Forall_forall; intros; exact I..].
    unfold exact_is_zero in Hr. unfold true_of in Hheld. subst v. cbn [multiply_precision].
    change (f32_as_usize _) with (share 0 n). rewrite share_of_nothing by assumption.
    induction held as [|x held IH]; constructor; cbn in Hheld; [cbn; lia|]. apply IH. lia.
Qed.

(** For other statistics, which only a program that builds a stage itself could pass, exact figures may be announced
    wrongly: seven rows in two partitions of three. *)
Example C77_exact_figures_truncated : exists s t,
  num_rows s = Exact 7 /\ partition_statistics (RemoteStats (Some s)) (Some 0%nat) 2 0 = Ok t /\ num_rows t = Exact 3 /\
  forall a b, a + b = 7 -> ~ (true_of (num_rows t) a /\ true_of (num_rows t) b).
Proof.
  exists (mkStats (Exact 7) Absent []). eexists. split; [reflexivity|]. split; [reflexivity|]. split; [vm_compute; reflexivity|].
  replace (num_rows _) with (Exact 3) by (vm_compute; reflexivity). cbn. lia.
Qed.

(** A thousand rows, of which a hundred are null in the first column, in three partitions. *)
Example C77_three_partitions :
  partition_statistics (RemoteStats (Some (mkStats (Inexact 1000) (Inexact 64000) [mkColStats (Inexact 100) Absent (Inexact 8000)]))) (Some 2%nat) 3 1 =
  Ok (mkStats (Inexact 333) (Inexact 21333) [mkColStats (Inexact 33) Absent (Inexact 2666)]).
Proof. vm_compute. reflexivity. Qed.

(** A single partition may be announced with more rows than the stage: 2^24 + 3 is not a binary32. *)
Example C77_rounding_case :
  exists t, partition_statistics (RemoteStats (Some (mkStats (Inexact 16777219) Absent []))) (Some 0%nat) 1 0 = Ok t /\ num_rows t = Inexact 16777220.
Proof. eexists. split; [reflexivity|]. vm_compute. reflexivity. Qed.

Print Assumptions C77_whole_stage.
Print Assumptions C77_unknown.
Print Assumptions C77_equal_shares.
Print Assumptions C77_powers_of_two.
Print Assumptions C77_monotone.
Print Assumptions C77_exact_claims.
