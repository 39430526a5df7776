(** C45: merging the metrics of tasks gives what was recorded over all tasks, whatever the order of merging. *)
From Verif Require Import Base MetricsModel MetricsSpec MetricsProofs.
From Coq Require Import NArith Lia Permutation.
Local Open Scope N_scope.

(** The smallest recorded duration; 0 is shown if no task recorded one. *)
Theorem C45_minimum m : words m ->
  (recordings m <> [] -> smallest (merged_value min_latency m) (map duration (recordings m))) /\
  (recordings m = [] -> shown_min (merged_value min_latency m) = 0).
Proof.
  intros HF. unfold merged_value. cbn [value min_latency]. rewrite (min_all m HF). pose proof (min_of _ HF) as H. split.
  - intros HN. destruct (recordings m); [contradiction|exact H].
  - intros E. rewrite E. reflexivity.
Qed.
Print Assumptions C45_minimum.
(** The largest; 0 if none. *)
Theorem C45_maximum m : words m ->
  (recordings m <> [] -> largest (merged_value max_latency m) (map duration (recordings m))) /\
  (recordings m = [] -> merged_value max_latency m = 0).
Proof.
  intros HF. unfold merged_value. cbn [value max_latency]. rewrite (max_all m HF). pose proof (max_of (recordings m) duration _ eq_refl) as H. split.
  - intros HN. destruct (recordings m); [contradiction|exact H].
  - intros E. rewrite E. reflexivity.
Qed.
Print Assumptions C45_maximum.
(** The largest value of a gauge; 0 if none. *)
Theorem C45_gauge m : words m ->
  (recordings m <> [] -> largest (merged_value max_gauge m) (recordings m)) /\
  (recordings m = [] -> merged_value max_gauge m = 0).
Proof.
  intros HF. unfold merged_value. cbn [value max_gauge]. rewrite (gauge_all m HF). pose proof (max_of (recordings m) (fun n => n) _ eq_refl) as H. rewrite map_id in H. split.
  - intros HN. destruct (recordings m); [contradiction|exact H].
  - intros E. rewrite E. reflexivity.
Qed.
Print Assumptions C45_gauge.
(** The total of the recorded bytes (as far as it fits 64 bits). *)
Theorem C45_bytes m : words m -> total (recordings m) < word -> merged_value bytes_counter m = total (recordings m).
Proof. intros HF HT. unfold merged_value. cbn [value bytes_counter]. rewrite (bytes_all m HF), bytes_of. now apply wrap_small. Qed.
Print Assumptions C45_bytes.
(** The average of all recorded durations, not of the tasks' averages (as far as their total fits 64 bits); 0 if none. *)
Theorem C45_average m : words m -> total (map duration (recordings m)) < word ->
  (recordings m <> [] -> merged_value avg_latency m = total (map duration (recordings m)) / N.of_nat (List.length (recordings m))) /\
  (recordings m = [] -> merged_value avg_latency m = 0).
Proof.
  intros HF HT. unfold merged_value. rewrite (avg_all m HF), avg_of. cbn [value avg_latency fst snd].
  assert (HL : N.of_nat (List.length (recordings m)) <= total (map duration (recordings m))).
  { clear. induction (recordings m) as [|n l IH]; [reflexivity|]. cbn [map List.length total fold_right]. fold (total (map duration l)).
    assert (1 <= duration n) by (unfold duration; destruct (N.eqb_spec n 0); lia). lia. }
  rewrite !wrap_small by lia. split.
  - intros HN. f_equal. destruct (recordings m); [contradiction|]. cbn [List.length]. lia.
  - intros E. rewrite E. reflexivity.
Qed.
Print Assumptions C45_average.
(** None of these depends on the order of merging, nor on the order in which threads recorded, nor on tasks that recorded nothing. *)
Theorem C45_order k a b : In k [min_latency; max_latency; max_gauge; bytes_counter; avg_latency] ->
  words a -> Permutation (recordings a) (recordings b) -> merged_value k a = merged_value k b.
Proof.
  intros Hk HF HP. assert (HF' : words b) by now apply (Permutation_Forall HP). unfold merged_value.
  destruct Hk as [<-|[<-|[<-|[<-|[<-|[]]]]]].
  - rewrite !min_all by assumption. f_equal. apply all_permutation; [| |exact HP]; intros; cbn [aggregate min_latency]; lia.
  - rewrite !max_all by assumption. f_equal. apply all_permutation; [| |exact HP]; intros; cbn [aggregate max_latency]; lia.
  - rewrite !gauge_all by assumption. f_equal. apply all_permutation; [| |exact HP]; intros; cbn [aggregate max_gauge]; lia.
  - rewrite !bytes_all by assumption. rewrite !bytes_of. now rewrite (total_permutation _ _ HP).
  - rewrite !avg_all by assumption. rewrite !avg_of. rewrite (total_permutation _ _ (Permutation_map duration HP)), (Permutation_length HP). reflexivity.
Qed.
Print Assumptions C45_order.
(** The first-seen duration, partially: it is the first one recorded by some task, 0 only if no task recorded any; tasks that recorded nothing do not
    matter. Missing: independence of the order. *)
Theorem C45_first_seen_partial m :
  (forall n l, firsts m = n :: l -> merged_value first_latency m = duration n) /\
  (merged_value first_latency m = 0 <-> recordings m = []).
Proof.
  assert (D : forall n, duration n <> 0) by (intros n; unfold duration; destruct (N.eqb_spec n 0); lia).
  assert (E : firsts m = [] <-> recordings m = []).
  { induction m as [l| |a IHa b IHb]; cbn [firsts recordings]; [destruct l; split; congruence|tauto|]. split; intros H; apply app_eq_nil in H as [Ha Hb].
    - now rewrite (proj1 IHa Ha), (proj1 IHb Hb).
    - now rewrite (proj2 IHa Ha), (proj2 IHb Hb). }
  unfold merged_value. cbn [value first_latency]. rewrite first_of. split.
  - intros n l ->. reflexivity.
  - rewrite <- E. destruct (firsts m) as [|n l]; [tauto|]. split; [intros H; now elim (D n)|discriminate].
Qed.
Print Assumptions C45_first_seen_partial.
(** It does depend on the order of merging two tasks. *)
Theorem C45_first_seen_refuted :
  exists a b, Permutation (recordings a) (recordings b) /\ a = Merge (Task [5]) (Task [3]) /\ b = Merge (Task [3]) (Task [5]) /\
  merged_value first_latency a = 5 /\ merged_value first_latency b = 3.
Proof. do 2 eexists. split; [|split; [reflexivity|split; [reflexivity|split; reflexivity]]]. cbn. apply perm_swap. Qed.
Print Assumptions C45_first_seen_refuted.

(** Three tasks, one of which recorded nothing, and one that recorded a duration of 0. *)
Definition three_tasks : merge := Merge (Merge Empty (Task [40; 7])) (Merge (Task []) (Task [0; 9])).
Example C45_instance :
  words three_tasks /\ total (map duration (recordings three_tasks)) < word /\ recordings three_tasks <> [] /\
  merged_value min_latency three_tasks = 1 /\ merged_value max_latency three_tasks = 40 /\ merged_value max_gauge three_tasks = 40 /\
  merged_value bytes_counter three_tasks = 56 /\ merged_value avg_latency three_tasks = 14 /\ merged_value first_latency three_tasks = 40 /\
  Permutation (recordings three_tasks) (recordings (Merge (Task [9; 7]) (Task [0; 40]))).
Proof.
  repeat (split; [first [reflexivity|discriminate|repeat constructor; reflexivity]|]).
  cbn. apply Permutation_trans with [9; 40; 7; 0].
  - apply Permutation_sym. apply (Permutation_cons_append [40; 7; 0] 9).
  - constructor. apply Permutation_trans with [7; 40; 0]; [apply perm_swap|]. constructor. apply perm_swap.
Qed.
Example C45_nothing_recorded : shown_min (merged_value min_latency (Merge (Task []) Empty)) = 0 /\ merged_value avg_latency (Merge (Task []) Empty) = 0.
Proof. split; reflexivity. Qed.
