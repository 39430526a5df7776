(** Property C91. *)
From Verif Require Import Base CiuModel SamplerModel GatherModel DriverModel DriverSpec DriverProofs.
From Coq Require Import NArith ZArith Lia.
Local Open Scope N_scope.

(** A partition reports its share of the rows read so far from every leaf on the streamed side, each leaf once, and of no
    leaf on the build side of a join. *)
Theorem C91_counts_the_streamed_side checks output_rows parts p ls :
  0 < parts -> lists p ls -> rows_of output_rows ls <= usize_max ->
  rows_pulled checks output_rows parts p = Ok (sum (map (fun '(_, id) => value (output_rows id) / parts) ls)).
Proof.
  intros Hp Hl Hm. rewrite (lists_unique p ls Hl) in *. apply pulled_shares; [exact Hp|].
  pose proof (shares_le output_rows parts (leaves p) Hp). nia.
Qed.
Print Assumptions C91_counts_the_streamed_side.

(** Every plan has such a list, and only one. *)
Theorem C91_streamed_leaves p : exists ls, lists p ls /\ forall ls', lists p ls' -> ls' = ls.
Proof. exists (leaves p). split; [apply leaves_listed|apply lists_unique]. Qed.
Print Assumptions C91_streamed_leaves.

(** The partitions of a task report at different moments: [snapshots] are the counters when each of them reported, never
    above those at the end. Together they report no row twice; when all report at the end, less than one row per
    partition and leaf is missed. *)
Theorem C91_no_row_counted_twice checks p ls parts snapshots final reports :
  lists p ls -> N.of_nat (List.length snapshots) = parts -> 0 < parts -> rows_of final ls <= usize_max ->
  Forall (fun counter => forall id, value (counter id) <= value (final id)) snapshots ->
  mapM (fun counter => rows_pulled checks counter parts p) snapshots = Ok reports ->
  sum reports <= rows_of final ls /\
  (Forall (fun counter => forall id, value (counter id) = value (final id)) snapshots ->
   rows_of final ls <= sum reports + N.of_nat (List.length ls) * (parts - 1)).
Proof.
  intros Hl Hn Hp Hm Hs HM. pose proof (lists_unique p ls Hl). subst ls.
  assert (HR : forall l rs, Forall (fun counter => forall id, value (counter id) <= value (final id)) l ->
     mapM (fun counter => rows_pulled checks counter parts p) l = Ok rs -> rs = map (fun c => shares c parts (leaves p)) l).
  { induction l as [|c l IH]; intros rs Hf E; cbn in E; [injection E as <-; reflexivity|].
    apply Forall_cons_iff in Hf. destruct Hf as [Hc Hf].
    rewrite (pulled_shares checks c parts p Hp) in E by (pose proof (shares_le c parts (leaves p) Hp);
      pose proof (rows_of_le c final (leaves p) (fun _ id _ => Hc id)); nia).
    cbn [bind] in E. destruct (mapM _ l) as [rs'| |] eqn:EM; try discriminate. injection E as <-. cbn. now rewrite (IH rs' Hf eq_refl). }
  rewrite (HR snapshots reports Hs HM). split.
  - assert (K : Forall (fun x => x <= rows_of final (leaves p) / parts) (map (fun c => shares c parts (leaves p)) snapshots)).
    { apply Forall_map. eapply Forall_impl; [|exact Hs]. intros c Hc. apply N.div_le_lower_bound; [lia|].
      pose proof (shares_le c parts (leaves p) Hp). pose proof (rows_of_le c final (leaves p) (fun _ id _ => Hc id)). lia. }
    apply sum_le_all in K. rewrite map_length, Hn in K. pose proof (N.mul_div_le (rows_of final (leaves p)) parts). lia.
  - intros He. pose proof (shares_ge final parts (leaves p) Hp) as G.
    assert (E : map (fun c => shares c parts (leaves p)) snapshots = repeat (shares final parts (leaves p)) (List.length snapshots)).
    { clear - He. induction He as [|c l Hc _ IH]; cbn; [reflexivity|]. rewrite IH. f_equal. unfold shares. f_equal. apply map_ext. intros [a id]. now rewrite Hc. }
    rewrite E. assert (S : forall n x, sum (repeat x n) = N.of_nat n * x).
    { induction n as [|n IH]; intros x; [reflexivity|]. cbn [repeat]. rewrite sum_cons, IH, Nat2N.inj_succ. lia. }
    rewrite S, Hn. lia.
Qed.
Print Assumptions C91_no_row_counted_twice.

(** The rows expected: if the statistics of no streamed leaf fail, the sum of what the streamed leaves announce; nothing is
    known only if none of them announces anything. *)
Theorem C91_expected_rows_partial checks statistics p ls :
  lists p ls -> (forall at_ id, In (at_, id) ls -> statistics id <> None) ->
  let announced id := match statistics id with Some rows => rows | None => None end in
  rows_of announced ls <= usize_max ->
  exists total, leaf_rows checks None (announcements statistics p) = Ok total /\
    (total = None <-> forall at_ id, In (at_, id) ls -> announced id = None) /\
    (forall n, total = Some n -> n = rows_of announced ls).
Proof.
  intros Hl Hs announced Hm. pose proof (lists_unique p ls Hl). subst ls.
  assert (E : announcements statistics p = map (fun '(_, id) => announced id) (leaves p)).
  { rewrite announcements_leaves, over_announced. cbn [app]. unfold announced. clear - Hs. induction (leaves p) as [|[a id] l IH]; cbn; [reflexivity|].
    pose proof (Hs a id (or_introl eq_refl)). destruct (statistics id); [|congruence]. f_equal. apply IH. intros; eapply Hs; right; eauto. }
  assert (ES : sum (map value (announcements statistics p)) = rows_of announced (leaves p)).
  { rewrite E. unfold rows_of. rewrite map_map. f_equal. apply map_ext. now intros []. }
  rewrite leaf_rows_none by lia. rewrite ES. eexists. split; [reflexivity|].
  assert (F : forallb (fun o : option N => match o with None => true | _ => false end) (announcements statistics p) = true
              <-> forall at_ id, In (at_, id) (leaves p) -> announced id = None).
  { rewrite forallb_forall, E. split.
    - intros H a id Hi. assert (X : In (announced id) (map (fun '(_, id) => announced id) (leaves p))) by (apply in_map_iff; exists (a, id); auto).
      apply H in X. now destruct (announced id).
    - intros H x Hx. apply in_map_iff in Hx. destruct Hx as ([a id] & <- & Hi). now rewrite (H a id Hi). }
  destruct (forallb _ _) eqn:EF.
  - split; [|intros n; discriminate]. split; [intros _; now apply F|reflexivity].
  - split; [|intros n [= <-]; reflexivity]. split; [discriminate|]. intros H. apply F in H. discriminate.
Qed.
Print Assumptions C91_expected_rows_partial.

(** Hence a stage never seems further than finished: if every streamed leaf announces at least the rows its parts have in all
    tasks together, the reports of all partitions of all tasks add up to at most the rows expected. *)
Theorem C91_progress_at_most_all checks statistics p ls parts tasks reports expected :
  lists p ls -> 0 < parts ->
  (forall at_ id, In (at_, id) ls -> exists n, statistics id = Some (Some n) /\
     sum (map (fun '(final, _) => value (final id)) tasks) <= n) ->
  rows_of (fun id => match statistics id with Some rows => rows | None => None end) ls <= usize_max ->
  Forall2 (fun '(final, snapshots) rs =>
     N.of_nat (List.length snapshots) = parts /\
     Forall (fun counter => forall id, value (counter id) <= value (final id)) snapshots /\
     mapM (fun counter => rows_pulled checks counter parts p) snapshots = Ok rs) tasks reports ->
  leaf_rows checks None (announcements statistics p) = Ok (Some expected) ->
  sum (List.concat reports) <= expected.
Proof.
  intros Hl Hp Hs Hm HT HE.
  destruct (C91_expected_rows_partial checks statistics p ls Hl) as (total & E & _ & Hn); [|exact Hm|].
  { intros a id Hi. destruct (Hs a id Hi) as (n & -> & _). discriminate. }
  rewrite HE in E. injection E as <-. rewrite (Hn expected eq_refl). clear Hn HE.
  set (announced := fun id => match statistics id with Some rows => rows | None => None end) in *.
  (* the rows of all tasks *)
  assert (K : sum (map (fun '(final, _) => rows_of final ls) tasks) <= rows_of announced ls).
  { assert (X : sum (map (fun '(final, _) => rows_of final ls) tasks) = sum (map (fun '(_, id) => sum (map (fun '(final, _) => value (final id)) tasks)) ls)).
    { clear. induction tasks as [|[final sn] tasks IH].
      - cbn. induction ls as [|[a id] ls IH]; [reflexivity|]. cbn [map]. now rewrite sum_cons, <- IH.
      - cbn [map]. rewrite sum_cons, IH. unfold rows_of. clear. induction ls as [|[a id] ls IH]; [reflexivity|]. cbn [map]. rewrite !sum_cons, <- IH. lia. }
    rewrite X. unfold rows_of. clear - Hs. induction ls as [|[a id] ls IH]; [cbn; lia|]. cbn [map]. rewrite !sum_cons.
    destruct (Hs a id (or_introl eq_refl)) as (n & E & Le). unfold announced at 1. rewrite E. cbn [value].
    specialize (IH (fun a id Hi => Hs a id (or_intror Hi))). lia. }
  assert (M : forall final sn, In (final, sn) tasks -> rows_of final ls <= usize_max).
  { intros final sn Hi. apply N.le_trans with (2 := Hm). apply N.le_trans with (2 := K). clear - Hi.
    induction tasks as [|[f s] tasks IH]; [destruct Hi|]. cbn [map]. rewrite sum_cons. destruct Hi as [[= -> ->]|Hi]; [lia|]. specialize (IH Hi). lia. }
  apply N.le_trans with (2 := K). clear K Hm Hs. induction HT as [|[final sn] rs tasks reports (H1 & H2 & H3) _ IH]; [cbn; lia|].
  cbn [List.concat map]. rewrite sum_app, sum_cons.
  destruct (C91_no_row_counted_twice checks p ls parts sn final rs Hl H1 Hp (M final sn (or_introl eq_refl)) H2 H3) as [L _].
  specialize (IH (fun f s Hi => M f s (or_intror Hi))). lia.
Qed.
Print Assumptions C91_progress_at_most_all.

Module DriverEx.
(** A hash join of a build side (leaf 1) with a union of two leaves (2 and 3). *)
Definition join : dplan := DJoin 0 (DOther 1 []) (DOther 9 [DOther 2 []; DOther 8 [DOther 3 []]]).
Definition counted (id : nat) : option N := match id with 1%nat => Some 1000 | 2%nat => Some 11 | 3%nat => Some 20 | _ => None end.
Definition statistics (id : nat) : option (option N) := Some (counted id).

Example C91_case :
  lists join [([1; 0]%nat, 2%nat); ([1; 1; 0]%nat, 3%nat)] /\
  rows_pulled true counted 4 join = Ok 7 /\
  announcements statistics join = [Some 11; Some 20] /\
  leaf_rows true None (announcements statistics join) = Ok (Some 31) /\
  mapM (fun c => rows_pulled true c 4 join) [counted; counted; counted; fun _ => None] = Ok [7; 7; 7; 0].
Proof. split; [exact (leaves_listed join)|]. repeat split; reflexivity. Qed.

(** The hypotheses of [C91_progress_at_most_all] for one task of four partitions. *)
Example C91_progress_case :
  (forall at_ id, In (at_, id) [([1; 0]%nat, 2%nat); ([1; 1; 0]%nat, 3%nat)] -> exists n, statistics id = Some (Some n) /\
     sum (map (fun '(final, _) => value (final id)) [(counted, [counted; counted; counted; fun _ => None])]) <= n) /\
  Forall2 (fun '(final, snapshots) rs =>
     N.of_nat (List.length snapshots) = 4 /\
     Forall (fun counter => forall id, value (counter id) <= value (final id)) snapshots /\
     mapM (fun counter => rows_pulled true counter 4 join) snapshots = Ok rs)
    [(counted, [counted; counted; counted; fun _ => None])] [[7; 7; 7; 0]].
Proof.
  split.
  - intros a id [[= <- <-]|[[= <- <-]|[]]]; eexists; (split; [reflexivity|]); cbn; lia.
  - repeat constructor; cbn; intros; lia.
Qed.
End DriverEx.
Import DriverEx.

(** Shares are truncated: a leaf with fewer rows than the stage has partitions never counts, even when all of it was read. The
    stage then seems not to have begun, and is estimated at 2^64-1 rows (see C47). *)
Theorem C91_small_leaves_refuted :
  exists p rows parts arrivals s msg,
    (forall id, rows id = Some 7) /\ parts = 8 /\ rows_pulled true rows parts p = Ok 0 /\
    leaf_rows true None (announcements (fun id => Some (rows id)) p) = Ok (Some 7) /\
    Forall (fun a => s_rows a = 1 /\ s_pulled a = 0) arrivals /\
    gather false 1%nat 1%nat 8 1 (announcements (fun id => Some (rows id)) p) arrivals = Ok s /\ num_rows s = Inexact usize_max /\
    gather true 1%nat 1%nat 8 1 (announcements (fun id => Some (rows id)) p) arrivals = Panic msg.
Proof.
  pose (half := SpecFloat.S754_finite false 8388608 (-24)%Z).
  exists (DOther 0 []), (fun _ => Some 7), 8, [mkSample 1 [1] [half] [half] 0 false; mkSample 1 [1] [half] [half] 0 false].
  eexists _, _. split; [reflexivity|]. split; [reflexivity|]. split; [reflexivity|]. split; [reflexivity|].
  split; [repeat constructor|]. split; [vm_compute; reflexivity|]. split; [reflexivity|]. vm_compute. reflexivity.
Qed.
Print Assumptions C91_small_leaves_refuted.

(** A leaf that announces nothing counts among the rows read but not among those expected: the stage seems finished although
    no row of the leaf that announces 1000 rows was read. *)
Theorem C91_silent_leaves_refuted :
  exists p statistics rows,
    lists p [([0]%nat, 0%nat); ([1]%nat, 1%nat)] /\ statistics 0%nat = Some (Some 1000) /\ statistics 1%nat = Some None /\
    rows 0%nat = Some 0 /\
    leaf_rows true None (announcements statistics p) = Ok (Some 1000) /\ rows_pulled true rows 1 p = Ok 1000.
Proof.
  exists (DOther 5 [DOther 0 []; DOther 1 []]), (fun id => Some (match id with 0%nat => Some 1000 | _ => None end)),
    (fun id => Some (match id with 0%nat => 0 | _ => 1000 end)).
  split; [exact (leaves_listed (DOther 5 [DOther 0 []; DOther 1 []]))|]. repeat split; reflexivity.
Qed.
Print Assumptions C91_silent_leaves_refuted.

(** A leaf whose statistics fail hides those after it: 10 rows are expected where 1010 are announced. *)
Theorem C91_failing_statistics_refuted :
  exists p statistics,
    lists p [([0]%nat, 0%nat); ([1]%nat, 1%nat); ([2]%nat, 2%nat)] /\
    statistics 0%nat = Some (Some 10) /\ statistics 1%nat = None /\ statistics 2%nat = Some (Some 1000) /\
    leaf_rows true None (announcements statistics p) = Ok (Some 10).
Proof.
  exists (DOther 5 [DOther 0 []; DOther 1 []; DOther 2 []]),
    (fun id => match id with 0%nat => Some (Some 10) | 1%nat => None | _ => Some (Some 1000) end).
  split; [exact (leaves_listed (DOther 5 [DOther 0 []; DOther 1 []; DOther 2 []]))|]. repeat split; reflexivity.
Qed.
Print Assumptions C91_failing_statistics_refuted.
