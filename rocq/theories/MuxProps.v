(** The merged stream of a worker: memory, order, end (C76). *)
From Verif Require Import Base CiuModel CiuProofs PoolProofs MuxModel MuxSpec MuxProofs.

Section Props.
Context {data err : Type}.
Notation item := (msg data + err)%type.
Variables (q : nat) (inputs : list (list item)).
Implicit Types x : mux data err.

(** What is accounted for is what is in memory, and giving it back never panics. *)
Theorem C76_memory_accounted x : mux_reachable q inputs x ->
  x_panicked x = false /\ (x_freed x = false -> x_reserved x = bytes_waiting x).
Proof using. intros H. pose proof (mux_ok_reachable _ _ _ H) as I. split; [exact (ok_panic _ _ _ I)|exact (ok_reserved _ _ _ I)]. Qed.

Lemma list_sum_bound (l : list nat) b : Forall (fun n => n <= b) l -> list_sum l <= List.length l * b.
Proof using. induction 1 as [|n l Hn _ IH]; [reflexivity|]. change (n + list_sum l <= b + List.length l * b). lia. Qed.

(** For each partition at most one message more than its queue holds is in memory, however slow the reader. *)
Theorem C76_memory_bounded x biggest : mux_reachable q inputs x ->
  (forall l m, In l inputs -> In m l -> size_of m <= biggest) ->
  Forall (fun s => List.length (waiting s) <= q + 1) (x_sources x) /\
  x_reserved x <= List.length inputs * ((q + 1) * biggest).
Proof using.
  intros H Hb. pose proof (mux_ok_reachable _ _ _ H) as I.
  assert (Hw : Forall (fun s => List.length (waiting s) <= q + 1) (x_sources x)).
  { apply Forall_forall. intros s Hs. apply In_nth_error in Hs. destruct Hs as [i Hi]. pose proof (ok_queue _ _ _ I _ _ Hi).
    unfold waiting. rewrite app_length. destruct (s_held s); cbn; lia. }
  split; [exact Hw|]. destruct (x_freed x) eqn:Hf; [destruct (ok_freed _ _ _ I Hf) as [_ ->]; lia|].
  rewrite (ok_reserved _ _ _ I Hf). unfold bytes_waiting. rewrite <- (ok_len _ _ _ I).
  rewrite <- (map_length (fun s => bytes_of (waiting s)) (x_sources x)). apply list_sum_bound. apply Forall_map, Forall_forall.
  intros s Hs. rewrite Forall_forall in Hw. pose proof (Hw _ Hs) as Hl. apply In_nth_error in Hs. destruct Hs as [i Hi].
  pose proof (ok_all _ _ _ I _ _ Hi) as Ha. apply nth_error_In in Ha.
  assert (Hm : Forall (fun n => n <= biggest) (map size_of (waiting s))).
  { apply Forall_map, Forall_forall. intros m Hin. apply (Hb _ _ Ha). unfold waiting, held_list in *. rewrite !in_app_iff in *. tauto. }
  apply list_sum_bound in Hm. rewrite map_length in Hm. unfold bytes_of. nia.
Qed.

(** What the reader got is made of the beginnings of the partitions' messages, each in its order. *)
Theorem C76_order_kept x : mux_reachable q inputs x ->
  exists begun, interleaved begun (x_read x) /\ Forall2 (fun b l => exists rest, l = b ++ rest) begun inputs.
Proof using.
  intros H. pose proof (mux_ok_reachable _ _ _ H) as I. exists (map s_out (x_sources x)). split; [exact (ok_read _ _ _ I)|].
  assert (Hall := ok_all _ _ _ I). assert (Hlen := ok_len _ _ _ I). revert Hall Hlen. clear. generalize (x_sources x). intros ss. revert inputs.
  induction ss as [|s ss IH]; intros [|l inputs] Hall Hlen; try discriminate; [constructor|]. cbn. constructor.
  - specialize (Hall 0 s eq_refl). cbn in Hall. injection Hall as ->. eauto.
  - apply IH; [|cbn in Hlen; lia]. intros i t Hi. exact (Hall (Datatypes.S i) t Hi).
Qed.

Lemma mux_ended_spec x : mux_ended x = true <-> Forall (fun s => s_ended s = true /\ s_queue s = []) (x_sources x).
Proof using.
  unfold mux_ended. rewrite forallb_forall, Forall_forall. split; intros H s Hs; specialize (H s Hs).
  - apply andb_true_iff in H. destruct H as [H1 H2]. destruct (s_queue s); [auto|discriminate].
  - destruct H as [-> ->]. reflexivity.
Qed.

(** If the merged stream ends and no source panicked, everything was read. (The full claim leaves out the condition:
    see [C76_panic_truncates_refuted].) *)
Theorem C76_end_means_all_read_partial x : mux_reachable q inputs x -> x_dropped x = false ->
  mux_ended x = true -> Forall (fun s => s_crashed s = false) (x_sources x) -> interleaved inputs (x_read x).
Proof using.
  intros H Hd He Hc. pose proof (mux_ok_reachable _ _ _ H) as I. apply mux_ended_spec in He. rewrite Forall_forall in He, Hc.
  replace inputs with (map s_out (x_sources x)); [exact (ok_read _ _ _ I)|].
  apply nth_ext_error. intros i. rewrite nth_error_map. destruct (nth_error (x_sources x) i) as [s|] eqn:Hi.
  - cbn. rewrite (ok_all _ _ _ I _ _ Hi). pose proof (nth_error_In _ _ Hi) as Hin. destruct (He _ Hin) as [Hend Hq].
    destruct (ok_ended _ _ _ I _ _ Hi Hd Hend) as [Hh Hs]. unfold held_list. rewrite Hq, Hh, (Hs (Hc _ Hin)). cbn. now rewrite app_nil_r.
  - cbn. symmetry. apply nth_error_None. rewrite <- (ok_len _ _ _ I). now apply nth_error_None.
Qed.

(** * The stream ends *)

(** What is left to do. *)
Definition work (s : source data err) : nat :=
  3 * List.length (s_src s) + 2 * List.length (held_list s) + List.length (s_queue s) + (if s_ended s then 0 else 1).
Definition work_left x : nat := list_sum (map work (x_sources x)).

Lemma sum_decreases i x s s' : nth_error (x_sources x) i = Some s -> work s' < work s ->
  list_sum (map work (upd (x_sources x) i s')) < work_left x.
Proof using. intros Hi Hw. unfold work_left. pose proof (sum_upd work _ _ s' _ Hi). lia. Qed.

(** Every step, but for the reader going away, leaves less to do: there is no endless schedule. *)
Theorem C76_schedules_are_finite x x' : mux_step q x x' -> x_dropped x' = false -> work_left x' < work_left x.
Proof using.
  intros Hs Hd. unfold work_left at 1.
  destruct Hs as [x i s m rest Hi He Hh Hsrc _|x i s m Hi He Hh Hq _|x i s Hi He Hh Hsrc _|x i s Hi He Hh _|x i s m rest Hi Hqu _ Hp|x _|x i s Hi He Hdr|x Hdr Ha Hf];
    cbn [x_sources with_source] in *; cbn [x_dropped] in Hd; try congruence.
  - apply (sum_decreases _ _ _ _ Hi). unfold work, held_list. cbn. rewrite He, Hh, Hsrc. cbn. lia.
  - apply (sum_decreases _ _ _ _ Hi). unfold work, held_list. cbn. rewrite He, Hh, app_length. cbn. lia.
  - apply (sum_decreases _ _ _ _ Hi). unfold work, held_list. cbn. rewrite He, Hh, Hsrc. cbn. lia.
  - apply (sum_decreases _ _ _ _ Hi). unfold work, held_list. cbn. rewrite He, Hh. cbn. lia.
  - apply (sum_decreases _ _ _ _ Hi). unfold work, held_list. cbn. rewrite Hqu. cbn. lia.
  - cbn in Hd. congruence.
Qed.

(** As long as the reader reads and the stream has not ended, something can happen other than a panic: with the theorem
    before, the stream ends. *)
Theorem C76_no_deadlock x : 0 < q -> mux_reachable q inputs x -> x_dropped x = false -> mux_ended x = false ->
  exists x', mux_step q x x' /\ x_dropped x' = false /\ map s_crashed (x_sources x') = map s_crashed (x_sources x).
Proof using.
  intros Hq H Hd He. pose proof (mux_ok_reachable _ _ _ H) as I.
  assert (Hs : exists i s, nth_error (x_sources x) i = Some s /\ ~ (s_ended s = true /\ s_queue s = [])).
  { assert (Hn : ~ Forall (fun s => s_ended s = true /\ s_queue s = []) (x_sources x)) by (rewrite <- mux_ended_spec; congruence).
    revert Hn. generalize (x_sources x). clear. intros l. induction l as [|s l IH]; intros Hn; [destruct Hn; constructor|].
    assert (Hdec : (s_ended s = true /\ s_queue s = []) \/ ~ (s_ended s = true /\ s_queue s = [])).
    { destruct (s_ended s), (s_queue s); [left; auto|right; intros []; discriminate..]. }
    destruct Hdec as [Hy|Hy]; [|exists 0, s; auto]. destruct IH as (i & t & Hi & Ht); [intros Hl; apply Hn; now constructor|].
    exists (Datatypes.S i), t. auto. }
  destruct Hs as (i & s & Hi & Hs).
  assert (Hcr : forall s', s_crashed s' = s_crashed s -> map s_crashed (upd (x_sources x) i s') = map s_crashed (x_sources x)).
  { intros s' E. exact (upd_same_map _ _ _ _ _ Hi E). }
  destruct (s_queue s) as [|m rest] eqn:Hqu.
  - destruct (s_ended s) eqn:Hend; [destruct Hs; auto|].
    pose proof (running_not_crashed _ _ _ H _ _ Hi Hend) as Hnc.
    destruct (s_held s) as [m|] eqn:Hh.
    + eexists. split; [eapply send_step; [exact Hi|exact Hend|exact Hh|rewrite Hqu; exact Hq|exact Hd]|]. cbn. split; [exact Hd|].
      apply Hcr. cbn. congruence.
    + destruct (s_src s) as [|m rest] eqn:Hsrc.
      * eexists. split; [eapply end_step; eauto|]. cbn. split; [exact Hd|]. apply Hcr. cbn. congruence.
      * eexists. split; [eapply take_step; eauto|]. cbn. split; [exact Hd|]. apply Hcr. cbn. congruence.
  - eexists. split; [eapply read_step; eauto; exact (ok_panic _ _ _ I)|]. cbn. split; [exact Hd|]. now apply Hcr.
Qed.

(** From wherever it is, a stream that is read to the end ends, with no panic on the way. *)
Corollary C76_stream_ends x : 0 < q -> mux_reachable q inputs x -> x_dropped x = false ->
  exists x', steps (mux_step q) x x' /\ x_dropped x' = false /\ mux_ended x' = true /\
             map s_crashed (x_sources x') = map s_crashed (x_sources x).
Proof using.
  intros Hq. remember (work_left x) as n eqn:En. revert x En. induction n as [n IH] using (well_founded_induction lt_wf). intros x -> H Hd.
  destruct (mux_ended x) eqn:He; [exists x; auto using steps_refl|].
  destruct (C76_no_deadlock x Hq H Hd He) as (x1 & Hs & Hd1 & Hc).
  destruct (IH _ (C76_schedules_are_finite _ _ Hs Hd1) x1 eq_refl) as (x2 & Hs2 & Hd2 & He2 & Hc2);
    [eapply steps_trans; [exact H|exact (steps_one _ _ _ Hs)]|exact Hd1|].
  exists x2. split; [eapply steps_trans; [exact (steps_one _ _ _ Hs)|exact Hs2]|]. split; [exact Hd2|]. split; [exact He2|congruence].
Qed.

(** After the reader went away, all the accounted memory is given back once nothing more happens ... *)
Theorem C76_memory_released x : mux_reachable q inputs x -> x_dropped x = true ->
  (forall x', ~ mux_step q x x') -> x_reserved x = 0.
Proof using.
  intros H Hd Hno. pose proof (mux_ok_reachable _ _ _ H) as I. destruct (x_freed x) eqn:Hf; [apply (ok_freed _ _ _ I Hf)|].
  exfalso. destruct (forallb s_ended (x_sources x)) eqn:Ha; [exact (Hno _ (free_step q x Hd Ha Hf))|].
  assert (Hs : exists s, In s (x_sources x) /\ s_ended s = false).
  { revert Ha. generalize (x_sources x). clear. intros l. induction l as [|s l IH]; cbn; [discriminate|]. destruct (s_ended s) eqn:E; [|eauto].
    cbn. intros Ha. destruct (IH Ha) as (t & Ht & Hte). eauto. }
  destruct Hs as (s & Hin & Hse). apply In_nth_error in Hin. destruct Hin as [i Hi]. exact (Hno _ (abort_step q x i s Hi Hse Hd)).
Qed.

(** ... which it does after as many steps as there are sources, and one. *)
Theorem C76_release_is_finite x x' : x_dropped x = true -> mux_step q x x' ->
  x_dropped x' = true /\
  List.length (filter (fun s => negb (s_ended s)) (x_sources x')) + (if x_freed x' then 0 else 1) <
  List.length (filter (fun s => negb (s_ended s)) (x_sources x)) + (if x_freed x then 0 else 1).
Proof using.
  intros Hd Hs.
  destruct Hs as [x i s m rest Hi He Hh Hsrc Hn|x i s m Hi He Hh Hq Hn|x i s Hi He Hh Hsrc Hn|x i s Hi He Hh Hn|x i s m rest Hi Hqu Hn Hp|x Hn|x i s Hi He Hdr|x Hdr Ha Hf];
    try congruence.
  - split; [exact Hd|]. cbn [with_source x_sources x_freed]. apply Nat.add_lt_mono_r.
    revert i Hi. induction (x_sources x) as [|t l IH]; intros [|i]; cbn; try discriminate.
    + intros E. injection E as ->. rewrite He. cbn. lia.
    + intros E. specialize (IH _ E). destruct (s_ended t); cbn; lia.
  - split; [reflexivity|]. cbn [x_sources x_freed]. rewrite Hf. lia.
Qed.
End Props.

(** * Cases *)

(** Two partitions, of three and one messages; queues of one. *)
Definition two_parts : list (list (msg nat + string)) :=
  [[inl (mkMsg 1 10); inl (mkMsg 2 20); inr "late"%string]; [inl (mkMsg 3 30)]].

Ltac mux_step_with c n := eapply steps_trans; [apply steps_one; eapply c with (i := n); cbn; try reflexivity; cbn; lia|cbn].

Example C76_two_partitions_case :
  exists x, mux_reachable 1 two_parts x /\ mux_ended x = true /\ x_dropped x = false /\
    x_read x = [inl (mkMsg 1 10); inl (mkMsg 3 30); inl (mkMsg 2 20); inr "late"%string].
Proof.
  eexists. split; [|split; [|split]].
  - unfold mux_reachable, two_parts, mux_new. cbn.
    mux_step_with (@take_step nat string) 0.
    mux_step_with (@send_step nat string) 0.
    mux_step_with (@take_step nat string) 1.
    mux_step_with (@take_step nat string) 0.
    mux_step_with (@read_step nat string) 0.
    mux_step_with (@send_step nat string) 1.
    mux_step_with (@send_step nat string) 0.
    mux_step_with (@read_step nat string) 1.
    mux_step_with (@read_step nat string) 0.
    mux_step_with (@take_step nat string) 0.
    mux_step_with (@send_step nat string) 0.
    mux_step_with (@end_step nat string) 0.
    mux_step_with (@end_step nat string) 1.
    mux_step_with (@read_step nat string) 0.
    apply steps_refl.
  - reflexivity.
  - reflexivity.
  - reflexivity.
Qed.

(** The full claim, that the end of the merged stream means that all was read, is false: a partition that panics leaves
    its messages out and the stream ends as if all was well. *)
Theorem C76_panic_truncates_refuted :
  exists (inputs : list (list (msg nat + string))) x, mux_reachable 10 inputs x /\ x_dropped x = false /\ mux_ended x = true /\
    Forall (fun m => exists d, m = inl d) (x_read x) /\ ~ interleaved inputs (x_read x).
Proof.
  exists two_parts. eexists. split; [|split; [|split; [|split]]].
  - unfold mux_reachable, two_parts, mux_new. cbn.
    mux_step_with (@take_step nat string) 0.
    mux_step_with (@send_step nat string) 0.
    mux_step_with (@crash_step nat string) 0.
    mux_step_with (@take_step nat string) 1.
    mux_step_with (@send_step nat string) 1.
    mux_step_with (@end_step nat string) 1.
    mux_step_with (@read_step nat string) 0.
    mux_step_with (@read_step nat string) 1.
    apply steps_refl.
  - reflexivity.
  - reflexivity.
  - cbn. repeat (constructor; [eauto|]). constructor.
  - cbn. intros H.
    assert (Hl : forall ls (l : list (msg nat + string)), interleaved ls l -> list_sum (map (@List.length _) ls) = List.length l).
    { clear. induction 1 as [ls Hn|ls i l m rest Hi _ IH].
      - induction Hn as [|l ls -> _ IH]; [reflexivity|exact IH].
      - rewrite app_length, <- IH. pose proof (sum_upd (@List.length _) ls i (l ++ [m]) l Hi) as E. rewrite app_length in E. cbn in E |- *. lia. }
    apply Hl in H. discriminate H.
Qed.

Print Assumptions C76_memory_accounted.
Print Assumptions C76_memory_bounded.
Print Assumptions C76_order_kept.
Print Assumptions C76_end_means_all_read_partial.
Print Assumptions C76_schedules_are_finite.
Print Assumptions C76_no_deadlock.
Print Assumptions C76_stream_ends.
Print Assumptions C76_memory_released.
Print Assumptions C76_release_is_finite.
Print Assumptions C76_panic_truncates_refuted.
