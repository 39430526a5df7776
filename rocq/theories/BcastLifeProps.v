(** Property C101: what a broadcast holds in memory, and for how long. *)
From Coq Require Import ZArith.
From Verif Require Import Base CiuModel CiuProofs BcastModel BcastSpec BcastProofs BcastLifeModel BcastLifeSpec BcastLifeProofs BcastLifeEnd.

(** In every state that can be reached, whatever the order in which streams are asked for, read and dropped and the plan is
    dropped, the pool has reserved exactly this: for each input partition every batch read so far once, however many readers
    there are, as long as its task runs, a reader has a stream of it or the plan exists and a reader has yet to come. *)
Theorem C101_memory_accounted : forall (batch err : Type) (size : batch -> N) (nd : @node batch err) l,
  steps (life_step size nd) (life_init nd) l ->
  sum_over (should_reserve size nd l) 0 (st_slots (l_base l)) (l_pool l).
Proof. intros batch err size nd l H. apply accounted. now apply life_ok_reachable. Qed.

Print Assumptions C101_memory_accounted.

(** Never more than the build side once. *)
Theorem C101_memory_bounded : forall (batch err : Type) (size : batch -> N) (nd : @node batch err) l,
  steps (life_step size nd) (life_init nd) l -> (l_pool l <= all_bytes size nd)%Z.
Proof. intros batch err size nd l H. apply at_most_all. now apply life_ok_reachable. Qed.

Print Assumptions C101_memory_bounded.

(** When the plan and all streams have been dropped, only finitely many steps follow... *)
Theorem C101_release_is_finite : forall (batch err : Type) (size : batch -> N) (nd : @node batch err) l (run : nat -> life),
  abandoned l -> run 0 = l -> ~ forall i, life_step size nd (run i) (run (S i)).
Proof. intros batch err size nd l run. apply release_finite. Qed.

Print Assumptions C101_release_is_finite.

(** ... and when no step is left, nothing is reserved. *)
Theorem C101_memory_released : forall (batch err : Type) (size : batch -> N) (nd : @node batch err) l,
  steps (life_step size nd) (life_init nd) l -> abandoned l -> (forall l', ~ life_step size nd l l') -> l_pool l = 0%Z.
Proof. intros batch err size nd l H. apply released. now apply life_ok_reachable. Qed.

Print Assumptions C101_memory_released.

(** A reader gets everything, whoever else drops their stream or the plan and whenever: what it has got is a beginning of the
    input, all of it if its stream ended, and the task was not aborted, unless the input itself panicked. *)
Theorem C101_readers_are_independent : forall (batch err : Type) (size : batch -> N) (nd : @node batch err) l h r c input,
  steps (life_step size nd) (life_init nd) l -> being_read l h -> stream_at (l_base l) h = Some (r, c) ->
  nth_error (n_input nd) (fst h) = Some (inl input) ->
  prefix (c_got c) (until_error input) /\
  (~ In (fst h) (l_panicked l) -> ~ In (fst h) (l_aborted l) /\ (c_ended c = true -> c_got c = until_error input)).
Proof.
  intros batch err size nd l h r c input Hst Hb Hs Hi. pose proof (life_ok_reachable size nd l Hst) as Hok.
  destruct (reader_complete size nd l h r c input Hok Hs Hb Hi) as [H1 H2]. split; [assumption|].
  intros Hp. destruct (H2 Hp) as [Hc Ha]. split; [assumption|]. intros He.
  exact (proj2 (BcastProps.C27_every_consumer_sees_everything _ _ _ _ _ _ _ _ (ok_base _ _ _ Hok) Hs Hi) He Hc).
Qed.

Print Assumptions C101_readers_are_independent.

(** And its stream can be read to the end, in every such state. *)
Theorem C101_readers_can_go_on : forall (batch err : Type) (size : batch -> N) (nd : @node batch err) l h input,
  steps (life_step size nd) (life_init nd) l -> being_read l h ->
  nth_error (n_input nd) (fst h) = Some (inl input) -> ~ In (fst h) (l_panicked l) ->
  exists l' r c, steps (life_step size nd) l l' /\ stream_at (l_base l') h = Some (r, c) /\
    c_ended c = true /\ c_got c = until_error input.
Proof. intros batch err size nd l h input. apply reader_goes_on. Qed.

Print Assumptions C101_readers_can_go_on.

(** ** What is refuted *)

(** Two consumer tasks, one input partition of two batches of the given sizes. *)
Definition two_readers (a b : N) : @node N string := mkNode 2 [inl [inl a; inl b]].
Notation own := (fun n : N => n).

Definition asked (a b : N) : @life N string :=
  mkLife (mkState [Live (mkRunning queue_new (Running [inl a; inl b]) (repeat (new_consumer queue_new) 2) 1 false)] [1] [(0, inl (0, 0))])
    true [] [] [] (set_at (fun _ => 0) 0 3) (set_at (fun _ => 0) 0 2) 0%Z.
Lemma reach_asked a b : steps (life_step own (two_readers a b)) (life_init (two_readers a b)) (asked a b).
Proof.
  apply steps_one.
  exact (life_execute own (two_readers a b) (life_init (two_readers a b)) 0 0 Unused (inl [inl a; inl b]) _ _ eq_refl ltac:(discriminate) eq_refl eq_refl eq_refl eq_refl).
Qed.

(** The memory limit of the pool is not respected: for every limit there are a build side and a run of it in which more is
    reserved, while a reader still gets everything without an error. *)
Theorem C101_memory_limit_refuted : forall limit : N, exists (nd : @node N string) l h input,
  steps (life_step own nd) (life_init nd) l /\ (l_pool l > Z.of_N limit)%Z /\ being_read l h /\
  nth_error (n_input nd) (fst h) = Some (inl input) /\ (forall e, ~ In (inr e) input) /\
  exists l' r c, steps (life_step own nd) l l' /\ stream_at (l_base l') h = Some (r, c) /\ c_ended c = true /\ c_got c = input.
Proof.
  intros limit. set (a := (limit + 1)%N).
  assert (H : exists l, life_step own (two_readers a 1) (asked a 1) l /\ (l_pool l > Z.of_N limit)%Z /\ being_read l (0, 0) /\ l_panicked l = []).
  { eexists. split; [|split; [|split]].
    - eapply (life_produce own (two_readers a 1) (asked a 1) 0); [reflexivity|]. apply push_batch.
    - cbn. subst a. lia.
    - do 2 eexists. split; [reflexivity|]. split; [cbn; lia|]. cbn. auto.
    - reflexivity. }
  destruct H as (l & Hs & Hp & Hb & Hpan).
  assert (Hst : steps (life_step own (two_readers a 1)) (life_init _) l) by (eapply steps_next; [apply reach_asked|exact Hs]).
  exists (two_readers a 1), l, (0, 0), [inl a; inl 1%N]. split; [exact Hst|]. split; [exact Hp|]. split; [exact Hb|].
  split; [reflexivity|]. split; [intros e [E|[E|[]]]; discriminate|].
  exact (C101_readers_can_go_on _ _ own (two_readers a 1) l (0, 0) _ Hst Hb eq_refl ltac:(rewrite Hpan; intros [])).
Qed.

Print Assumptions C101_memory_limit_refuted.

(** The task does not stop when all readers have gone: with both streams handed out and dropped nobody can ever read the cache,
    but as long as the plan exists the input is read on and its batches are reserved. *)
Theorem C101_stops_without_readers_refuted : exists (nd : @node N string) l l' r r',
  steps (life_step own nd) (life_init nd) l /\ nth_error (st_slots (l_base l)) 0 = Some (Live r) /\
  r_popped r = n_consumers nd /\ (forall h, ~ being_read l h) /\ batches_read r = [] /\
  steps (life_step own nd) l l' /\ nth_error (st_slots (l_base l')) 0 = Some (Live r') /\
  batches_read r' = [7; 8]%N /\ l_pool l' = 15%Z.
Proof.
  set (nd := two_readers 7 8).
  pose (r2 := mkRunning queue_new (Running [inl 7; inl 8]%N) (repeat (new_consumer queue_new) 2) 2 false : @running N string).
  pose (base := mkState [Live r2] [1] [(0, inl (0, 0)); (0, inl (0, 1))]).
  pose (l1 := mkLife base true [(0, 1); (0, 0)] [] [] (set_at (set_at (set_at (fun _ => 0) 0 3) 0 2) 0 1)
                (set_at (set_at (set_at (set_at (fun _ => 0) 0 2) 0 3) 0 2) 0 1) 0%Z : @life N string).
  assert (S1 : steps (life_step own nd) (life_init nd) l1).
  { pose (lx := mkLife base true [] [] [] (set_at (fun _ => 0) 0 3) (set_at (set_at (fun _ => 0) 0 2) 0 3) 0%Z : @life N string).
    pose (ly := mkLife base true [(0, 0)] [] [] (set_at (set_at (fun _ => 0) 0 3) 0 2) (set_at (set_at (set_at (fun _ => 0) 0 2) 0 3) 0 2) 0%Z : @life N string).
    apply steps_next with (s2 := ly); [apply steps_next with (s2 := lx); [apply steps_next with (s2 := asked 7 8); [apply reach_asked|]|]|].
    - exact (life_execute own nd (asked 7 8) 0 0 _ (inl [inl 7%N; inl 8%N]) _ _ eq_refl ltac:(discriminate) eq_refl eq_refl eq_refl eq_refl).
    - exact (life_drop_stream own nd lx 0 r2 0 (new_consumer queue_new) eq_refl ltac:(cbn; lia) eq_refl eq_refl ltac:(intros [])).
    - refine (life_drop_stream own nd ly 0 r2 1 (new_consumer queue_new) eq_refl ltac:(cbn; lia) eq_refl eq_refl _). cbn. intros [E|[]]. discriminate. }
  pose (q1 := mkQueue [inl 7%N] 0 false 0 true : @queue N string).
  pose (q2 := mkQueue [inl 7%N] 1 false 1 true : @queue N string).
  pose (q3 := mkQueue [inl 7; inl 8]%N 1 false 1 true : @queue N string).
  pose (ra := mkRunning q1 (Pushed 1 [inl 8%N]) (r_consumers r2) 2 false).
  pose (rb := mkRunning q2 (Running [inl 8%N]) (r_consumers r2) 2 false).
  pose (rc := mkRunning q3 (Pushed 2 []) (r_consumers r2) 2 false).
  assert (Ha : life_step own nd l1 (mkLife (mkState [Live ra] [1] (st_answers base)) true (l_gone l1) [] []
                 (set_at (l_refs l1) 0 1) (l_tasks l1) 7%Z)).
  { exact (life_produce own nd l1 0 r2 q1 (Pushed 1 [inl 8%N]) eq_refl (push_batch queue_new 7%N [inl 8%N] false)). }
  match type of Ha with life_step _ _ _ ?x => set (la := x) in * end.
  assert (Hb : life_step own nd la (mkLife (mkState [Live rb] [1] (st_answers base)) true (l_gone l1) [] []
                 (set_at (l_refs la) 0 1) (l_tasks l1) 7%Z)).
  { exact (life_produce own nd la 0 ra q2 (Running [inl 8%N]) eq_refl (publish q1 1 [inl 8%N] false)). }
  match type of Hb with life_step _ _ _ ?x => set (lb := x) in * end.
  assert (Hc : life_step own nd lb (mkLife (mkState [Live rc] [1] (st_answers base)) true (l_gone l1) [] []
                 (set_at (l_refs lb) 0 1) (l_tasks l1) 15%Z)).
  { exact (life_produce own nd lb 0 rb q3 (Pushed 2 []) eq_refl (push_batch q2 8%N [] false)). }
  match type of Hc with life_step _ _ _ ?x => set (lc := x) in * end.
  exists nd, l1, lc, r2, rc. split; [exact S1|]. split; [reflexivity|]. split; [reflexivity|]. split; [|split; [reflexivity|]].
  - intros [real k] (r & c & Hs & Hk & Hg). unfold stream_at in Hs. cbn [fst snd l1 base l_base l_gone st_slots] in Hs, Hg.
    destruct real as [|[|real]]; cbn in Hs; try discriminate. destruct k as [|[|[|k]]]; cbn in Hs; try discriminate; apply Hg; cbn; auto.
  - split; [eapply steps_next; [eapply steps_next; [apply steps_one; exact Ha|exact Hb]|exact Hc]|].
    split; [reflexivity|]. split; reflexivity.
Qed.

Print Assumptions C101_stops_without_readers_refuted.

(** The hypotheses are met: both streams of a broadcast handed out, one dropped, then the plan dropped; the other is still
    being read, and the batch that was read is reserved. *)
Module Ex.
Definition cons : list (@consumer N string) := repeat (new_consumer queue_new) 2.
Definition q1 : @queue N string := mkQueue [inl 7%N] 0 false 0 true.
Definition base (r : @running N string) (ans : list (nat * ((nat * nat) + exec_error))) := mkState [Live r] [1] ans.
Definition zero : nat -> nat := fun _ => 0.
Definition both : list (nat * ((nat * nat) + @exec_error string)) := [(0, inl (0, 0)); (0, inl (0, 1))].
Definition one : list (nat * ((nat * nat) + @exec_error string)) := [(0, inl (0, 0))].

Definition ra := mkRunning queue_new (Running [inl 7; inl 8]%N) cons 2 false.
Definition rb := mkRunning q1 (Pushed 1 [inl 8%N]) cons 2 false.
Definition la : @life N string := mkLife (base ra both) true [] [] [] (set_at zero 0 3) (set_at (set_at zero 0 2) 0 3) 0%Z.
Definition lb : @life N string := mkLife (base rb both) true [] [] [] (set_at (l_refs la) 0 3) (l_tasks la) 7%Z.
Definition lc : @life N string := mkLife (base rb both) true [(0, 0)] [] [] (set_at (l_refs lb) 0 2) (set_at (l_tasks lb) 0 2) 7%Z.
Definition ld : @life N string := mkLife (base rb both) false [(0, 0)] [] []
  (fun real => l_refs lc real - slot_drops (slot_at (l_base lc) real)) (fun real => l_tasks lc real - slot_task (slot_at (l_base lc) real)) 7%Z.

Example C101_reading_on :
  steps (life_step own (two_readers 7 8)) (life_init (two_readers 7 8)) ld /\
  l_node ld = false /\ In (0, 0) (l_gone ld) /\ being_read ld (0, 1) /\ l_panicked ld = [] /\ l_pool ld = 7%Z.
Proof.
  split; [|split; [reflexivity|split; [left; reflexivity|split; [|split; reflexivity]]]].
  - apply steps_next with (s2 := lc); [apply steps_next with (s2 := lb); [apply steps_next with (s2 := la);
      [apply steps_next with (s2 := asked 7 8); [apply reach_asked|]|]|]|].
    + exact (life_execute own (two_readers 7 8) (asked 7 8) 0 0 _ (inl [inl 7%N; inl 8%N]) _ _ eq_refl ltac:(discriminate) eq_refl eq_refl eq_refl eq_refl).
    + exact (life_produce own (two_readers 7 8) la 0 ra q1 (Pushed 1 [inl 8%N]) eq_refl (push_batch queue_new 7%N [inl 8%N] false)).
    + exact (life_drop_stream own (two_readers 7 8) lb 0 rb 0 (new_consumer queue_new) eq_refl ltac:(cbn; lia) eq_refl eq_refl ltac:(intros [])).
    + exact (life_drop_node own (two_readers 7 8) lc eq_refl).
  - exists rb, (new_consumer queue_new). split; [reflexivity|]. split; [cbn; lia|]. cbn. intros [E|[]]. discriminate.
Qed.

(** And a broadcast that is abandoned after one of its two streams was handed out: its task is aborted, and nothing is left
    to be done. *)
Definition q2 : @queue N string := mkQueue [inl 7%N] 1 false 1 true.
Definition q3 : @queue N string := mkQueue [inl 7%N] 1 true 2 true.
Definition q4 : @queue N string := mkQueue [inl 7%N] 1 true 2 false.
Definition r0 := mkRunning queue_new (Running [inl 7; inl 8]%N) cons 1 false.
Definition r1 := mkRunning q1 (Pushed 1 [inl 8%N]) cons 1 false.
Definition r2 := mkRunning q2 (Running [inl 8%N]) cons 1 false.
Definition r3 := mkRunning q2 Closing cons 1 true.
Definition r4 := mkRunning q3 SenderDrop cons 1 true.
Definition r5 := mkRunning q4 Finished cons 1 true.
Definition l1 : @life N string := mkLife (base r1 one) true [] [] [] (set_at (l_refs (asked 7 8)) 0 3) (l_tasks (asked 7 8)) 7%Z.
Definition l2 : @life N string := mkLife (base r2 one) true [] [] [] (set_at (l_refs l1) 0 3) (l_tasks l1) 7%Z.
Definition l3 : @life N string := mkLife (base r2 one) true [(0, 0)] [] [] (set_at (l_refs l2) 0 2) (set_at (l_tasks l2) 0 1) 7%Z.
Definition l4 : @life N string := mkLife (base r2 one) false [(0, 0)] [] []
  (fun real => l_refs l3 real - slot_drops (slot_at (l_base l3) real)) (fun real => l_tasks l3 real - slot_task (slot_at (l_base l3) real)) 7%Z.
Definition l5 : @life N string := mkLife (base r3 one) false [(0, 0)] [] [0] (l_refs l4) (l_tasks l4) 7%Z.
Definition l6 : @life N string := mkLife (base r4 one) false [(0, 0)] [] [0] (set_at (l_refs l5) 0 1) (l_tasks l5) 7%Z.
Definition l7 : @life N string := mkLife (base r5 one) false [(0, 0)] [] [0] (set_at (l_refs l6) 0 0) (l_tasks l6) 0%Z.

Example C101_abandoned :
  steps (life_step own (two_readers 7 8)) (life_init (two_readers 7 8)) l7 /\ abandoned l7 /\
  (forall l', ~ life_step own (two_readers 7 8) l7 l') /\ In 0 (l_aborted l7).
Proof.
  split; [|split; [|split; [|left; reflexivity]]].
  - apply steps_next with (s2 := l6); [apply steps_next with (s2 := l5); [apply steps_next with (s2 := l4); [apply steps_next with (s2 := l3);
      [apply steps_next with (s2 := l2); [apply steps_next with (s2 := l1); [apply steps_next with (s2 := asked 7 8); [apply reach_asked|]|]|]|]|]|]|].
    + exact (life_produce own (two_readers 7 8) (asked 7 8) 0 r0 q1 (Pushed 1 [inl 8%N]) eq_refl (push_batch queue_new 7%N [inl 8%N] false)).
    + exact (life_produce own (two_readers 7 8) l1 0 r1 q2 (Running [inl 8%N]) eq_refl (publish q1 1 [inl 8%N] false)).
    + exact (life_drop_stream own (two_readers 7 8) l2 0 r2 0 (new_consumer queue_new) eq_refl ltac:(cbn; lia) eq_refl eq_refl ltac:(intros [])).
    + exact (life_drop_node own (two_readers 7 8) l3 eq_refl).
    + exact (life_abort own (two_readers 7 8) l4 0 r2 [inl 8%N] eq_refl eq_refl eq_refl).
    + exact (life_produce own (two_readers 7 8) l5 0 r3 q3 SenderDrop eq_refl (close q2 true)).
    + exact (life_produce own (two_readers 7 8) l6 0 r4 q4 Finished eq_refl (drop_sender q3 true)).
  - split; [reflexivity|]. intros [real k] (r & c & Hs & Hk & Hg). unfold stream_at in Hs. cbn [fst snd] in *.
    destruct real as [|[|real]]; cbn in Hs; try discriminate. destruct k as [|[|[|k]]]; cbn in Hs; try discriminate;
    injection Hs as <- <-; cbn in *; try lia. apply Hg. auto.
  - assert (Hone : forall real r, nth_error (st_slots (l_base l7)) real = Some (Live r) -> real = 0 /\ r = r5).
    { intros [|[|real]] r E; cbn in E; try discriminate. injection E as <-. auto. }
    intros l' H. inversion H as [l p real s inp s' ans E1 | l real r q' p' E1 E2 | l real r todo E1 E2 | l real r todo E1 E2 E3
                                |l real r k c E1 E2 E3 E4 | l real r k c E1 E2 E3 E4 E5 | l E1]; subst;
      try (apply Hone in E1 as [-> ->]).
    + discriminate.
    + inversion E2.
    + discriminate.
    + discriminate.
    + destruct k; [apply E4; left; reflexivity|cbn in E2; lia].
    + destruct k; [apply E5; left; reflexivity|cbn in E2; lia].
    + discriminate.
Qed.
End Ex.
