(** Properties of the connection between a consumer task and a producer task (C30, C31, C32, C50, C51 and
    part of C28). *)
From Verif Require Import Base CiuModel CiuProofs DemuxModel DemuxSpec DemuxProofs.

Section Props.
Context {data err : Type}.
Notation source_item := (@item data + err)%type.
Variables (start budget capacity : nat) (bad : nat -> err) (sources : list (list source_item)).
Notation reachable := (conn_reachable start budget capacity bad sources).
Notation step := (conn_step start budget capacity bad).

Lemma snoc_split {A} (a g y : list A) x : a ++ [x] = g ++ y -> g = a ++ [x] \/ exists y', a = g ++ y'.
Proof.
  revert g. induction a as [|z a IH]; intros [|w g] H; cbn in H.
  - right. now exists [].
  - left. injection H as -> H. symmetry in H. apply app_eq_nil in H. now destruct H as [-> ->].
  - right. now exists (z :: a).
  - injection H as -> H. destruct (IH _ H) as [->|[y' ->]]; [now left|right; now exists y'].
Qed.

(** * C30: taking the merged stream apart *)

(** Each consumer sees messages of its own partition only, in the order of the producer, without gaps or
    repetitions; and after them at most one error. *)
Theorem C30_own_messages_in_order k i S p :
  reachable k -> nth_error sources i = Some S -> nth_error (k_parts k) i = Some p ->
  exists A, conn_prefix A S /\ error_free A /\ (p_got p = A \/ exists e, p_got p = A ++ [inr e] /\ k_failed k = Some e).
Proof.
  intros H HS Hp. apply inv_reachable in H. destruct (inv_part _ _ _ H _ _ _ HS Hp) as (P1 & P2 & _).
  destruct (k_failed k) as [e|] eqn:F.
  - destruct (P2 e eq_refl) as (A & R & T & HA & EA & HT & _). apply snoc_split in HT. destruct HT as [HT|[y HT]].
    + exists A. split; [now exists R|]. split; [assumption|]. right. eauto.
    + exists (p_got p). rewrite HT in HA, EA. apply error_free_app in EA. destruct EA as [EA _].
      split; [exists (y ++ R); now rewrite app_assoc|]. auto.
  - destruct (P1 eq_refl) as (A & T & HA & EA & HT & _). exists (p_got p). rewrite HT in HA, EA.
    apply error_free_app in EA. destruct EA as [EA _]. split; [eexists; rewrite HA, <- !app_assoc; reflexivity|]. auto.
Qed.

(** A stream that ends without having reported an error has delivered everything its partition had (unless
    a task crashed, see C28), and then no partition of the connection had an error. *)
Theorem C30_normal_end_is_complete k i S p :
  reachable k -> k_crashed k = false -> nth_error sources i = Some S -> nth_error (k_parts k) i = Some p ->
  p_ended p = true -> error_free (p_got p) -> (forall q, In q (k_parts k) -> p_lost q = []) ->
  p_got p = S /\ (forall j Sj, nth_error sources j = Some Sj -> error_free Sj).
Proof.
  intros H C HS Hp En Ef Hlost. apply inv_reachable in H.
  destruct (inv_ended _ _ _ H _ _ _ HS Hp En) as (_ & _ & Fe & Cl).
  destruct (k_failed k) as [e|] eqn:F; [destruct (Ef e); auto|].
  destruct (Cl eq_refl C) as [HS2 HA]. split.
  - rewrite HS2, (Hlost p) by (now apply nth_error_In in Hp). now rewrite app_nil_r.
  - intros j Sj HSj. assert (Hj : exists q, nth_error (k_parts k) j = Some q).
    { destruct (nth_error (k_parts k) j) eqn:E; [eauto|]. apply nth_error_None in E. rewrite (inv_len _ _ _ H) in E.
      assert (j < List.length sources) by (apply nth_error_Some; congruence). lia. }
    destruct Hj as [q Hq]. destruct (inv_part _ _ _ H _ _ _ HSj Hq) as (P1 & _). destruct (P1 F) as (A & T & HSA & EA & _).
    rewrite Forall_forall in HA. apply nth_error_In in Hq. destruct (HA _ Hq) as [E1 E2]. rewrite E1, E2, (Hlost _ Hq) in HSA.
    cbn in HSA. rewrite app_nil_r in HSA. now subst.
Qed.

(** An error in any partition of the connection is seen, as an error, by every stream that is read to its
    end; a normal end is never reported instead. *)
Theorem C30_errors_reach_everyone k i p j Sj e :
  reachable k -> k_crashed k = false -> (forall q, In q (k_parts k) -> p_lost q = []) ->
  nth_error (k_parts k) i = Some p -> p_ended p = true ->
  nth_error sources j = Some Sj -> In (inr e) Sj ->
  exists e', In (inr e') (p_got p).
Proof.
  intros H C Hlost Hp En HSj He. pose proof (inv_reachable _ _ _ _ _ _ H) as I.
  assert (HS : exists S, nth_error sources i = Some S).
  { destruct (nth_error sources i) eqn:E; [eauto|]. apply nth_error_None in E. rewrite <- (inv_len _ _ _ I) in E.
    assert (i < List.length (k_parts k)) by (apply nth_error_Some; congruence). lia. }
  destruct HS as [S HS]. destruct (k_failed k) as [e'|] eqn:F.
  - exists e'. apply (proj1 (proj2 (proj2 (inv_ended _ _ _ I _ _ _ HS Hp En)))). assumption.
  - exfalso. assert (Ef : error_free (p_got p)).
    { destruct (inv_part _ _ _ I _ _ _ HS Hp) as (P1 & _). destruct (P1 F) as (A & T & _ & EA & -> & _).
      now apply error_free_app in EA. }
    destruct (C30_normal_end_is_complete _ _ _ _ H C HS Hp En Ef Hlost) as [_ HE]. exact (HE _ _ HSj e He).
Qed.

(** Whatever makes the connection fail, every stream that still exists gets the error. *)
Theorem C30_failure_reaches_everyone k i p e :
  reachable k -> k_failed k = Some e -> nth_error (k_parts k) i = Some p -> p_live p = true ->
  In (inr e) (p_got p ++ p_queue p) /\ (p_ended p = true -> In (inr e) (p_got p)).
Proof.
  intros H F Hp Hl. apply inv_reachable in H.
  assert (HS : exists S, nth_error sources i = Some S).
  { destruct (nth_error sources i) eqn:E; [eauto|]. apply nth_error_None in E. rewrite <- (inv_len _ _ _ H) in E.
    assert (i < List.length (k_parts k)) by (apply nth_error_Some; congruence). lia. }
  destruct HS as [S HS]. split.
  - destruct (inv_part _ _ _ H _ _ _ HS Hp) as (_ & P2 & _). destruct (P2 e F) as (A & R & T & _ & _ & HT & Hlive).
    rewrite (Hlive Hl), app_nil_r in HT. rewrite <- HT. apply in_or_app. right. now left.
  - intros En. now apply (proj1 (proj2 (proj2 (inv_ended _ _ _ H _ _ _ HS Hp En)))).
Qed.

(** No run goes on forever. *)
Theorem C30_every_run_ends : well_founded (fun k' k : @conn data err => step k k').
Proof. apply well_founded_lt_compat with (f := conn_weight). intros a b H. eapply step_weight; eauto. Qed.

(** A run that cannot continue without a stream being dropped or something breaking has brought every
    existing stream to its end, and every run can be continued to such a point - provided that less than
    the budget was buffered for the streams that were dropped. *)
Theorem C30_drains k :
  reachable k -> k_crashed k = false -> k_leaked k < budget -> 0 < capacity ->
  ((forall k', ~ calm_step start budget capacity bad k k') ->
     forall i p, nth_error (k_parts k) i = Some p -> p_live p = true -> p_ended p = true) /\
  exists k', steps (calm_step start budget capacity bad) k k' /\
    forall i p, nth_error (k_parts k') i = Some p -> p_live p = true -> p_ended p = true.
Proof.
  intros H C HL Hcap. apply inv_reachable in H. split.
  - intros Hq. destruct (progress start _ _ bad _ _ H C HL Hcap) as [Hd|[k' Hk]]; [assumption|]. now apply Hq in Hk.
  - eapply drains; eauto.
Qed.

(** * C31: dropping a stream early *)

(** What holds: streams that were dropped with less than the budget buffered do not keep the others from
    receiving everything they would have received. Missing: more than that may be buffered, see
    [C31_refuted] and [C31_stall]. *)
Theorem C31_dropping_partial k :
  reachable k -> k_crashed k = false -> 0 < capacity -> k_leaked k < budget ->
  (forall q, In q (k_parts k) -> p_lost q = []) -> (forall j Sj, nth_error sources j = Some Sj -> error_free Sj) ->
  k_failed k = None ->
  exists k', steps (calm_step start budget capacity bad) k k' /\
    forall i S p, nth_error sources i = Some S -> nth_error (k_parts k') i = Some p -> p_live p = true ->
      p_ended p = true /\ p_got p = S.
Proof.
  intros H C Hcap HL Hlost Hef F.
  assert (G : forall k', steps (calm_step start budget capacity bad) k k' ->
     reachable k' /\ k_crashed k' = false /\ (forall q, In q (k_parts k') -> p_lost q = []) /\ k_failed k' = None).
  { intros k' Hk. induction Hk as [|a b c Hk IH Hst]; [auto|]. destruct (IH H C HL Hlost F) as (R1 & C1 & L1 & F1).
    pose proof (inv_reachable _ _ _ _ _ _ R1) as I1.
    destruct Hst as [Hst (_ & Hlo & Hcr & _ & Hfa)]. split; [eapply steps_next; eauto|]. split; [congruence|]. split.
    - intros q Hq. assert (Hin : In (p_lost q) (map p_lost (k_parts b))) by (rewrite <- Hlo; now apply in_map).
      apply in_map_iff in Hin. destruct Hin as (q' & <- & Hq'). auto.
    - destruct Hfa as [Hfa|(q & e & Hq & He & _)]; [congruence|]. exfalso.
      apply In_nth_error in Hq. destruct Hq as [j Hq].
      assert (HS : exists S, nth_error sources j = Some S).
      { destruct (nth_error sources j) eqn:E; [eauto|]. apply nth_error_None in E. rewrite <- (inv_len _ _ _ I1) in E.
        assert (j < List.length (k_parts b)) by (apply nth_error_Some; congruence). lia. }
      destruct HS as [S HS]. destruct (inv_part _ _ _ I1 _ _ _ HS Hq) as (P1 & _). destruct (P1 F1) as (A & T & HSA & _).
      apply (Hef _ _ HS e). rewrite HSA. apply in_or_app. right. apply in_or_app. now left. }
  destruct (proj2 (C30_drains k H C HL Hcap)) as (k' & Hk' & Hend). exists k'. split; [assumption|].
  intros i S p HS Hp Hl. specialize (Hend _ _ Hp Hl). split; [assumption|].
  destruct (G _ Hk') as (R' & C' & L' & F').
  assert (Ef : error_free (p_got p)).
  { destruct (inv_part _ _ _ (inv_reachable _ _ _ _ _ _ R') _ _ _ HS Hp) as (P1 & _).
    destruct (P1 F') as (A & T & _ & EA & -> & _). now apply error_free_app in EA. }
  exact (proj1 (C30_normal_end_is_complete _ _ _ _ R' C' HS Hp Hend Ef L')).
Qed.

(** What goes wrong, in general: once the budget's worth of bytes was buffered for dropped streams, and the
    demultiplexer is at its gate, no other stream ever receives anything more, or ends. *)
Theorem C31_stall k :
  reachable k -> k_crashed k = false -> budget <= k_leaked k ->
  (k_phase k = Gate \/ k_phase k = Blocked) -> k_cancelled k = false ->
  forall k', steps (calm_step start budget capacity bad) k k' ->
    (forall i, delivered k' i = delivered k i) /\
    (forall i p, nth_error (k_parts k') i = Some p -> p_ended p = false).
Proof.
  intros H C HL Hph K k' Hk. apply inv_reachable in H.
  destruct (stalled_leak _ _ _ _ _ _ H C (conj Hph K) HL k' Hk) as (S1 & D1 & I1 & _). split; [assumption|].
  intros i p Hp. destruct (p_ended p) eqn:E; [|reflexivity].
  assert (HS : exists S, nth_error sources i = Some S).
  { destruct (nth_error sources i) eqn:E2; [eauto|]. apply nth_error_None in E2. rewrite <- (inv_len _ _ _ I1) in E2.
    assert (i < List.length (k_parts k')) by (apply nth_error_Some; congruence). lia. }
  destruct HS as [S HS]. destruct (inv_ended _ _ _ I1 _ _ _ HS Hp E) as (D & _). destruct S1 as [[S1|S1] _]; congruence.
Qed.

(** * C32: byte accounting *)

(** The sizes recorded are sizes of messages of the producer. *)
Lemma sizes_from_sources k : reachable k ->
  forall s, In s (k_sizes k) -> exists i S it, nth_error sources i = Some S /\ In (inl it) S /\ it_size it = s.
Proof.
  revert k. refine (steps_ind_fwd _ _ _ _ _).
  - intros s [].
  - intros k1 k2 H IH Hst. pose proof (inv_reachable _ _ _ _ _ _ H) as I.
    destruct Hst; cbn [set_parts set_phase fanout k_sizes] in *; auto.
    destruct (sender_of _ _ _); cbn [set_parts set_phase fanout k_sizes]; auto.
    intros s Hs. apply in_app_or in Hs. destruct Hs as [Hs|[<-|[]]]; [auto|].
    assert (HS : exists S, nth_error sources i = Some S).
    { destruct (nth_error sources i) eqn:E2; [eauto|]. apply nth_error_None in E2. rewrite <- (inv_len _ _ _ I) in E2.
      assert (i < List.length (k_parts k)) by (apply nth_error_Some; congruence). lia. }
    destruct HS as [S HS]. exists i, S, it. split; [assumption|]. split; [|reflexivity].
    match goal with Hp : nth_error (k_parts k) i = Some p |- _ => destruct (inv_part _ _ _ I _ _ _ HS Hp) as (P1 & _) end.
    assert (F : k_failed k = None) by (apply (running_clean _ _ _ I); congruence).
    destruct (P1 F) as (A & T & -> & _). apply in_or_app. right. apply in_or_app. left.
    match goal with Hb : p_buf p = _ |- _ => rewrite Hb end. now left.
Qed.

(** The memory accounted for never exceeds the budget by more than one message. *)
Theorem C32_bound k :
  reachable k -> k_reserved k = 0 \/
  exists i S it, nth_error sources i = Some S /\ In (inl it) S /\ k_reserved k < budget + it_size it.
Proof.
  intros H. destruct (inv_bound _ _ _ (inv_reachable _ _ _ _ _ _ H)) as [E|(s & Hs & E)]; [auto|].
  destruct (sizes_from_sources k H s Hs) as (i & S & it & HS & Hin & <-). right. eauto 10.
Qed.

(** The memory accounted for is the bytes buffered for existing streams plus everything that was ever
    buffered for a stream when it was dropped. Missing: the second part should not be there, see
    [C32_refuted]. *)
Theorem C32_accounting_partial k :
  reachable k -> k_crashed k = false -> k_reserved k = buffered k + k_leaked k.
Proof. intros H. apply inv_bytes with (sources := sources) (budget := budget). now apply inv_reachable in H. Qed.

(** * C50: streams of the same connection do not wait for each other *)

(** Refuted in general: if the budget's worth of bytes is buffered for a stream that exists but is not
    being polled, no other stream of the connection receives anything more. *)
Theorem C50_unread_sibling_stall k i p :
  reachable k -> k_crashed k = false -> (k_phase k = Gate \/ k_phase k = Blocked) -> k_cancelled k = false ->
  nth_error (k_parts k) i = Some p -> budget <= bytes (p_queue p) -> p_got p = [] ->
  forall k', steps (fun a b => idle a i /\ calm_step start budget capacity bad a b /\ idle b i) k k' ->
    (forall j, delivered k' j = delivered k j) /\
    (forall j q, nth_error (k_parts k') j = Some q -> p_ended q = false).
Proof.
  intros H C Hph K Hp Hb Hg k' Hk. apply inv_reachable in H.
  destruct (stalled_idle _ _ _ _ _ _ i H C (conj Hph K) (ex_intro _ p (conj Hp (conj Hb Hg))) k' Hk) as (S1 & D1 & I1 & _). split; [assumption|].
  intros j q Hq. destruct (p_ended q) eqn:E; [|reflexivity].
  assert (HS : exists S, nth_error sources j = Some S).
  { destruct (nth_error sources j) eqn:E2; [eauto|]. apply nth_error_None in E2. rewrite <- (inv_len _ _ _ I1) in E2.
    assert (j < List.length (k_parts k')) by (apply nth_error_Some; congruence). lia. }
  destruct HS as [S HS]. destruct (inv_ended _ _ _ I1 _ _ _ HS Hq E) as (D & _). destruct S1 as [[S1|S1] _]; congruence.
Qed.
End Props.

(** * Examples and counterexamples *)

(** One step forward. *)
Tactic Notation "go" uconstr(s) := eapply steps_trans; [apply steps_one; eapply s; cbn; try reflexivity; try (cbn; lia); try discriminate; cbn|cbn].

Definition two_sources : list (list (@item nat + string)) :=
  [[inl (mkItem 1 5); inl (mkItem 2 3)]; [inl (mkItem 7 1); inr "disk"%string; inl (mkItem 8 1)]].

(** The hypotheses of the C30 theorems are met: partitions 4 and 5 of a producer, budget 4, channel capacity
    2. The first stream reads a message; the second one is dropped; then both of the remaining errors and
    messages are there to read. *)
Example C30_hypotheses_met : exists k p q,
  conn_reachable 4 4 2 (fun _ => "bad"%string) two_sources k /\ k_crashed k = false /\ k_failed k = Some "disk"%string /\
  nth_error (k_parts k) 0 = Some p /\ nth_error (k_parts k) 1 = Some q /\
  (forall r, In r (k_parts k) -> p_lost r = []) /\
  p_ended p = true /\ p_got p = [inl (mkItem 1 5); inr "disk"%string] /\
  p_ended q = true /\ p_got q = [inl (mkItem 7 1); inr "disk"%string].
Proof.
  do 3 eexists. split; [|split; [|split; [|split; [|split; [|split; [|split; [|split; [|split]]]]]]]].
  - unfold conn_reachable, two_sources, conn_init. cbn [map].
    go (worker_pull 4 4 2 (fun _ => "bad"%string) _ 0).
    go (worker_pull 4 4 2 (fun _ => "bad"%string) _ 1).
    go (worker_pull 4 4 2 (fun _ => "bad"%string) _ 1).
    go (first_poll 4 4 2 (fun _ => "bad"%string) _ 0).
    go demux_connect. go demux_gate_open. go (demux_recv 4 4 2 (fun _ => "bad"%string) _ 0). go (demux_send 4 4 2 (fun _ => "bad"%string) _ 0).
    go demux_gate_closed.
    go (poll_item 4 4 2 (fun _ => "bad"%string) _ 0).
    go demux_notified. go demux_gate_open. go (demux_recv 4 4 2 (fun _ => "bad"%string) _ 1). go (demux_send 4 4 2 (fun _ => "bad"%string) _ 1).
    go demux_gate_open. go (demux_recv_error 4 4 2 (fun _ => "bad"%string) _ 1).
    go (first_poll 4 4 2 (fun _ => "bad"%string) _ 1).
    go (poll_error 4 4 2 (fun _ => "bad"%string) _ 0). go (poll_end 4 4 2 (fun _ => "bad"%string) _ 0).
    go (poll_item 4 4 2 (fun _ => "bad"%string) _ 1). go (poll_error 4 4 2 (fun _ => "bad"%string) _ 1).
    go (poll_end 4 4 2 (fun _ => "bad"%string) _ 1).
    apply steps_refl.
  - reflexivity.
  - reflexivity.
  - reflexivity.
  - reflexivity.
  - intros r [<-|[<-|[]]]; reflexivity.
  - reflexivity.
  - reflexivity.
  - reflexivity.
  - reflexivity.
Qed.

Definition leak_sources : list (list (@item nat + string)) := [[inl (mkItem 1 5)]; [inl (mkItem 7 1)]].

(** The state after the first partition's message was buffered and its stream dropped. *)
Definition leak_state : @conn nat string :=
  mkConn [mkPart [] [] [] [] false false [] false; mkPart [inl (mkItem 7 1)] [] [] [] true true [] false]
         Gate 5 false true false 5 None false [5].

Lemma leak_reached : conn_reachable 0 5 2 (fun _ => "bad"%string) leak_sources leak_state.
Proof.
  unfold conn_reachable, leak_sources, conn_init, leak_state. cbn [map].
  go (worker_pull 0 5 2 (fun _ => "bad"%string) _ 0).
  go (first_poll 0 5 2 (fun _ => "bad"%string) _ 1).
  go demux_connect. go demux_gate_open. go (demux_recv 0 5 2 (fun _ => "bad"%string) _ 0).
  go (demux_send 0 5 2 (fun _ => "bad"%string) _ 0).
  go (drop_stream 0 5 2 (fun _ => "bad"%string) _ 0).
  apply steps_refl.
Qed.

(** The claim of C31 is false: two partitions with one message each. The first partition's message fills the
    budget, its stream is dropped, and in no continuation does the second stream receive its message,
    although nothing crashes or fails and its consumer polls it. *)
Theorem C31_refuted : exists (sources : list (list (@item nat + string))) k p S,
  conn_reachable 0 5 2 (fun _ => "bad"%string) sources k /\ k_crashed k = false /\ k_failed k = None /\
  (forall j Sj, nth_error sources j = Some Sj -> error_free Sj) /\
  nth_error (k_parts k) 1 = Some p /\ p_live p = true /\ nth_error sources 1 = Some S /\ S <> [] /\
  forall k', steps (calm_step 0 5 2 (fun _ => "bad"%string)) k k' ->
    exists p', nth_error (k_parts k') 1 = Some p' /\ p_live p' = true /\ p_got p' = [] /\ p_ended p' = false.
Proof.
  exists leak_sources, leak_state, (mkPart [inl (mkItem 7 1)] [] [] [] true true [] false), [inl (mkItem 7 1)].
  split; [apply leak_reached|]. split; [reflexivity|]. split; [reflexivity|]. split.
  { intros [|[|[|j]]] Sj H; cbn in H; try discriminate; injection H as <-; apply error_free_inl. }
  split; [reflexivity|]. split; [reflexivity|]. split; [reflexivity|]. split; [discriminate|].
  intros k' Hk.
  destruct (C31_stall 0 5 2 (fun _ => "bad"%string) leak_sources leak_state leak_reached eq_refl (le_n _) (or_introl eq_refl) eq_refl k' Hk) as [D E].
  pose proof (D 1) as D1. change (delivered leak_state 1) with (Some (@nil (@item nat + string))) in D1. unfold delivered in D1.
  destruct (nth_error (k_parts k') 1) as [p'|] eqn:Hp'; [|discriminate]. cbn in D1. injection D1 as D1.
  apply app_eq_nil in D1. destruct D1 as [G _]. exists p'. split; [reflexivity|].
  split; [|split; [assumption|eauto]].
  assert (Hl : map p_live (k_parts k') = map p_live (k_parts leak_state)).
  { clear - Hk. induction Hk as [|a b c Hk IH Hst]; [reflexivity|]. destruct Hst as [_ (-> & _)]. assumption. }
  apply (f_equal (fun l => nth_error l 1)) in Hl. rewrite nth_error_map, Hp' in Hl. cbn in Hl. congruence.
Qed.

(** The claim of C32 is false: memory stays accounted for although nothing is buffered any more. *)
Theorem C32_refuted : exists (sources : list (list (@item nat + string))) k,
  conn_reachable 0 5 2 (fun _ => "bad"%string) sources k /\ k_crashed k = false /\ k_reserved k = 5 /\ buffered k = 0.
Proof. exists leak_sources, leak_state. split; [apply leak_reached|]. repeat split. Qed.

(** The claim of C50 is false: the same with a stream that exists but is not polled for now. *)
Theorem C50_refuted : exists (sources : list (list (@item nat + string))) k,
  conn_reachable 0 5 2 (fun _ => "bad"%string) sources k /\ k_crashed k = false /\ k_failed k = None /\
  idle k 0 /\ delivered k 1 = Some [] /\ nth_error sources 1 = Some [inl (mkItem 7 1)] /\
  forall k', steps (fun a b => idle a 0 /\ calm_step 0 5 2 (fun _ => "bad"%string) a b /\ idle b 0) k k' ->
    delivered k' 1 = Some [].
Proof.
  pose (k := mkConn [mkPart [] [] [] [inl (mkItem 1 5)] true false [] false; mkPart [inl (mkItem 7 1)] [] [] [] true true [] false]
         Gate 5 false true false 0 None false [5] : @conn nat string).
  assert (R : conn_reachable 0 5 2 (fun _ => "bad"%string) leak_sources k).
  { unfold conn_reachable, leak_sources, conn_init. cbn [map].
    go (worker_pull 0 5 2 (fun _ => "bad"%string) _ 0).
    go (first_poll 0 5 2 (fun _ => "bad"%string) _ 1).
    go demux_connect. go demux_gate_open. go (demux_recv 0 5 2 (fun _ => "bad"%string) _ 0).
    go (demux_send 0 5 2 (fun _ => "bad"%string) _ 0).
    apply steps_refl. }
  exists leak_sources, k. split; [assumption|]. split; [reflexivity|]. split; [reflexivity|].
  split; [eexists; split; [reflexivity|auto]|]. split; [reflexivity|]. split; [reflexivity|].
  intros k' Hk.
  destruct (C50_unread_sibling_stall 0 5 2 (fun _ => "bad"%string) leak_sources k 0 _ R eq_refl (or_introl eq_refl) eq_refl eq_refl (le_n 5) eq_refl k' Hk) as [D _].
  rewrite D. reflexivity.
Qed.

(** * C51: every buffer budget lets the data through *)

Section ZeroBudget.
Context {data err : Type}.
Variables (start capacity : nat) (bad : nat -> err) (sources : list (list (@item data + err))).

Lemma zero_budget_phases k : conn_reachable start 0 capacity bad sources k ->
  (k_crashed k = false -> (k_phase k = WaitPoll \/ k_phase k = Gate \/ k_phase k = Blocked \/
               (k_phase k = Done /\ (k_failed k <> None \/ k_cancelled k = true)))) /\
     (forall j q, nth_error (k_parts k) j = Some q -> messages (p_got q ++ p_queue q) = []).
Proof.
  intros H. pose proof (inv_reachable _ _ _ _ _ _ H) as I. revert k H I. refine (steps_ind_fwd _ _ _ _ _).
    - intros I. split; [auto|]. intros j q Hq. cbn in Hq. rewrite nth_error_map in Hq.
      destruct (nth_error sources j); [|discriminate]. injection Hq as <-. reflexivity.
    - intros a b Ha IH Hst Ib. pose proof (inv_reachable _ _ _ _ _ _ Ha) as Ia. destruct (IH Ia) as [IHp IHm]. clear IH.
      assert (Hr : k_phase a <> Recv).
      { intros E. pose proof (inv_recv _ _ _ Ia E). lia. }
      assert (U : forall j0 p0 v, nth_error (k_parts a) j0 = Some p0 -> p_got v ++ p_queue v = p_got p0 ++ p_queue p0 ->
         forall j q, nth_error (upd (k_parts a) j0 v) j = Some q -> messages (p_got q ++ p_queue q) = []).
      { intros j0 p0 v Hp0 Hv j q Hq. apply upd_nth_inv in Hq. destruct Hq as [[-> ->]|[_ Hq]]; [rewrite Hv; eauto|eauto]. }
      assert (FO : forall e j q, nth_error (map (fun p => send_part p (inr e)) (k_parts a)) j = Some q -> messages (p_got q ++ p_queue q) = []).
      { intros e j q Hq. rewrite nth_error_map in Hq. destruct (nth_error (k_parts a) j) as [q0|] eqn:E; [|discriminate].
        injection Hq as <-. rewrite send_part_got, send_part_queue. specialize (IHm _ _ E). destruct (p_live q0); [|assumption].
        rewrite app_assoc. unfold messages in *. rewrite flat_map_app, IHm. reflexivity. }
      destruct Hst; cbn [set_parts set_phase fanout k_parts k_phase k_failed k_crashed k_cancelled] in *; try contradiction;
        try (split; [tauto|]; eapply U; eauto; cbn; auto; fail).
      + split; [tauto|]. eapply U; eauto. cbn. rewrite H2, <- app_assoc. reflexivity.
      + split; [tauto|]. eapply U; eauto. cbn. rewrite H2, <- app_assoc. reflexivity.
      + split; [tauto|]. eapply U; eauto. cbn. rewrite H2. reflexivity.
      + split.
        * intros C. destruct (IHp C) as [?|[?|[?|[? [?|E]]]]]; auto 10. rewrite E. auto 10.
        * intros j q Hq. apply upd_nth_inv in Hq. destruct Hq as [[-> ->]|[_ Hq]]; [|eauto]. cbn.
          match goal with Hp : nth_error (k_parts k) _ = Some _ |- _ => specialize (IHm _ _ Hp) end.
          unfold messages in *. rewrite flat_map_app in IHm. apply app_eq_nil in IHm. rewrite app_nil_r. tauto.
      + split; [|assumption]. auto 10.
      + split; [|assumption]. auto.
      + split; [|exact (FO _)]. intros _. right. right. right. split; [reflexivity|]. left. discriminate.
      + lia.
      + split; [|assumption]. auto.
      + split; [|assumption]. auto.
      + exfalso. assert (Hnd : k_phase k <> Done) by congruence. destruct (running_clean _ _ _ Ia Hnd) as [_ C].
        destruct (IHp C) as [?|[?|[?|[? ?]]]]; congruence.
      + split; [discriminate|assumption]. 
Qed.

Lemma zero_budget_ended k : conn_reachable start 0 capacity bad sources k ->
  k_crashed k = false -> forall j q, nth_error (k_parts k) j = Some q -> p_ended q = true -> k_failed k <> None.
Proof.
  revert k. refine (steps_ind_fwd _ _ _ _ _).
  - intros _ j q Hq. cbn in Hq. rewrite nth_error_map in Hq. destruct (nth_error sources j); [|discriminate].
    injection Hq as <-. discriminate.
  - intros a b Ha IH Hst C j q Hq En. pose proof (inv_reachable _ _ _ _ _ _ Ha) as Ia.
    assert (Hqa : exists qa, nth_error (k_parts a) j = Some qa).
    { destruct (nth_error (k_parts a) j) eqn:E; [eauto|]. apply nth_error_None in E. rewrite (inv_len _ _ _ Ia) in E.
      assert (j < List.length (k_parts b)) by (apply nth_error_Some; congruence).
      rewrite (step_len _ _ _ _ _ _ _ Ia Hst) in *. lia. }
    destruct Hqa as [qa Hqa]. destruct (p_ended qa) eqn:Ea.
    + assert (HSa : exists S, nth_error sources j = Some S).
      { destruct (nth_error sources j) eqn:E2; [eauto|]. apply nth_error_None in E2. rewrite <- (inv_len _ _ _ Ia) in E2.
        assert (j < List.length (k_parts a)) by (apply nth_error_Some; congruence). lia. }
      destruct HSa as [S HSa]. destruct (inv_ended _ _ _ Ia _ _ _ HSa Hqa Ea) as (D & _).
      destruct (ended_keep _ _ _ _ _ _ _ Ia Hst D) as (_ & -> & Hc & _). eapply IH; eauto; congruence.
    + destruct (zero_budget_phases _ Ha) as [Gp _].
      assert (N : forall i0 p0 v, nth_error (k_parts a) i0 = Some p0 -> p_ended v = p_ended p0 ->
         nth_error (upd (k_parts a) i0 v) j = Some q -> False).
      { intros i0 p0 v Hp0 Hv H. apply upd_nth_inv in H. destruct H as [[-> ->]|[_ H]]; congruence. }
      assert (FO : forall e, nth_error (map (fun p => send_part p (inr e)) (k_parts a)) j = Some q -> False).
      { intros e H. rewrite nth_error_map, Hqa in H. cbn in H. injection H as <-. rewrite send_part_ended in En. congruence. }
      destruct Hst; cbn [set_parts set_phase fanout k_parts k_phase k_failed k_crashed k_cancelled] in *;
        try (match goal with Hx : nth_error (k_parts _) ?i = Some ?p, Hy : nth_error (upd _ ?i _) _ = Some q |- _ =>
               exfalso; refine (N i p _ Hx _ Hy); reflexivity end); try (exfalso; congruence); try (exfalso; eapply FO; eauto; fail).
      * apply upd_nth_inv in Hq. destruct Hq as [[-> ->]|[_ Hq]]; [|exfalso; congruence].
        destruct (Gp C) as [?|[?|[?|[_ [?|K]]]]]; try congruence; try assumption. rewrite (inv_cancelled _ _ _ Ia K _ _ H) in H0. discriminate.
      * pose proof (inv_recv _ _ _ Ia H). lia.
      * pose proof (inv_recv _ _ _ Ia H). lia.
      * exfalso. refine (N i p _ H0 _ Hq). apply send_part_ended.
Qed.
End ZeroBudget.

(** With a budget of zero bytes, which the configuration accepts, no stream ever receives a message, whatever
    happens; and no stream ends without an error, unless the demultiplexer crashes. *)
Theorem C51_zero_budget_refuted {data err : Type} start capacity (bad : nat -> err) (sources : list (list (@item data + err))) k i p :
  conn_reachable start 0 capacity bad sources k -> k_crashed k = false -> nth_error (k_parts k) i = Some p ->
  messages (p_got p) = [] /\ (p_ended p = true -> exists e, p_got p = [inr e]).
Proof.
  intros H C Hp. pose proof (inv_reachable _ _ _ _ _ _ H) as I.
  destruct (zero_budget_phases _ _ _ _ _ H) as [_ Gm]. specialize (Gm _ _ Hp).
  assert (Gg : messages (p_got p) = []) by (unfold messages in *; rewrite flat_map_app in Gm; now apply app_eq_nil in Gm).
  split; [assumption|]. intros En. pose proof (zero_budget_ended _ _ _ _ _ H C _ _ Hp En) as Hf.
  assert (HS : exists S, nth_error sources i = Some S).
  { destruct (nth_error sources i) eqn:E2; [eauto|]. apply nth_error_None in E2. rewrite <- (inv_len _ _ _ I) in E2.
    assert (i < List.length (k_parts k)) by (apply nth_error_Some; congruence). lia. }
  destruct HS as [S HS].
  destruct (C30_own_messages_in_order _ _ _ _ _ _ _ _ _ H HS Hp) as (A & _ & EA & HG).
  assert (HA0 : forall A : list (@item data + err), error_free A -> messages A = [] -> A = []).
  { intros [|[it|e] A0] E M; [reflexivity|discriminate|]. destruct (E e). now left. }
  destruct (inv_ended _ _ _ I _ _ _ HS Hp En) as (D & Q & Fe & Cl).
  destruct (k_failed k) as [e|] eqn:F; [|congruence]. exists e. specialize (Fe e eq_refl).
  destruct HG as [HG|(e' & HG & E)].
  - rewrite HG in Fe. destruct (EA e Fe).
  - injection E as ->. rewrite HG in Gg |- *. unfold messages in Gg. rewrite flat_map_app in Gg. apply app_eq_nil in Gg.
    now rewrite (HA0 A EA (proj1 Gg)).
Qed.

(** A positive budget is enough, see [C30_drains]; here with nothing dropped. *)
Theorem C51_positive_budget_partial {data err : Type} start budget capacity (bad : nat -> err)
    (sources : list (list (@item data + err))) :
  0 < budget -> 0 < capacity -> (forall j Sj, nth_error sources j = Some Sj -> error_free Sj) ->
  exists k, conn_reachable start budget capacity bad sources k /\
    forall i S p, nth_error sources i = Some S -> nth_error (k_parts k) i = Some p -> p_ended p = true /\ p_got p = S.
Proof.
  intros HB HC Hef.
  assert (R : conn_reachable start budget capacity bad sources (conn_init sources)) by constructor.
  destruct (C31_dropping_partial start budget capacity bad sources (conn_init sources) R eq_refl HC HB) as (k & Hk & H); auto.
  - intros q Hq. cbn in Hq. apply in_map_iff in Hq. destruct Hq as (S & <- & _). reflexivity.
  - exists k. split.
    + unfold conn_reachable. clear - Hk. induction Hk as [|a b c Hk IH Hst]; [constructor|]. eapply steps_next; [exact IH|apply Hst].
    + intros i S p HS Hp. eapply H; eauto.
      assert (Hl : map p_live (k_parts k) = map p_live (k_parts (conn_init sources))).
      { clear - Hk. induction Hk as [|a b c Hk IH Hst]; [reflexivity|]. destruct Hst as [_ (-> & _)]. assumption. }
      apply (f_equal (fun l => nth_error l i)) in Hl. rewrite !nth_error_map, Hp in Hl. cbn in Hl.
      rewrite nth_error_map, HS in Hl. cbn in Hl. congruence.
Qed.

(** * C28: crashes of the producing side, over the network *)

(** The claim is false: if the worker's task that pulls a partition crashes, or the client's demultiplexing
    task does, the consumer sees a normal end of its stream although data is missing. *)
Theorem C28_worker_task_refuted : exists (sources : list (list (@item nat + string))) k p S,
  conn_reachable 0 5 2 (fun _ => "bad"%string) sources k /\ k_crashed k = false /\
  nth_error sources 0 = Some S /\ nth_error (k_parts k) 0 = Some p /\
  p_ended p = true /\ error_free (p_got p) /\ p_got p <> S.
Proof.
  exists [[inl (mkItem 1 1); inl (mkItem 2 1)]]. do 3 eexists. split.
  - unfold conn_reachable, conn_init. cbn [map].
    go (worker_pull 0 5 2 (fun _ => "bad"%string) _ 0).
    go (worker_crash 0 5 2 (fun _ => "bad"%string) _ 0).
    go (first_poll 0 5 2 (fun _ => "bad"%string) _ 0).
    go demux_connect. go demux_gate_open. go (demux_recv 0 5 2 (fun _ => "bad"%string) _ 0).
    go (demux_send 0 5 2 (fun _ => "bad"%string) _ 0). go demux_gate_open.
    go demux_exhausted; [repeat constructor|].
    go (poll_item 0 5 2 (fun _ => "bad"%string) _ 0). go (poll_end 0 5 2 (fun _ => "bad"%string) _ 0).
    apply steps_refl.
  - do 4 (split; [reflexivity|]). split; [apply error_free_inl|discriminate].
Qed.

Theorem C28_client_task_refuted : exists (sources : list (list (@item nat + string))) k p S,
  conn_reachable 0 5 2 (fun _ => "bad"%string) sources k /\ (forall q, In q (k_parts k) -> p_lost q = []) /\
  nth_error sources 0 = Some S /\ nth_error (k_parts k) 0 = Some p /\
  p_ended p = true /\ error_free (p_got p) /\ p_got p <> S.
Proof.
  exists [[inl (mkItem 1 1)]]. do 3 eexists. split.
  - unfold conn_reachable, conn_init. cbn [map].
    go (first_poll 0 5 2 (fun _ => "bad"%string) _ 0).
    go demux_connect. go demux_crash. go (poll_end 0 5 2 (fun _ => "bad"%string) _ 0).
    apply steps_refl.
  - split; [intros q [<-|[]]; reflexivity|]. do 3 (split; [reflexivity|]). split; [apply error_free_nil|discriminate].
Qed.

Print Assumptions C30_own_messages_in_order.
Print Assumptions C30_normal_end_is_complete.
Print Assumptions C30_errors_reach_everyone.
Print Assumptions C30_failure_reaches_everyone.
Print Assumptions C30_every_run_ends.
Print Assumptions C30_drains.
Print Assumptions C31_dropping_partial.
Print Assumptions C31_stall.
Print Assumptions C31_refuted.
Print Assumptions C32_bound.
Print Assumptions C32_accounting_partial.
Print Assumptions C32_refuted.
Print Assumptions C50_unread_sibling_stall.
Print Assumptions C50_refuted.
Print Assumptions C51_zero_budget_refuted.
Print Assumptions C51_positive_budget_partial.
Print Assumptions C28_worker_task_refuted.
Print Assumptions C28_client_task_refuted.
