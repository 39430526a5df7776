(** Theorems about sampled partitions: C37, C58, C59. *)
From Verif Require Import Base CiuModel CiuProofs SamplerModel SamplerSpec SamplerProofs.
From Coq Require Import NArith ZArith SpecFloat.

Section Props.
Context {val : Type} (val_dec : forall x y : val, {x = y} + {x <> y}) {err : Type}.
Variables (limit max_sample n_cols : nat) (sources : list (source val err)).
Notation step := (step val_dec limit max_sample n_cols).
Notation reachable := (steps step (kicked_off sources)).

(** ** C37: sampling a stream does not change it *)

(** For inputs without errors: what the consumer was given is always a beginning of the input's messages, and all
    of them once it saw the end; whenever the partition is executed, relative to sampling. *)
Theorem C37_stream_unchanged : forall s i src p, 0 < limit -> reachable s ->
  nth_error sources i = Some src -> nth_error (s_parts s) i = Some p -> error_free src ->
  exists n, is_prefix (p_out p) (messages src n) /\ (p_ended p = true -> ends_with src (p_out p)).
Proof.
  intros s i src p Hl R Hs Hp Hf. destruct (out_spec _ _ _ i src _ p (proj2 (reachable_inv _ _ _ _ sources s Hl R) i src p Hs Hp)) as [H|(e & He & _)]; [assumption|].
  destruct (error_free_first src e Hf He).
Qed.

(** For all inputs: the same, or the consumer was given the input's first error and nothing else. Missing: the
    batches before the error, see [C37_error_hides_rows_refuted]. *)
Theorem C37_stream_or_first_error_partial : forall s i src p, 0 < limit -> reachable s ->
  nth_error sources i = Some src -> nth_error (s_parts s) i = Some p ->
  (exists n, is_prefix (p_out p) (messages src n) /\ (p_ended p = true -> ends_with src (p_out p))) \/
  (exists e, first_error src e /\ p_out p = [inr e]).
Proof.
  intros s i src p Hl R Hs Hp. exact (out_spec _ _ _ i src _ p (proj2 (reachable_inv _ _ _ _ sources s Hl R) i src p Hs Hp)).
Qed.

(** Whoever executed a partition can read it to its end, if the input has one. *)
Theorem C37_can_be_read_to_the_end : forall s i src p n, 0 < limit -> reachable s ->
  nth_error sources i = Some src -> nth_error (s_parts s) i = Some p -> p_taken p = true -> p_gone p = false ->
  (forall m, m < n -> src m <> End) -> src n = End -> wf_source n_cols src ->
  exists s' p', steps step s s' /\ nth_error (s_parts s') i = Some p' /\ p_ended p' = true.
Proof.
  intros s i src p n Hl R Hs Hp Tk G Hn He Hwf. pose proof (reachable_inv _ _ _ _ sources s Hl R) as I.
  assert (E : map p_src (s_parts s) = sources).
  { destruct I as (L & H). apply nth_ext_error. intros j. rewrite nth_error_map. destruct (nth_error (s_parts s) j) as [q|] eqn:Eq; cbn.
    - destruct (nth_error sources j) as [x|] eqn:Ej; [f_equal; now destruct (H j x q Ej Eq)|]. apply nth_error_None in Ej. assert (j < List.length (s_parts s)) by (apply nth_error_Some; congruence). lia.
    - symmetry. apply nth_error_None. apply nth_error_None in Eq. lia. }
  eapply (drains val_dec limit max_sample n_cols src n s i p); auto; [split; assumption|now rewrite E|].
  now destruct (proj2 I i src p Hs Hp).
Qed.

(** A partition can be executed exactly once: the first time it works, later it is an error. *)
Theorem C37_executed_once : forall s i p, 0 < limit -> reachable s -> nth_error (s_parts s) i = Some p ->
  (p_taken p = false -> snd (execute s i) = Ok tt) /\
  forall s', steps step (fst (execute s i)) s' -> exists e, snd (execute s' i) = Err e.
Proof.
  intros s i p Hl R Hp. pose proof (reachable_inv _ _ _ _ sources s Hl R) as I.
  assert (Hs : exists src, nth_error sources i = Some src).
  { destruct (nth_error sources i) eqn:E; [eauto|]. apply nth_error_None in E. rewrite <- (proj1 I) in E. assert (i < List.length (s_parts s)) by (apply nth_error_Some; congruence). lia. }
  destruct Hs as (src & Hs). destruct (proj2 I i src p Hs Hp) as (_ & Sl & _). split.
  - intros T. unfold execute. rewrite Hp, Sl, T. reflexivity.
  - intros s' St.
    assert (G : forall a b : sampler val err, (exists q, nth_error (s_parts a) i = Some q /\ p_slot q = false) -> step a b -> exists q, nth_error (s_parts b) i = Some q /\ p_slot q = false).
    { clear. intros a b (q & Hq & Sq) Hab.
      assert (U : forall l j (q' : part val err) st, (j = i -> p_slot q' = false) -> l = s_parts a -> exists q0, nth_error (s_parts (mkSampler (upd l j q') st)) i = Some q0 /\ p_slot q0 = false).
      { intros l j q' st Hj ->. cbn. rewrite upd_nth. destruct (j =? i) eqn:E; [|eauto]. apply Nat.eqb_eq in E. subst j. rewrite Hq. eauto. }
      destruct Hab as [s j x Hx _|s j x r pos eos ix pulled li Hx _ T _ _|s j x r pos eos Hx _ T _|s j|s j x Hx _ _|s j x Hx _ _].
      - apply U; [|reflexivity]. intros ->. assert (x = q) by congruence. subst. unfold poll_task. destruct (p_task q); try assumption. destruct (ready_chunk _ _ _) as [[l0 p0] e0]. destruct l0; [destruct e0|]; assumption.
      - apply U; [|reflexivity]. intros ->. assert (x = q) by congruence. subst. unfold finish. destruct (p_task q); assumption.
      - apply U; [|reflexivity]. intros ->. assert (x = q) by congruence. subst. unfold finish. destruct (p_task q); assumption.
      - unfold execute. destruct (nth_error (s_parts s) j) as [x|] eqn:Hx; [|cbn; eauto]. destruct (p_slot x) eqn:Sx; [|cbn; eauto]. apply U; [|reflexivity]. intros ->. reflexivity.
      - apply U; [|reflexivity]. intros ->. assert (x = q) by congruence. subst. unfold poll_stream. destruct (p_ended q); [assumption|]. destruct (p_task q) as [| |[[|]|] ? []]; try assumption. destruct (p_src q pos); assumption.
      - apply U; [|reflexivity]. intros ->. assert (x = q) by congruence. subst. assumption. }
    assert (F : exists q, nth_error (s_parts s') i = Some q /\ p_slot q = false).
    { revert St. apply (steps_invariant step (fun x : sampler val err => exists q, nth_error (s_parts x) i = Some q /\ p_slot q = false)); [|exact G]. unfold execute. rewrite Hp. destruct (p_slot p) eqn:E; cbn; [|eauto].
      rewrite upd_nth, Nat.eqb_refl, Hp. eauto. }
    destruct F as (q & Hq & Sq). unfold execute. rewrite Hq, Sq. eexists. reflexivity.
Qed.

(** ** C58: load reports are true and complete *)

(** What a partition reports describes exactly the first messages of its input, its number, and whether these
    were all its messages; or, if one of them was an error, nothing. *)
Theorem C58_reports_are_true : forall s i src p li, 0 < limit -> reachable s ->
  nth_error sources i = Some src -> nth_error (s_parts s) i = Some p -> wf_source n_cols src -> p_report p = Some li ->
  li_partition li = i /\
  ((exists n bs, messages src n = map inl bs /\ describes val_dec max_sample n_cols bs li /\ (li_eos li = true -> ends_with src (map inl bs))) \/
   (exists e pulled, first_error src e /\ li = zero_load_info i n_cols pulled)).
Proof.
  intros s i src p li Hl R Hs Hp Hwf E. destruct (proj2 (reachable_inv _ _ _ _ sources s Hl R) i src p Hs Hp) as (_ & _ & _ & H & _).
  destruct (H li E) as (l & pos & eos & ix & pulled & (M & S) & X). destruct (push_all l) as [peek|e] eqn:Ep.
  - destruct X as (Hix & X). apply push_all_ok in Ep. subst l.
    destruct (filled_spec val_dec max_sample n_cols i peek ix pulled eos) as (li0 & E0 & P1 & P2 & _ & D); [|assumption|].
    { apply Forall_forall. intros b Hb. apply (messages_wf n_cols src pos Hwf). rewrite Ep. now apply in_map. }
    assert (li0 = li) by congruence. subst li0. split; [assumption|]. left. exists pos, peek. split; [assumption|]. split; [assumption|].
    intros Ee. assert (eos = true) by congruence. subst eos. rewrite Ee in S. rewrite <- Ep. exact (seen_messages_end src pos S).
  - subst li. split; [reflexivity|]. right. destruct (push_all_err _ _ Ep) as (bs & rest & ->). exists e, pulled. split; [|reflexivity]. now exists pos, bs, rest.
Qed.

(** While no partition was executed, every partition that is done sampling has reported. *)
Theorem C58_everyone_reports : forall s i src p r pos eos, 0 < limit -> reachable s ->
  nth_error sources i = Some src -> nth_error (s_parts s) i = Some p -> s_started s = false -> p_task p = Finished r pos eos ->
  exists li, p_report p = Some li.
Proof.
  intros s i src p r pos eos Hl R Hs Hp St T. destruct (proj2 (reachable_inv _ _ _ _ sources s Hl R) i src p Hs Hp) as (_ & _ & _ & _ & H & _).
  rewrite T in H. destruct H as (H & _). destruct (p_report p); [eauto|]. specialize (H eq_refl). congruence.
Qed.

(** ** C59: memory held by sampling *)

(** The memory accounted for a partition is the size of the batches that were read from its input and not handed
    out yet (none once the chunk held an error); nothing once its consumer is done with it. *)
Theorem C59_memory_is_what_is_held : forall s i src p, 0 < limit -> reachable s ->
  nth_error sources i = Some src -> nth_error (s_parts s) i = Some p ->
  (p_gone p = true -> p_reserved p = 0) /\ (p_ended p = true -> p_reserved p = 0) /\
  (p_gone p = false ->
     (exists bs, messages src (polled p) = p_out p ++ map inl bs /\ p_reserved p = list_sum (map record_batch_size bs)) \/
     (exists e, first_error src e /\ (p_out p = [] \/ p_out p = [inr e]) /\ p_reserved p = 0)).
Proof.
  intros s i src p Hl R Hs Hp. destruct (proj2 (reachable_inv _ _ _ _ sources s Hl R) i src p Hs Hp) as (_ & _ & _ & _ & H & G).
  split; [intros X; now destruct (G X)|]. destruct (p_gone p) eqn:Eg.
  { destruct (G eq_refl) as (_ & ->). split; [reflexivity|]. discriminate. }
  unfold polled. destruct (p_task p) as [pos|r pos eos|r pos eos].
  - destruct H as (O & En & Re & _ & Pe). rewrite Re. split; [auto|]. intros _. left. exists []. destruct (messages_pending src pos Pe) as (-> & _). rewrite O. split; reflexivity.
  - destruct H as (O & En & _ & Re & l & (M & _) & ->). split; [congruence|]. intros _. rewrite (Re eq_refl). destruct (push_all l) as [peek|e] eqn:Ep.
    + left. exists peek. rewrite O, M. split; [now apply push_all_ok|reflexivity].
    + right. exists e. destruct (push_all_err _ _ Ep) as (bs & rest & ->). split; [now exists pos, bs, rest|auto].
  - destruct H as (_ & _ & _ & [(bs & -> & M & S & En & Re)|(l & pos0 & eos0 & e & (M & _) & Ep & Re & X)]).
    + rewrite (Re eq_refl). split; [intros E; destruct (En E) as (-> & _); reflexivity|]. intros _. left. exists bs. auto.
    + rewrite (Re eq_refl). split; [auto|]. intros _. right. exists e. destruct (push_all_err _ _ Ep) as (bs & rest & ->). split; [now exists pos0, bs, rest|]. split; [|reflexivity].
      destruct X as [(_ & -> & _)|(_ & _ & ->)]; auto.
Qed.
End Props.

(** ** Concrete cases *)
Module SamplerEx.

(** A batch with one column of naturals, sizes in bytes. *)
Definition b (vs : list (option nat)) : batch nat := mkBatch (List.length vs) [mkColumn vs (8 * List.length vs)].
Definition script (l : list (@poll nat string)) : source nat string := fun n => nth n l End.
Notation step1 := (step Nat.eq_dec 1000 1000 1).

(** Two batches at once, a pause, one more. *)
Definition src0 := script [Pending; Ready (inl (b [Some 1; Some 1])); Ready (inl (b [None; Some 2])); Pending; Ready (inl (b [Some 3]))].
Definition peeked : list (batch nat) := [b [Some 1; Some 1]; b [None; Some 2]].
Definition li0 : load_info := mkLoadInfo 0 4 [32] [f32_div (f32_of_nat 2) (f32_of_nat 4)] [f32_div (f32_of_nat 1) (f32_of_nat 4)] 7 false.

Ltac task i := eapply steps_trans; [apply steps_one; eapply (step_task _ _ _ _ _ i); vm_compute; reflexivity|].
Ltac rep i r ix pulled li := eapply steps_trans;
  [apply steps_one; eapply (step_report _ _ _ _ _ i _ r _ _ ix pulled li);
    [vm_compute; reflexivity|vm_compute; reflexivity|vm_compute; reflexivity|intros peek E; try discriminate E; injection E as <-; vm_compute; reflexivity|vm_compute; reflexivity]|].
Ltac exe i := eapply steps_trans; [apply steps_one; apply (step_execute _ _ _ _ _ i)|].
Ltac pol i := eapply steps_trans; [apply steps_one; eapply (step_poll _ _ _ _ _ i); vm_compute; reflexivity|].

(** The partition pauses, reads two batches, reports them, is executed and read to the end. *)
Example C37_case : exists s p, steps step1 (kicked_off [src0]) s /\ nth_error (s_parts s) 0 = Some p /\
  p_report p = Some li0 /\ p_ended p = true /\ p_out p = map inl (peeked ++ [b [Some 3]]) /\ p_reserved p = 0.
Proof.
  eexists _, _. split.
  - do 2 task 0. rep 0 (@inl (list (batch nat)) string peeked) (seq 0 4) 7 li0. exe 0. do 6 pol 0. apply steps_refl.
  - split; [reflexivity|]. repeat split.
Qed.
Example C37_case_error_free : error_free src0 /\ wf_source 1 src0.
Proof.
  split; intros n e H; destruct n as [|[|[|[|[|n]]]]]; cbn in H; try discriminate H; try (destruct n; discriminate H);
    injection H as <-; (split; [reflexivity|repeat constructor]).
Qed.

(** A batch and then an error, both at once: the consumer sees only the error. *)
Definition src1 := script [Ready (inl (b [Some 1])); Ready (inr "broken"%string)].
Theorem C37_error_hides_rows_refuted : exists (src : source nat string) s p n, steps step1 (kicked_off [src]) s /\ nth_error (s_parts s) 0 = Some p /\
  p_ended p = true /\ messages src n = [inl (b [Some 1]); inr "broken"%string] /\ p_out p = [inr "broken"%string].
Proof.
  exists src1. eexists _, _, 2. split.
  - task 0. rep 0 (@inr (list (batch nat)) string "broken"%string) (@nil nat) 0 (zero_load_info 0 1 0). exe 0. do 2 pol 0. apply steps_refl.
  - split; [reflexivity|]. repeat split.
Qed.

(** Executing partition 1 of two before partition 0 is done keeps partition 0 from reporting. *)
Example C58_started_case : exists s p, steps step1 (kicked_off [src0; src0]) s /\ nth_error (s_parts s) 0 = Some p /\
  s_started s = true /\ p_report p = None /\ exists r pos eos, p_task p = Finished r pos eos.
Proof.
  eexists _, _. split.
  - exe 1. do 2 task 0. eapply steps_trans; [apply steps_one; eapply (step_omit _ _ _ _ _ 0); vm_compute; reflexivity|]. apply steps_refl.
  - do 3 (split; [reflexivity|]). do 3 eexists. reflexivity.
Qed.

(** Between sampling and execution the memory of the two batches is accounted for. *)
Example C59_case : exists s p, steps step1 (kicked_off [src0]) s /\ nth_error (s_parts s) 0 = Some p /\ p_reserved p = 32.
Proof.
  eexists _, _. split.
  - do 2 task 0. apply steps_refl.
  - split; reflexivity.
Qed.
End SamplerEx.

Print Assumptions C37_stream_unchanged.
Print Assumptions C37_stream_or_first_error_partial.
Print Assumptions C37_can_be_read_to_the_end.
Print Assumptions C37_executed_once.
Print Assumptions SamplerEx.C37_error_hides_rows_refuted.
Print Assumptions C58_reports_are_true.
Print Assumptions C58_everyone_reports.
Print Assumptions C59_memory_is_what_is_held.
