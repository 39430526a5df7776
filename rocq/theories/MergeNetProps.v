(** C92: a merge of sorted streams that are read over the network. *)
From Verif Require Import Base CiuModel CiuProofs DemuxModel DemuxSpec DemuxProofs SampleNetModel SampleNetProofs
  MergeNetModel MergeNetSpec MergeNetProofs.

Section Props.
Context {data err : Type}.
Notation source_item := (@item data + err)%type.
Variables (start budget capacity prefetch : nat) (bad : nat -> err).
Notation step := (merge_step start budget capacity prefetch bad).
Notation reachable := (merge_reachable start budget capacity prefetch bad).

(** Merging has no infinite runs. *)
Theorem C92_no_infinite_run : forall (tasks : list (list (list source_item))) ls, reachable tasks ls -> Acc (fun ls' ls => step ls ls') ls.
Proof. intros tasks ls H. eapply merge_acc, linked_reachable; eauto. Qed.

(** If a connection stops reading (its demultiplexer is at the gate) because streams of which the merge needs no more
    hold its budget, while another of its streams has nothing for the merge, then whatever happens later the merge never
    uses up another batch. *)
Theorem C92_stall : forall (tasks : list (list (list source_item))) ls c l is j, reachable tasks ls ->
  nth_error ls c = Some l -> k_phase (ln_conn l) = Gate \/ k_phase (ln_conn l) = Blocked ->
  NoDup is -> (forall i, In i is -> full prefetch l i) -> budget <= list_sum (map (queued l) is) -> starved l j ->
  forall ls', steps step ls ls' -> used ls' = used ls /\ ~ merged_all tasks ls'.
Proof.
  intros tasks ls c l is j R Hc Hph Hn Hfull Hbud Hst ls' H.
  pose proof (linked_reachable _ _ _ _ _ _ _ R) as F.
  assert (Hs : exists sources, nth_error tasks c = Some sources /\ linked start budget capacity bad sources l).
  { clear -F Hc. revert c Hc. induction F as [|t x ts xs Hx F IH]; intros [|c] Hc; try discriminate; [injection Hc as <-; exists t; split; [reflexivity|exact Hx]|exact (IH c Hc)]. }
  destruct Hs as (sources & Hs & Hl).
  assert (G : blocked start budget capacity prefetch bad c j is sources ls' /\ used ls' = used ls).
  { refine (steps_invariant _ (fun x => blocked start budget capacity prefetch bad c j is sources x /\ used x = used ls) _ _ _ _ H).
    - split; [|reflexivity]. constructor. exists l. auto 10.
    - intros a b [B E] Hab. destruct (blocked_step _ _ _ _ _ _ _ _ _ _ _ Hn B Hab) as [B' E']. split; [exact B'|congruence]. }
  destruct G as [[(l' & Hc' & Hl' & _ & _ & _ & (p & u & Hp & Hu & He & Hg & Hq))] E]. split; [exact E|].
  intros [_ M]. destruct (calm_facts _ _ _ _ _ _ (lk_conn _ _ _ _ _ _ Hl')) as (J & _).
  assert (HS : exists S, nth_error sources j = Some S).
  { destruct (nth_error sources j) eqn:E2; [eauto|]. apply nth_error_None in E2. rewrite <- (inv_len _ _ _ J) in E2.
    assert (j < List.length (k_parts (ln_conn l'))) by (apply nth_error_Some; congruence). lia. }
  destruct HS as [S HS]. destruct (M _ _ _ _ _ Hc' Hs HS) as (p' & Hp' & He' & _). congruence.
Qed.

(** When all is merged: if nothing fails and, whichever stream the merge waits for, the data of all its siblings (the
    other streams of its connection) is less than the budget. Then a run can only stop when everything is merged, and
    from everywhere there is a run that does so. In particular if each connection has a single stream.
    Missing: siblings with more data than that, see [C92_refuted]. *)
Theorem C92_small_siblings_partial : forall (tasks : list (list (list source_item))) ls, 0 < capacity -> 0 < prefetch ->
  Forall (Forall error_free) tasks ->
  (forall sources i S, In sources tasks -> nth_error sources i = Some S -> list_sum (map bytes sources) < budget + bytes S) ->
  reachable tasks ls ->
  ((forall ls', ~ step ls ls') -> merged_all tasks ls) /\ exists ls', steps step ls ls' /\ merged_all tasks ls'.
Proof.
  intros tasks ls Hcap Hpre Hef Hfit R. pose proof (linked_reachable _ _ _ _ _ _ _ R) as F.
  assert (Hf : Forall (fits budget) tasks) by (apply Forall_forall; intros sources Hin i S HS; eapply Hfit; eauto).
  split.
  - intros Hno. destruct (merge_progress start budget capacity prefetch bad _ _ Hcap Hpre Hef Hf F) as [M|(ls' & Hs)]; [exact M|]. now apply Hno in Hs.
  - pose proof (merge_acc start budget capacity prefetch bad _ _ F) as A. clear R. revert F. induction A as [ls _ IH]. intros F.
    destruct (merge_progress start budget capacity prefetch bad _ _ Hcap Hpre Hef Hf F) as [M|(ls' & Hs)].
    + exists ls. split; [apply steps_refl|exact M].
    + destruct (IH ls' Hs (linked_step _ _ _ _ _ _ _ _ F Hs)) as (ls2 & H2 & M). exists ls2. split; [|exact M].
      eapply steps_trans; [apply steps_one; exact Hs|exact H2].
Qed.
End Props.

(** ** It may not end *)

(** Whatever the budget and the prefetch: one producer task with two partitions, a small one and one with more than the
    budget. *)
Definition lopsided (budget prefetch : nat) : list (list (@item unit + unit)) :=
  [ [inl (mkItem tt 1)]; repeat (inl (mkItem tt 1)) prefetch ++ [inl (mkItem tt budget)] ].

(** The second partition has been read up to some point, the first has sent nothing yet. *)
Definition half_read (src got : list (@item unit + unit)) (permit : bool) (sizes : list nat) : list (@link unit unit) :=
  [mkLink (mkConn [mkPart [inl (mkItem tt 1)] [] [] [] true true [] false; mkPart src [] [] [] true true got false]
     Gate 0 permit true false 0 None false sizes) [0; 0]].

Ltac room := intros [|[|[|?]]] ? ? ? Hx Hy Hz; cbn in Hx, Hy, Hz; try discriminate; injection Hx as <-; injection Hy as <-; injection Hz as <-; cbn; auto.
Ltac by_conn tac := eapply steps_trans; [apply steps_one; eapply (merging_conn _ _ _ _ _ _ 0); [reflexivity|split; [tac|]; (do 4 (split; [reflexivity|])); left; reflexivity|room]|cbn].
Ltac by_recv := eapply steps_trans; [apply steps_one; eapply (merging_conn _ _ _ _ _ _ 0); [reflexivity|
  split; [eapply (demux_recv _ _ _ _ _ 1); reflexivity|]; cbv zeta; rewrite sender_of_tag by (cbn; lia); (do 4 (split; [reflexivity|])); left; reflexivity
  |cbv zeta; rewrite sender_of_tag by (cbn; lia); room]|cbv zeta; rewrite sender_of_tag by (cbn; lia); cbn].

Lemma read_one start budget capacity prefetch (bad : nat -> unit) src got permit sizes : 0 < budget -> 0 < capacity ->
  List.length got < prefetch ->
  steps (merge_step start budget capacity prefetch bad) (half_read (inl (mkItem tt 1) :: src) got permit sizes)
    (half_read src (got ++ [inl (mkItem tt 1)]) true (sizes ++ [1])).
Proof.
  intros Hb Hc Hg. unfold half_read.
  by_conn ltac:(apply demux_gate_open; [reflexivity|exact Hb]).
  by_conn ltac:(eapply (worker_pull _ _ _ _ _ 1); [reflexivity|reflexivity|exact Hc]).
  by_recv.
  by_conn ltac:(eapply (demux_send _ _ _ _ _ 1); reflexivity).
  by_conn ltac:(eapply (poll_item _ _ _ _ _ 1); reflexivity).
  apply steps_refl.
Qed.

Lemma read_some start budget capacity prefetch (bad : nat -> unit) n : forall src got permit sizes, 0 < budget -> 0 < capacity ->
  List.length got + n <= prefetch -> exists permit' sizes',
  steps (merge_step start budget capacity prefetch bad) (half_read (repeat (inl (mkItem tt 1)) n ++ src) got permit sizes)
    (half_read src (got ++ repeat (inl (mkItem tt 1)) n) permit' sizes').
Proof.
  induction n as [|n IH]; intros src got permit sizes Hb Hc Hg.
  - exists permit, sizes. cbn. rewrite app_nil_r. apply steps_refl.
  - destruct (IH src (got ++ [inl (mkItem tt 1)]) true (sizes ++ [1]) Hb Hc) as (permit' & sizes' & H).
    { rewrite app_length. cbn [List.length]. lia. }
    exists permit', sizes'. cbn [repeat]. replace (got ++ inl (mkItem tt 1) :: repeat (inl (mkItem tt 1)) n) with ((got ++ [inl (mkItem tt 1)]) ++ repeat (inl (mkItem tt 1)) n) by now rewrite <- app_assoc.
    eapply steps_trans; [|exact H]. cbn [app]. apply read_one; auto. lia.
Qed.

Theorem C92_refuted : forall start budget capacity prefetch (bad : nat -> unit), 0 < budget -> 0 < capacity ->
  exists ls, merge_reachable start budget capacity prefetch bad [lopsided budget prefetch] ls /\ Forall error_free (lopsided budget prefetch) /\
    forall ls', steps (merge_step start budget capacity prefetch bad) ls ls' ->
      used ls' = [[0; 0]] /\ ~ merged_all [lopsided budget prefetch] ls'.
Proof.
  intros start budget capacity prefetch bad Hb Hc.
  assert (G : exists l, merge_reachable start budget capacity prefetch bad [lopsided budget prefetch] [l] /\
    k_phase (ln_conn l) = Gate /\ full prefetch l 1 /\ queued l 1 = budget /\ starved l 0 /\ ln_used l = [0; 0]).
  { destruct (read_some start budget capacity prefetch bad prefetch [inl (mkItem tt budget)] [] false [] Hb Hc) as (permit & sizes & H); [cbn; lia|].
    eexists. split; [unfold merge_reachable|].
    - eapply steps_trans; [|eapply steps_trans; [exact H|]].
      + unfold merge_init, lopsided, half_read, conn_init. cbn.
        by_conn ltac:(eapply (first_poll _ _ _ _ _ 0); reflexivity).
        by_conn ltac:(eapply (first_poll _ _ _ _ _ 1); reflexivity).
        by_conn ltac:(apply demux_connect; reflexivity).
        apply steps_refl.
      + cbn [app]. unfold half_read.
        by_conn ltac:(apply demux_gate_open; [reflexivity|exact Hb]).
        by_conn ltac:(eapply (worker_pull _ _ _ _ _ 1); [reflexivity|reflexivity|exact Hc]).
        by_recv.
        by_conn ltac:(eapply (demux_send _ _ _ _ _ 1); reflexivity).
        apply steps_refl.
    - cbn. split; [reflexivity|]. split; [|split; [|split; [|reflexivity]]].
      + eexists _, 0. split; [reflexivity|]. split; [reflexivity|]. cbn. rewrite repeat_length. lia.
      + unfold queued. cbn. lia.
      + eexists _, 0. split; [reflexivity|]. cbn. auto. }
  destruct G as (l & R & Hph & Hf & Hq & Hs & Hu). exists [l]. split; [exact R|]. split.
  { apply Forall_forall. intros S [<-|[<-|[]]] e He.
    - destruct He as [He|[]]. discriminate.
    - apply in_app_iff in He as [He|[He|[]]]; [apply repeat_spec in He|]; discriminate. }
  intros ls' H. replace [[0; 0]] with (used [l]) by (cbn; now rewrite Hu).
  eapply (C92_stall start budget capacity prefetch bad _ [l] 0 l [1] 0); eauto.
  - repeat constructor. intros [].
  - intros i [<-|[]]. exact Hf.
  - cbn. lia.
Qed.

(** Two producer tasks, whose partitions differ in size, and a budget that suffices although all the data of the first
    connection is more than it; and one stream per connection, however large. *)
Example C92_case : let big := [inl (mkItem tt 9); inl (mkItem tt 8)] in let small := [inl (mkItem tt 5) : @item unit + unit] in
  Forall (Forall error_free) [[big; small]; [big]] /\
  forall sources i S, In sources [[big; small]; [big]] -> nth_error sources i = Some S -> list_sum (map bytes sources) < 18 + bytes S.
Proof.
  cbn zeta. split.
  - repeat constructor; intros e He; cbn in He; intuition discriminate.
  - intros sources i S [<-|[<-|[]]] HS; destruct i as [|[|i]]; cbn in HS; try discriminate; try (injection HS as <-; cbn; lia).
    all: destruct i; discriminate.
Qed.

Print Assumptions C92_no_infinite_run.
Print Assumptions C92_stall.
Print Assumptions C92_small_siblings_partial.
Print Assumptions C92_refuted.
