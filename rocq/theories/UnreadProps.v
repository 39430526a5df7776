(** C50: a stream that nobody reads does not hold up its siblings as long as its data fits into the budget. *)
From Verif Require Import Base CiuModel DemuxModel DemuxSpec DemuxProofs DemuxProps UnreadSpec UnreadProofs.

Section Props.
Context {data err : Type}.
Variables (start budget capacity : nat) (bad : nat -> err) (sources : list (list (@item data + err))) (unread : nat -> bool).
Notation reachable := (conn_reachable start budget capacity bad sources).

(** Nobody polls the streams in [unread] any more, however long the others run. If the data of their partitions, together
    with what leaked from dropped streams, is less than the budget, then a run can stop only when every other existing stream
    has received all its data and ended; every run can be continued up to there, and no run is infinite
    ([C30_every_run_ends]). Missing from the claim: partitions with more data ([C50_refuted], [C50_unread_sibling_stall]). *)
Theorem C50_small_siblings_partial k :
  reachable k -> k_crashed k = false -> 0 < capacity -> k_leaked k + unread_bytes unread 0 sources < budget ->
  (forall q, In q (k_parts k) -> p_lost q = []) -> (forall j s, nth_error sources j = Some s -> error_free s) -> k_failed k = None ->
  (forall k', steps (quiet_step unread start budget capacity bad) k k' ->
     (forall k'', ~ quiet_step unread start budget capacity bad k' k'') ->
     forall i s p, unread i = false -> nth_error sources i = Some s -> nth_error (k_parts k') i = Some p -> p_live p = true ->
       p_ended p = true /\ p_got p = s) /\
  (forall k', steps (quiet_step unread start budget capacity bad) k k' ->
     exists k'', steps (quiet_step unread start budget capacity bad) k' k'' /\
       forall i s p, unread i = false -> nth_error sources i = Some s -> nth_error (k_parts k'') i = Some p -> p_live p = true ->
         p_ended p = true /\ p_got p = s).
Proof using.
  intros H C Hcap HL Hlost Hef F.
  assert (L : forall k', steps (quiet_step unread start budget capacity bad) k k' -> k_leaked k' = k_leaked k).
  { intros k' Hk. induction Hk as [|a b c Hk IH Hst]; [reflexivity|].
    rewrite (calm_leaked _ _ _ _ _ _ (proj1 Hst)). auto. }
  assert (G : forall k' i s p, steps (quiet_step unread start budget capacity bad) k k' ->
     nth_error sources i = Some s -> nth_error (k_parts k') i = Some p -> p_ended p = true -> p_got p = s).
  { intros k' i s p Hk HS Hp He. destruct (quiet_keeps _ _ _ _ _ _ _ _ H C Hlost Hef F Hk) as (R' & C' & L' & F').
    assert (Ef : error_free (p_got p)).
    { destruct (inv_part _ _ _ (inv_reachable _ _ _ _ _ _ R') _ _ _ HS Hp) as (P1 & _).
      destruct (P1 F') as (A & T & _ & EA & -> & _). now apply error_free_app in EA. }
    exact (proj1 (C30_normal_end_is_complete start budget capacity bad sources _ _ _ _ R' C' HS Hp He Ef L')). }
  split.
  - intros k' Hk Hstop i s p Hu HS Hp Hl.
    destruct (quiet_keeps _ _ _ _ _ _ _ _ H C Hlost Hef F Hk) as (R' & C' & _ & _).
    assert (He : p_ended p = true).
    { destruct (quiet_progress start budget capacity bad unread sources k' (inv_reachable _ _ _ _ _ _ R') C') as [He|[k'' Hk'']]; auto.
      - rewrite (L _ Hk). exact HL.
      - eauto.
      - destruct (Hstop _ Hk''). }
    eauto.
  - intros k' Hk. destruct (quiet_keeps _ _ _ _ _ _ _ _ H C Hlost Hef F Hk) as (R' & C' & _ & _).
    destruct (quiet_drains start budget capacity bad unread sources k' (inv_reachable _ _ _ _ _ _ R') C') as (k'' & Hk'' & He); auto.
    { rewrite (L _ Hk). exact HL. }
    exists k''. split; [exact Hk''|]. intros i s p Hu HS Hp Hl. pose proof (He _ _ Hp Hu Hl) as E. split; [exact E|].
    refine (G k'' i s p (steps_trans _ _ _ _ Hk Hk'') HS Hp E).
Qed.
End Props.
Print Assumptions C50_small_siblings_partial.

(** Two partitions; the first one is not read and has 4 bytes, the second one has 20; the budget is 5. *)
Example C50_hypotheses_met :
  let sources : list (list (@item nat + string)) := [[inl (mkItem 1 4)]; [inl (mkItem 7 10); inl (mkItem 8 10)]] in
  let unread i := i =? 0 in
  unread_bytes unread 0 sources < 5 /\ (forall j s, nth_error sources j = Some s -> error_free s) /\
  unread 1 = false /\ exists p, nth_error (k_parts (conn_init sources)) 1 = Some p /\ p_live p = true.
Proof.
  cbn zeta. split; [cbn; lia|]. split; [|split; [reflexivity|eexists; split; reflexivity]].
  intros [|[|[|j]]] s H; cbn in H; try discriminate; injection H as <-; intros e He; cbn in He; intuition discriminate.
Qed.
