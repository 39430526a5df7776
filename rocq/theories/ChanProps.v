(** Connections to workers (C75). *)
From Verif Require Import Base CiuModel CiuProofs PoolProofs ChanModel ChanSpec ChanProofs.

Section Props.
Context {err : Type}.
Implicit Types r : resolver err.

(** What a call returns is the result of one attempt to connect to the worker it asked for. *)
Theorem C75_own_worker r c u a o : chan_reachable r -> call_is r c u a (Some o) -> attempt_is r a u (Some o).
Proof.
  intros Hr Hc. destruct (ok_calls _ (chan_ok_reachable _ Hr) _ _ _ _ Hc) as (res & Ha & [E|<-]); [discriminate|exact Ha].
Qed.

(** A failure is reported only to calls made before the first one that returned it: no call made after that one waits
    for the failed attempt. *)
Theorem C75_failures_not_remembered r r' c u a e c' u' a' o :
  chan_reachable r -> call_is r c u a (Some (inr e)) -> later r r' ->
  List.length (r_calls r) <= c' -> call_is r' c' u' a' o -> a' <> a.
Proof.
  intros Hr Hc Hl Hle Hc' ->. pose proof (chan_ok_reachable _ Hr) as I.
  assert (Hg : gone a (List.length (r_calls r)) r).
  { destruct (ok_calls _ I _ _ _ _ Hc) as (res & Ha & _). split; [apply nth_error_Some; unfold attempt_is in Ha; congruence|].
    split; [|split; [lia|]].
    - intros u0 Hu. destruct (ok_cache _ I _ _ Hu) as (res' & Ha'). unfold attempt_is in *. rewrite Ha in Ha'. injection Ha' as <- <-.
      exact (ok_fresh _ I _ _ _ _ Hu Hc).
    - intros c0 u0 o0 Hle0 H. assert (c0 < List.length (r_calls r)) by (apply nth_error_Some; unfold call_is in H; congruence). lia. }
  assert (Hg' : gone a (List.length (r_calls r)) r').
  { refine (steps_invariant chan_step (gone a (List.length (r_calls r))) r r' Hg _ Hl). intros x y. apply gone_step. }
  destruct Hg' as (_ & _ & _ & H). exact (H _ _ _ Hle Hc').
Qed.

(** As long as nothing removes it, every call for a worker gets the same connection. *)
Theorem C75_connection_shared r r' u a c' a' o :
  chan_reachable r -> r_cache r u = Some a -> later r r' -> removed r' u = removed r u ->
  List.length (r_calls r) <= c' -> call_is r' c' u a' o -> a' = a.
Proof.
  intros Hr Hc Hl Hrem Hle Hc'.
  assert (Hk : kept u a (List.length (r_calls r)) (removed r u) r).
  { split; [lia|]. split; [lia|]. intros _. split; [exact Hc|]. intros c0 a0 o0 Hle0 H.
    assert (c0 < List.length (r_calls r)) by (apply nth_error_Some; unfold call_is in H; congruence). lia. }
  assert (Hk' : kept u a (List.length (r_calls r)) (removed r u) r').
  { refine (steps_invariant chan_step (kept u a (List.length (r_calls r)) (removed r u)) r r' Hk _ Hl). intros x y. apply kept_step. }
  destruct Hk' as (_ & _ & H). destruct (H Hrem) as [_ Ho]. exact (Ho _ _ _ Hle Hc').
Qed.

(** The number of connections begun to a worker is at most one more than that of removals. *)
Theorem C75_connections_counted r u : chan_reachable r -> begun r u <= removed r u + 1.
Proof. intros Hr. pose proof (ok_count _ (chan_ok_reachable _ Hr) u). destruct (r_cache r u); lia. Qed.

(** A call can return as soon as connecting ended. *)
Theorem C75_calls_return r c u a : chan_reachable r -> call_is r c u a None ->
  exists res, attempt_is r a u res /\
    (res = None -> forall result, exists r', chan_step r r' /\ attempt_is r' a u (Some result)) /\
    (forall o, res = Some o -> exists r', chan_step r r' /\ call_is r' c u a (Some o)).
Proof.
  intros Hr Hc. destruct (ok_calls _ (chan_ok_reachable _ Hr) _ _ _ _ Hc) as (res & Ha & _). exists res. split; [exact Ha|]. split.
  - intros -> result. eexists. split; [exact (resolve_step _ _ _ result Ha)|]. unfold attempt_is. cbn. now apply upd_nth_same with (a := mkAttempt u None).
  - intros [[]|e] ->; eexists; (split; [first [exact (return_ok_step _ _ _ _ Hc Ha)|exact (return_err_step _ _ _ _ _ Hc Ha)]|]);
      unfold call_is; cbn; now apply upd_nth_same with (a := mkCall u a None).
Qed.
End Props.

(** The full claim, that a connection that works is used until it has been idle for long, is false: two calls wait for
    an attempt that fails; after the first of them returned, a third call begins a connection, which works; when the
    second one returns it removes the working connection, and the fourth call begins another one. *)
Theorem C75_working_connection_kept_refuted : exists r1 r2 : resolver string,
  chan_reachable r1 /\ later r1 r2 /\
  r_cache r1 7 = Some 1 /\ attempt_is r1 1 7 (Some (inl tt)) /\ call_is r1 2 7 1 (Some (inl tt)) /\
  ~ In (7, Idle) (r_removed r2) /\ call_is r2 3 7 2 None /\ begun r2 7 = 3.
Proof.
  do 2 eexists. split; [|split; [|split; [|split; [|split; [|split; [|split]]]]]].
  - unfold chan_reachable, resolver_new.
    eapply steps_trans; [apply steps_one; apply (miss_step _ 7); reflexivity|cbn].
    eapply steps_trans; [apply steps_one; apply (hit_step _ 7 0); reflexivity|cbn].
    eapply steps_trans; [apply steps_one; apply (resolve_step _ 0 7 (inr "refused"%string)); reflexivity|cbn].
    eapply steps_trans; [apply steps_one; eapply (return_err_step _ 0 7 0); reflexivity|cbn].
    eapply steps_trans; [apply steps_one; apply (miss_step _ 7); reflexivity|cbn].
    eapply steps_trans; [apply steps_one; apply (resolve_step _ 1 7 (inl tt)); reflexivity|cbn].
    eapply steps_trans; [apply steps_one; eapply (return_ok_step _ 2 7 1); reflexivity|cbn].
    apply steps_refl.
  - eapply steps_trans; [apply steps_one; eapply (return_err_step _ 1 7 0); reflexivity|cbn].
    eapply steps_trans; [apply steps_one; apply (miss_step _ 7); reflexivity|cbn].
    apply steps_refl.
  - reflexivity.
  - reflexivity.
  - reflexivity.
  - cbn. intuition discriminate.
  - reflexivity.
  - reflexivity.
Qed.

(** Two calls share a connection; the hypotheses of [C75_connection_shared] and [C75_failures_not_remembered] occur in
    the history above and in this one. *)
Example C75_shared_case : exists r r' : resolver string,
  chan_reachable r /\ r_cache r 3 = Some 0 /\ later r r' /\ removed r' 3 = removed r 3 /\
  call_is r' 1 3 0 (Some (inl tt)) /\ call_is r' 2 4 1 None.
Proof.
  do 2 eexists. split; [|split; [|split]].
  - unfold chan_reachable, resolver_new. eapply steps_trans; [apply steps_one; apply (miss_step _ 3); reflexivity|cbn]. apply steps_refl.
  - reflexivity.
  - eapply steps_trans; [apply steps_one; apply (hit_step _ 3 0); reflexivity|cbn].
    eapply steps_trans; [apply steps_one; apply (miss_step _ 4); reflexivity|cbn].
    eapply steps_trans; [apply steps_one; apply (resolve_step _ 0 3 (inl tt)); reflexivity|cbn].
    eapply steps_trans; [apply steps_one; eapply (return_ok_step _ 1 3 0); reflexivity|cbn].
    apply steps_refl.
  - repeat split.
Qed.

Print Assumptions C75_own_worker.
Print Assumptions C75_failures_not_remembered.
Print Assumptions C75_connection_shared.
Print Assumptions C75_connections_counted.
Print Assumptions C75_calls_return.
Print Assumptions C75_working_connection_kept_refuted.
