(** Invariants of the cache of connections. *)
From Verif Require Import Base CiuModel CiuProofs PoolProofs ChanModel ChanSpec.

Section Proofs.
Context {err : Type}.
Implicit Types r : resolver err.

Lemma snoc_cases {A} (l : list A) x j p : nth_error (l ++ [x]) j = Some p ->
  nth_error l j = Some p \/ (j = List.length l /\ p = x).
Proof.
  intros H. destruct (Nat.lt_trichotomy j (List.length l)) as [Hj|[->|Hj]].
  - left. now rewrite nth_error_app1 in H.
  - right. rewrite nth_error_app2, Nat.sub_diag in H by lia. cbn in H. split; congruence.
  - assert (nth_error (l ++ [x]) j <> None) by congruence. apply nth_error_Some in H0. rewrite app_length in H0. cbn in H0. lia.
Qed.

Record chan_ok r : Prop := {
  ok_calls : forall c u a o, call_is r c u a o -> exists res, attempt_is r a u res /\ (o = None \/ res = o);
  ok_cache : forall u a, r_cache r u = Some a -> exists res, attempt_is r a u res;
  ok_fresh : forall u a c e, r_cache r u = Some a -> ~ call_is r c u a (Some (inr e));
  ok_count : forall u, begun r u <= removed r u + (if r_cache r u then 1 else 0)
}.

Lemma attempts_grow r u a res x : attempt_is r a u res ->
  nth_error (r_attempts r ++ [x]) a = Some (mkAttempt u res).
Proof. intros H. rewrite nth_error_app1; [exact H|]. apply nth_error_Some. unfold attempt_is in H. congruence. Qed.

Lemma filter_count_upd {A} (f : A -> bool) l i v w : nth_error l i = Some w -> f w = f v ->
  List.length (filter f (upd l i v)) = List.length (filter f l).
Proof.
  revert i. induction l as [|x l IH]; intros [|i]; cbn; try discriminate.
  - intros E Hf. injection E as ->. rewrite Hf. now destruct (f v).
  - intros E Hf. specialize (IH _ E Hf). destruct (f x); cbn; [now rewrite IH|exact IH].
Qed.

Lemma chan_ok_step r r' : chan_ok r -> chan_step r r' -> chan_ok r'.
Proof.
  intros [H1 H2 H3 H4] Hs. destruct Hs as [r u a Hc|r u Hc|r a u result Ha|r c u a Hc Ha|r c u a e Hc Ha|r u a Hc].
  - (* a cached future *)
    constructor; unfold call_is, attempt_is, begun, removed in *; cbn.
    + intros c u' a' o H. apply snoc_cases in H. destruct H as [H|[_ E]]; [eauto|]. injection E as -> -> ->.
      destruct (H2 _ _ Hc) as (res & Hr). eauto.
    + exact H2.
    + intros u' a' c e Hu H. apply snoc_cases in H. destruct H as [H|[_ E]]; [exact (H3 _ _ _ _ Hu H)|discriminate].
    + exact H4.
  - (* a new one *)
    constructor; unfold call_is, attempt_is, begun, removed in *; cbn.
    + intros c u' a' o H. apply snoc_cases in H. destruct H as [H|[_ E]].
      * destruct (H1 _ _ _ _ H) as (res & Hr & Ho). exists res. split; [|exact Ho]. now apply attempts_grow.
      * injection E as -> -> ->. exists None. split; [|now left]. rewrite nth_error_app2, Nat.sub_diag by lia. reflexivity.
    + intros u' a'. unfold set. destruct (Nat.eqb_spec u' u) as [->|Hu].
      * intros E. injection E as <-. exists None. rewrite nth_error_app2, Nat.sub_diag by lia. reflexivity.
      * intros E. destruct (H2 _ _ E) as (res & Hr). exists res. now apply attempts_grow.
    + intros u' a' c e Hu H. apply snoc_cases in H. destruct H as [H|[_ E]]; [|discriminate]. revert Hu. unfold set.
      destruct (Nat.eqb_spec u' u) as [->|Hu]; [|intros Hu'; exact (H3 _ _ _ _ Hu' H)].
      intros E. injection E as <-. destruct (H1 _ _ _ _ H) as (res & Hr & _).
      assert (Hl : nth_error (r_attempts r) (List.length (r_attempts r)) = None) by (apply nth_error_None; lia). congruence.
    + intros u'. specialize (H4 u'). unfold set. rewrite filter_app, app_length. cbn. rewrite (Nat.eqb_sym u u').
      destruct (Nat.eqb_spec u' u) as [->|Hu]; cbn; [rewrite Hc in H4|]; lia.
  - (* the result of an attempt *)
    assert (Hup : forall a' u' res, nth_error (r_attempts r) a' = Some (mkAttempt u' res) ->
              exists res', nth_error (upd (r_attempts r) a (mkAttempt u (Some result))) a' = Some (mkAttempt u' res') /\ (res <> None -> res' = res)).
    { intros a' u' res H. rewrite upd_nth. destruct (Nat.eqb_spec a a') as [<-|Hn].
      - rewrite Ha in H. injection H as -> <-. rewrite Ha. eexists. split; [reflexivity|congruence].
      - eauto. }
    constructor; unfold call_is, attempt_is, begun, removed in *; cbn.
    + intros c u' a' o H. destruct (H1 _ _ _ _ H) as (res & Hr & Ho). destruct (Hup _ _ _ Hr) as (res' & Hr' & He).
      exists res'. split; [exact Hr'|]. destruct o as [o|]; [right|now left]. destruct Ho as [Ho|Ho]; [discriminate|]. rewrite He; congruence.
    + intros u' a' H. destruct (H2 _ _ H) as (res & Hr). destruct (Hup _ _ _ Hr) as (res' & Hr' & _). eauto.
    + exact H3.
    + intros u'. erewrite filter_count_upd; [apply H4|exact Ha|reflexivity].
  - (* a connection is returned *)
    constructor; unfold call_is, attempt_is, begun, removed in *; cbn.
    + intros c' u' a' o H. apply upd_nth_cases in H. destruct H as [[-> E]|[_ H]]; [injection E as -> -> ->; eauto|eauto].
    + exact H2.
    + intros u' a' c' e Hu H. apply upd_nth_cases in H. destruct H as [[-> E]|[_ H]]; [discriminate|exact (H3 _ _ _ _ Hu H)].
    + exact H4.
  - (* an error is returned *)
    constructor; unfold call_is, attempt_is, begun, removed in *; cbn.
    + intros c' u' a' o H. apply upd_nth_cases in H. destruct H as [[-> E]|[_ H]]; [injection E as -> -> ->; eauto|eauto].
    + intros u' a'. unfold set. destruct (u' =? u); [discriminate|apply H2].
    + intros u' a' c' e'. unfold set. destruct (Nat.eqb_spec u' u) as [->|Hu]; [discriminate|]. intros Hu' H. apply upd_nth_cases in H.
      destruct H as [[-> E]|[_ H]]; [congruence|exact (H3 _ _ _ _ Hu' H)].
    + intros u'. specialize (H4 u'). unfold set. rewrite filter_app, app_length. cbn. rewrite (Nat.eqb_sym u u').
      destruct (Nat.eqb_spec u' u) as [->|Hu]; cbn; [destruct (r_cache r u)|]; lia.
  - (* an idle entry is removed *)
    constructor; unfold call_is, attempt_is, begun, removed in *; cbn.
    + exact H1.
    + intros u' a'. unfold set. destruct (u' =? u); [discriminate|apply H2].
    + intros u' a' c' e'. unfold set. destruct (u' =? u); [discriminate|apply H3].
    + intros u'. specialize (H4 u'). unfold set. rewrite filter_app, app_length. cbn. rewrite (Nat.eqb_sym u u').
      destruct (Nat.eqb_spec u' u) as [->|Hu]; cbn; [rewrite Hc in H4|]; lia.
Qed.

Lemma chan_ok_reachable r : chan_reachable r -> chan_ok r.
Proof.
  apply steps_invariant; [|exact chan_ok_step].
  constructor; unfold call_is, attempt_is, begun, removed; cbn; try discriminate; auto; intros ? ? ? ?; destruct c; discriminate || (intros H; destruct c; discriminate).
Qed.

(** An attempt that left the cache never comes back. *)
Definition gone (a n : nat) r : Prop :=
  a < List.length (r_attempts r) /\ (forall u, r_cache r u <> Some a) /\
  n <= List.length (r_calls r) /\ (forall c u o, n <= c -> ~ call_is r c u a o).

Lemma gone_step a n r r' : gone a n r -> chan_step r r' -> gone a n r'.
Proof.
  intros (Ha & Hc & Hn & Hno) Hs. unfold gone, call_is in *.
  destruct Hs as [r u b Hb|r u Hb|r b u result Hb|r c u b Hb Hb'|r c u b e Hb Hb'|r u b Hb]; cbn.
  - split; [exact Ha|]. split; [exact Hc|]. split; [rewrite app_length; lia|]. intros c u' o Hle H. apply snoc_cases in H.
    destruct H as [H|[_ E]]; [exact (Hno _ _ _ Hle H)|]. injection E as -> -> ->. exact (Hc _ Hb).
  - rewrite !app_length. cbn. split; [lia|]. split; [|split; [lia|]].
    + intros u'. unfold set. destruct (u' =? u); [|apply Hc]. intros E. injection E as E. lia.
    + intros c u' o Hle H. apply snoc_cases in H. destruct H as [H|[_ E]]; [exact (Hno _ _ _ Hle H)|]. injection E as -> E ->. lia.
  - rewrite upd_length. auto.
  - rewrite upd_length. split; [exact Ha|]. split; [exact Hc|]. split; [exact Hn|]. intros c' u' o Hle H. apply upd_nth_cases in H.
    destruct H as [[<- E]|[_ H]]; [|exact (Hno _ _ _ Hle H)]. injection E as -> -> ->. exact (Hno _ _ _ Hle Hb).
  - rewrite upd_length. split; [exact Ha|]. split; [intros u'; unfold set; destruct (u' =? u); [discriminate|apply Hc]|]. split; [exact Hn|].
    intros c' u' o Hle H. apply upd_nth_cases in H.
    destruct H as [[<- E]|[_ H]]; [|exact (Hno _ _ _ Hle H)]. injection E as -> -> ->. exact (Hno _ _ _ Hle Hb).
  - split; [exact Ha|]. split; [intros u'; unfold set; destruct (u' =? u); [discriminate|apply Hc]|]. auto.
Qed.

(** An attempt that stays in the cache is what every call gets. *)
Definition kept (u a n k : nat) r : Prop :=
  k <= removed r u /\ n <= List.length (r_calls r) /\
  (removed r u = k -> r_cache r u = Some a /\ forall c a' o, n <= c -> call_is r c u a' o -> a' = a).

Lemma kept_step u a n k r r' : kept u a n k r -> chan_step r r' -> kept u a n k r'.
Proof.
  intros (Hk & Hn & H) Hs. unfold kept, call_is, removed in *.
  destruct Hs as [r u' b Hb|r u' Hb|r b u' result Hb|r c u' b Hb Hb'|r c u' b e Hb Hb'|r u' b Hb]; cbn.
  - split; [exact Hk|]. split; [rewrite app_length; lia|]. intros E. destruct (H E) as [Hc Ho]. split; [exact Hc|].
    intros c a' o Hle Hx. apply snoc_cases in Hx. destruct Hx as [Hx|[_ Ex]]; [eauto|]. injection Ex as -> -> ->. congruence.
  - split; [exact Hk|]. split; [rewrite app_length; lia|]. intros E. destruct (H E) as [Hc Ho].
    assert (Hu : u' <> u) by congruence. split; [unfold set; destruct (Nat.eqb_spec u u'); congruence|].
    intros c a' o Hle Hx. apply snoc_cases in Hx. destruct Hx as [Hx|[_ Ex]]; [eauto|]. congruence.
  - auto.
  - rewrite upd_length. split; [exact Hk|]. split; [exact Hn|]. intros E. destruct (H E) as [Hc Ho]. split; [exact Hc|].
    intros c' a' o Hle Hx. apply upd_nth_cases in Hx. destruct Hx as [[<- Ex]|[_ Hx]]; [|eauto]. injection Ex as -> -> ->. eauto.
  - rewrite upd_length, filter_app, app_length. cbn. split; [lia|]. split; [exact Hn|].
    destruct (Nat.eqb_spec u' u) as [->|Hu]; cbn; intros E; [lia|]. rewrite Nat.add_0_r in E. destruct (H E) as [Hc Ho].
    split; [unfold set; destruct (Nat.eqb_spec u u'); congruence|].
    intros c' a' o Hle Hx. apply upd_nth_cases in Hx. destruct Hx as [[<- Ex]|[_ Hx]]; [congruence|eauto].
  - rewrite filter_app, app_length. cbn. split; [lia|]. split; [exact Hn|].
    destruct (Nat.eqb_spec u' u) as [->|Hu]; cbn; intros E; [lia|]. rewrite Nat.add_0_r in E. destruct (H E) as [Hc Ho].
    split; [unfold set; destruct (Nat.eqb_spec u u'); congruence|]. exact Ho.
Qed.
End Proofs.
