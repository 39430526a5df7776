(** Proofs about what a worker answers when it is asked for its tasks. *)
From Verif Require Import Base CiuModel TaskModel TaskSpec TaskProofs ProgressModel ProgressSpec.

Section Worker.
Context {plan head err : Type}.
Variable insert : head -> plan -> plan + err.
Notation worker := (worker plan head err).
Implicit Types (w : worker).

Lemma in_progress w k p : In (k, p) (progress w) <->
  exists e f, In (k, e) (wk_cache w) /\ nth_error (wk_entries w) e = Some (mkEntry (Some (inl p)) f).
Proof.
  unfold progress. rewrite in_flat_map. split.
  - intros [[k' e] [Hin H]]. cbn in H. destruct (nth_error (wk_entries w) e) as [[[[q|x]|] f]|] eqn:E; cbn in H; try contradiction.
    destruct H as [H|[]]. injection H as -> ->. eauto.
  - intros (e & f & Hin & E). exists (k, e). split; [exact Hin|]. cbn. rewrite E. now left.
Qed.

Lemma progress_keys (c : list (nat * nat)) (f : nat * nat -> list (nat * plan)) :
  (forall x, f x = [] \/ exists p, f x = [(fst x, p)]) -> NoDup (map fst c) -> NoDup (map fst (flat_map f c)).
Proof.
  intros Hf. induction c as [|x c IH]; cbn; [constructor|]. intros N. inversion N as [|? ? Hn N']; subst.
  destruct (Hf x) as [->|[p ->]]; cbn; [auto|]. constructor; [|auto].
  intro H. apply Hn. apply in_map_iff in H as ([k q] & E & H). cbn in E. subst k. apply in_flat_map in H as (y & Hy & H).
  destruct (Hf y) as [E|[q' E]]; rewrite E in H; [destruct H|]. destruct H as [H|[]]. injection H as H _. rewrite <- H.
  now apply in_map.
Qed.

Lemma find_none_key (c : list (nat * nat)) k : find (fun x => fst x =? k) c = None -> ~ In k (map fst c).
Proof.
  intros H Hin. apply in_map_iff in Hin as (x & E & Hx). apply (find_none _ _ H) in Hx. apply Nat.eqb_neq in Hx. auto.
Qed.

Lemma uncache_map c k : NoDup (map fst c) -> NoDup (map fst (uncache c k)).
Proof.
  unfold uncache. induction c as [|x c IH]; cbn; [auto|]. intros N. inversion N as [|? ? Hn N']; subst.
  destruct (negb _); cbn; [|auto]. constructor; [|auto]. intro H. apply Hn. apply in_map_iff in H as (y & E & H).
  apply filter_In in H as [H _]. rewrite <- E. now apply in_map.
Qed.

(** The entries in the cache exist, a closed channel's entry is not among them, and keys occur once. *)
Record tidy w : Prop := {
  td_keys : NoDup (map fst (wk_cache w));
  td_entry : forall k e, In (k, e) (wk_cache w) -> e < List.length (wk_entries w);
  td_ch : forall ch, In ch (wk_channels w) -> ch_entry ch < List.length (wk_entries w);
  td_closed : forall ch s k, In ch (wk_channels w) -> ch_phase ch = Closed s -> ~ In (k, ch_entry ch) (wk_cache w)
}.

Lemma tidy_get w k es c e : tidy w -> get_with w k = (es, c, e) ->
  tidy (mkWorker es c (wk_channels w) (wk_requests w)) /\ e < List.length es.
Proof.
  intros T. unfold get_with, cached. destruct (find _ (wk_cache w)) as [[k' e']|] eqn:E; intros H; injection H as <- <- <-.
  - apply find_some_key in E as [E1 E2]. split; [destruct w; exact T|]. exact (td_entry _ T _ _ E1).
  - split; [|rewrite app_length; cbn; lia]. constructor; cbn.
    + constructor; [now apply find_none_key|apply T].
    + rewrite app_length. cbn. intros k0 e0 [H|H]; [injection H as <- <-; lia|]. pose proof (td_entry _ T _ _ H). lia.
    + rewrite app_length. cbn. intros ch H. pose proof (td_ch _ T _ H). lia.
    + intros ch s k0 H P [Hin|Hin]; [|exact (td_closed _ T _ _ _ H P Hin)]. injection Hin as _ Hin.
      pose proof (td_ch _ T _ H). lia.
Qed.

Lemma upd_len {A} (l : list A) i x : List.length (upd l i x) = List.length l.
Proof. revert i. induction l as [|a l IH]; intros [|i]; cbn; auto. Qed.

Lemma in_upd {A} (l : list A) i x y : In y (upd l i x) -> In y l \/ y = x.
Proof. revert i. induction l as [|a l IH]; intros [|i]; cbn; intuition. destruct (IH _ H0); auto. Qed.

Lemma tidy_step keys w w' : wk_ok insert keys w -> tidy w -> worker_step insert w w' -> tidy w'.
Proof.
  intros I T Hst.
  assert (B : forall k e ch, In (k, e) (wk_cache w) -> In ch (wk_channels w) -> ch_entry ch = e -> ch_key ch = k).
  { intros k e ch H1 H2 <-. apply (wo_cache _ _ _ I) in H1. apply In_nth_error in H2 as [j H2].
    destruct (wo_ch _ _ _ I _ _ H2) as [H3 _]. congruence. }
  destruct Hst as [w k0 build collect|w i ch en Hi Hph Hen|w i ch en Hi Hph Hen|w i ch sent Hi Hph|w k0 h
    |w i r en base Hi Ha Hen Hv|w i r en e Hi Ha Hen Hv|w i r en Hi Ha Hen Hv|w k0].
  - destruct (get_with w k0) as [[es c] e] eqn:E. destruct (tidy_get _ _ _ _ _ T E) as [[T1 T2 T3 T4] L]. constructor; cbn in *; auto.
    + intros ch H. apply in_app_or in H as [H|[<-|[]]]; auto.
    + intros ch s k H P. apply in_app_or in H as [H|[<-|[]]]; [eauto|discriminate].
  - pose proof (nth_error_In _ _ Hi) as Hin. destruct T as [T1 T2 T3 T4]. destruct (en_value en) as [v0|]; constructor; cbn; rewrite ?upd_len; auto.
    + intros x H. apply in_upd in H as [H| ->]; [auto|cbn; auto].
    + intros x s k H P. apply in_upd in H as [H| ->]; [eauto|discriminate].
    + intros x H. apply in_upd in H as [H| ->]; [auto|cbn; auto].
    + intros x s k H P. apply in_upd in H as [H| ->]; [eauto|]. cbn in P. destruct (ch_build ch); discriminate.
  - pose proof (nth_error_In _ _ Hi) as Hin. destruct T as [T1 T2 T3 T4]. constructor; cbn; auto.
    + intros x H. apply in_upd in H as [H| ->]; [auto|cbn; auto].
    + intros x s k H P. apply in_upd in H as [H| ->]; [eauto|discriminate].
  - pose proof (nth_error_In _ _ Hi) as Hin. destruct T as [T1 T2 T3 T4]. constructor; cbn.
    + now apply uncache_map.
    + intros k e H. apply uncache_in in H. eauto.
    + intros x H. apply in_upd in H as [H| ->]; [auto|cbn; auto].
    + intros x s k H P Hc. apply in_upd in H as [H| ->]; [apply uncache_in in Hc; eapply T4; eauto|]. cbn in Hc.
      pose proof (B _ _ _ (uncache_in _ _ _ Hc) Hin eq_refl) as E. apply filter_In in Hc as [_ Hc]. cbn in Hc.
      rewrite E, Nat.eqb_refl in Hc. discriminate.
  - destruct (get_with w k0) as [[es c] e] eqn:E. destruct (tidy_get _ _ _ _ _ T E) as [[T1 T2 T3 T4] L]. constructor; cbn in *; auto.
  - destruct T as [T1 T2 T3 T4]. constructor; cbn; rewrite ?upd_len; auto.
  - destruct T as [T1 T2 T3 T4]. constructor; cbn; auto.
  - destruct T as [T1 T2 T3 T4]. constructor; cbn; auto.
  - destruct T as [T1 T2 T3 T4]. constructor; cbn; auto.
    + now apply uncache_map.
    + intros k e H. apply uncache_in in H. eauto.
    + intros x s k H P Hc. apply uncache_in in Hc. eapply T4; eauto.
Qed.

Lemma tidy_reachable w : worker_reachable insert w -> (exists keys, wk_ok insert keys w) /\ tidy w.
Proof.
  intros H. refine (steps_invariant (worker_step insert) (fun w => (exists keys, wk_ok insert keys w) /\ tidy w) worker_new w _ _ H).
  - split; [exists []; apply wk_ok_new|]. constructor; cbn; try constructor; intros; contradiction.
  - intros a b [[keys I] T] S. split; [exact (wk_ok_step _ _ _ _ I S)|exact (tidy_step _ _ _ I T S)].
Qed.

Lemma cached_in w k e : cached w k = Some e -> In (k, e) (wk_cache w).
Proof.
  unfold cached. destruct (find _ _) as [[k' e']|] eqn:E; [|discriminate]. intros H. injection H as <-.
  apply find_some_key in E as [E1 E2]. cbn in E2. now subst.
Qed.

(** While the only channel of a task is not closed and nothing is evicted, its entry is cached. *)
Definition held (k : nat) w : Prop :=
  plans_set w k <= 1 -> forall ch, In ch (wk_channels w) -> ch_key ch = k ->
    (forall s, ch_phase ch <> Closed s) -> cached w k = Some (ch_entry ch).

Lemma filter_one {A} (f : A -> bool) l x y : List.length (filter f l) <= 1 -> In x l -> In y l -> f x = true -> f y = true -> x = y.
Proof.
  intros L Hx Hy Fx Fy. assert (X : In x (filter f l)) by (apply filter_In; auto). assert (Y : In y (filter f l)) by (apply filter_In; auto).
  destruct (filter f l) as [|a [|b r]]; cbn in *; [contradiction| |lia]. destruct X as [<-|[]], Y as [<-|[]]. reflexivity.
Qed.

Lemma in_upd_new {A} (l : list A) i x y : nth_error l i = Some x -> In y (upd l i y).
Proof. revert i. induction l as [|a l IH]; intros [|i] H; cbn in *; try discriminate; eauto. Qed.

Lemma held_step k w w' : held k w -> worker_step insert w w' -> ~ evicts k w w' -> held k w'.
Proof.
  intros Hd Hst Hev Hp x Hx Hk Hc.
  assert (Hp0 : plans_set w k <= 1) by (pose proof (step_cache insert _ _ k Hst) as (? & _); lia).
  specialize (Hd Hp0). unfold plans_set in *.
  destruct Hst as [w k0 build collect|w i ch en Hi Hph Hen|w i ch en Hi Hph Hen|w i ch sent Hi Hph|w k0 h
    |w i r en base Hi Ha Hen Hv|w i r en e Hi Ha Hen Hv|w i r en Hi Ha Hen Hv|w k0].
  - destruct (get_with w k0) as [[es c] e] eqn:E. destruct (get_with_cached _ _ _ _ _ E) as [C1 C2]. cbn [wk_channels] in *.
    rewrite length_filter_snoc in Hp. cbn [ch_key] in Hp. apply in_app_or in Hx as [Hx|[<-|[]]].
    + destruct (Nat.eqb_spec k0 k) as [->|Hn].
      * exfalso. assert (X : In x (filter (fun ch => ch_key ch =? k) (wk_channels w))) by (apply filter_In; rewrite Hk, Nat.eqb_refl; auto).
        destruct (filter _ (wk_channels w)); [destruct X|cbn in Hp; lia].
      * rewrite C2 by auto. auto.
    + cbn in Hk. subst k0. cbn [ch_entry]. apply C1.
  - pose proof (nth_error_In _ _ Hi) as Hin.
    assert (G : forall ph, In x (upd (wk_channels w) i (mkChannel (ch_key ch) (ch_entry ch) (ch_build ch) (ch_collect ch) ph)) ->
      cached w k = Some (ch_entry x)).
    { intros ph H. apply in_upd in H as [H| ->]; [auto|]. cbn in Hk |- *. apply Hd; [exact Hin|exact Hk|rewrite Hph; discriminate]. }
    destruct (en_value en) as [v0|]; cbn [wk_channels] in Hx; apply G in Hx; exact Hx.
  - pose proof (nth_error_In _ _ Hi) as Hin. cbn [wk_channels] in *. change (cached w k = Some (ch_entry x)).
    apply in_upd in Hx as [Hx| ->]; [auto|]. cbn in Hk |- *. apply Hd; [exact Hin|exact Hk|rewrite Hph; discriminate].
  - cbn [wk_channels] in *. rewrite cached_uncache. destruct (Nat.eqb_spec k (ch_key ch)) as [E|Hn].
    + exfalso. set (new := mkChannel (ch_key ch) (ch_entry ch) (ch_build ch) (ch_collect ch) (Closed sent)) in *.
      assert (x = new) as ->; [|exact (Hc sent eq_refl)].
      refine (filter_one _ _ x new Hp Hx (in_upd_new _ _ _ _ Hi) _ _); apply Nat.eqb_eq; [exact Hk|cbn; auto].
    + apply in_upd in Hx as [Hx| ->]; [auto|]. cbn in Hk. congruence.
  - destruct (get_with w k0) as [[es c] e] eqn:E. destruct (get_with_cached _ _ _ _ _ E) as [C1 C2]. cbn [wk_channels] in *.
    destruct (Nat.eq_dec k0 k) as [->|Hn]; [|rewrite C2 by auto; auto].
    specialize (Hd _ Hx Hk Hc). unfold get_with in E. rewrite Hd in E. injection E as <- <- <-. exact Hd.
  - exact (Hd _ Hx Hk Hc).
  - exact (Hd _ Hx Hk Hc).
  - exact (Hd _ Hx Hk Hc).
  - specialize (Hd _ Hx Hk Hc). rewrite cached_uncache. destruct (Nat.eqb_spec k k0) as [->|Hn]; [|exact Hd].
    exfalso. apply Hev. repeat split; [congruence|]. rewrite cached_uncache, Nat.eqb_refl. reflexivity.
Qed.

Lemma held_reachable k w : reachable_without_evicting insert k w -> worker_reachable insert w /\ held k w.
Proof.
  intros H. refine (steps_invariant _ (fun w => worker_reachable insert w /\ held k w) worker_new w _ _ H).
  - split; [apply steps_refl|]. intros _ ch [].
  - intros a b [R I] [S N]. split; [exact (steps_next _ _ _ _ R S)|exact (held_step _ _ _ I S N)].
Qed.
End Worker.
