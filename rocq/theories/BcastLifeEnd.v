(** From the invariant of BcastLifeProofs to C101. *)
From Coq Require Import ZArith.
From Verif Require Import Base CiuModel CiuProofs BcastModel BcastSpec BcastProofs BcastLifeModel BcastLifeSpec BcastLifeProofs BcastProps.

Section End_.
Context {batch err : Type}.
Variable size : batch -> N.
Notation node := (@node batch err).
Notation life := (@life batch err).
Notation life_step := (@life_step batch err size).

Lemma being_read_slot (l : life) real k : being_read l (real, k) ->
  exists r c, slot_at (l_base l) real = Live r /\ nth_error (r_consumers r) k = Some c /\ k < r_popped r /\ ~ In (real, k) (l_gone l).
Proof.
  intros (r & c & Hs & Hk & Hg). unfold stream_at in Hs. cbn [fst snd] in *.
  destruct (nth_error (st_slots (l_base l)) real) as [[|e|r']|] eqn:Es; try discriminate.
  destruct (nth_error (r_consumers r') k) as [c'|] eqn:Ec; [|discriminate]. cbn in Hs. injection Hs as -> ->.
  exists r, c. repeat split; try assumption. now apply slot_at_some.
Qed.

Lemma living_reader (nd : node) (l : life) real r : life_ok size nd l -> slot_at (l_base l) real = Live r ->
  0 < living (l_gone l) real (r_popped r) <-> exists k, being_read l (real, k).
Proof.
  intros Hok Hr. pose proof (ok_slots _ _ _ Hok real) as Hs. rewrite Hr in Hs. destruct Hs as (H1 & H2 & _). split.
  - intros Hl. assert (Hx : exists k, k < r_popped r /\ ~ In (real, k) (l_gone l)).
    { clear -Hl. induction (r_popped r) as [|n IH]; [cbn in Hl; lia|].
      destruct (in_dec (fun a b : nat * nat => ltac:(decide equality; apply Nat.eq_dec)) (real, n) (l_gone l)) as [Hin|Hin].
      - rewrite living_S_gone in Hl by assumption. destruct (IH Hl) as (k & Hk & Hg). exists k. split; [lia|assumption].
      - exists n. split; [lia|assumption]. }
    destruct Hx as (k & Hk & Hg). exists k.
    destruct (nth_error (r_consumers r) k) as [c|] eqn:Ec; [|apply nth_error_None in Ec; lia].
    exists r, c. unfold stream_at. cbn [fst snd]. rewrite (slot_at_live _ _ _ Hr), Ec. cbn. auto.
  - intros (k & Hk). destruct (being_read_slot _ _ _ Hk) as (r' & c & Hr' & _ & Hlt & Hg). rewrite Hr in Hr'. injection Hr' as <-.
    destruct (living (l_gone l) real (r_popped r)) eqn:E; [|lia]. exfalso.
    apply Hg. now apply (proj1 (living_zero (l_gone l) real (r_popped r)) E).
Qed.

Lemma refs_of_use (nd : node) (l : life) real r : life_ok size nd l -> slot_at (l_base l) real = Live r ->
  l_refs l real <> 0 <-> of_use nd l real r.
Proof.
  intros Hok Hr. pose proof (ok_slots _ _ _ Hok real) as Hs. rewrite Hr in Hs. destruct Hs as (H1 & H2 & H3 & H4).
  pose proof (living_reader nd l real r Hok Hr) as Hl. unfold of_use. rewrite <- Hl, H3. clear -H2.
  split.
  - intros H. destruct (r_producer r); cbn in H; try (left; discriminate).
    destruct (living _ _ _) eqn:E; [|right; left; lia]. right. right. destruct (l_node l); [split; [reflexivity|lia]|lia].
  - intros [H|[H|[H H']]]; [destruct (r_producer r); cbn; try lia; congruence|lia|rewrite H; lia].
Qed.

Lemma bytes_same (q : list (@msg batch err)) : entries_bytes size q = bytes_of size (flat_map (fun m => match m with inl b => [b] | inr _ => [] end) q).
Proof.
  induction q as [|[b|e] q IH]; [reflexivity| |]; unfold entries_bytes, bytes_of in *; cbn [fold_right flat_map app entry_bytes]; now rewrite IH.
Qed.

Lemma sum_over_fold (each : nat -> @slot_state batch err -> Z -> Prop) (g : nat -> Z) : forall slots i,
  (forall j s, nth_error slots j = Some s -> each (i + j) s (g (i + j))) ->
  sum_over each i slots (fold_right (fun k a => (g k + a)%Z) 0%Z (seq i (List.length slots))).
Proof.
  induction slots as [|s slots IH]; intros i H; cbn; constructor.
  - specialize (H 0 s eq_refl). now rewrite Nat.add_0_r in H.
  - apply IH. intros j s' Hj. specialize (H (S j) s' Hj). now rewrite <- plus_n_Sm in H.
Qed.

Lemma accounted (nd : node) (l : life) : life_ok size nd l ->
  sum_over (should_reserve size nd l) 0 (st_slots (l_base l)) (l_pool l).
Proof.
  intros Hok. rewrite (ok_pool _ _ _ Hok). apply sum_over_fold. cbn [Nat.add]. intros j s Hj.
  pose proof (slot_at_some _ _ _ Hj) as Hs. unfold contribution. rewrite Hs. destruct s as [|e|r]; cbn [should_reserve slot_entries].
  - pose proof (ok_slots _ _ _ Hok j) as H. rewrite Hs in H. destruct H as [-> _]. reflexivity.
  - pose proof (ok_slots _ _ _ Hok j) as H. rewrite Hs in H. destruct H as [-> _]. reflexivity.
  - pose proof (refs_of_use nd l j r Hok Hs) as Hu. destruct (Nat.eqb_spec (l_refs l j) 0) as [E|E].
    + right. split; [|reflexivity]. intros H. apply Hu in H. contradiction.
    + left. split; [now apply Hu|]. rewrite bytes_same. reflexivity.
Qed.

Lemma bytes_nonneg (q : list (@msg batch err)) : (0 <= entries_bytes size q)%Z.
Proof. induction q as [|[b|e] q IH]; unfold entries_bytes in *; cbn [fold_right entry_bytes]; lia. Qed.

Lemma zsum_le g g' n : (forall i, i < n -> (g i <= g' i)%Z) -> (zsum g n <= zsum g' n)%Z.
Proof. intros H. induction n as [|n IH]; [reflexivity|]. rewrite !zsum_S. specialize (H n ltac:(lia)) as Hn. specialize (IH ltac:(intros; apply H; lia)). lia. Qed.

Lemma fold_nth {A} (f : A -> Z) (d : A) (l : list A) :
  fold_right (fun x n => (f x + n)%Z) 0%Z l = zsum (fun i => f (nth i l d)) (List.length l).
Proof.
  induction l as [|x l IH]; [reflexivity|]. cbn [fold_right List.length]. rewrite IH. unfold zsum. cbn [seq fold_right nth].
  f_equal. rewrite <- seq_shift. rewrite <- (map_map S (fun i => i)) at 1 || idtac.
  generalize (seq 0 (List.length l)). induction l0 as [|y l0 IH0]; [reflexivity|]. cbn. now rewrite IH0.
Qed.

Lemma at_most_all (nd : node) (l : life) : life_ok size nd l -> (l_pool l <= all_bytes size nd)%Z.
Proof.
  intros Hok. rewrite (ok_pool _ _ _ Hok). pose proof (node_ok_reachable _ _ (ok_base _ _ _ Hok)) as (L1 & L2 & Hn).
  unfold all_bytes. rewrite (fold_nth (input_bytes size) (inl [])). rewrite L1. apply zsum_le. intros i Hi.
  unfold contribution.
  destruct (nth_error (n_input nd) i) as [inp|] eqn:Ei; [|apply nth_error_None in Ei; lia].
  rewrite (nth_error_nth _ _ (inl []) Ei).
  assert (Hpos : (0 <= input_bytes size inp)%Z) by (destruct inp; cbn [input_bytes]; [rewrite <- bytes_same; apply bytes_nonneg|lia]).
  destruct (l_refs l i =? 0); [assumption|].
  destruct (slot_at (l_base l) i) as [|e|r] eqn:Es; try exact Hpos. cbn [slot_entries].
  destruct (Hn _ _ _ (slot_at_live _ _ _ Es) Ei) as ((todo & -> & _ & _ & _ & Hp & _) & _).
  destruct (producer_ok_prefix _ _ _ _ Hp) as [rest E]. cbn [input_bytes]. rewrite <- bytes_same, E, bytes_app.
  pose proof (bytes_nonneg rest). lia.
Qed.

Lemma reader_complete (nd : node) (l : life) h r c input : life_ok size nd l ->
  stream_at (l_base l) h = Some (r, c) -> being_read l h -> nth_error (n_input nd) (fst h) = Some (inl input) ->
  prefix (c_got c) (until_error input) /\
  (~ In (fst h) (l_panicked l) -> r_crashed r = false /\ ~ In (fst h) (l_aborted l)).
Proof.
  intros Hok Hs Hb Hi. split; [exact (proj1 (C27_every_consumer_sees_everything _ _ _ _ _ _ _ _ (ok_base _ _ _ Hok) Hs Hi))|].
  intros Hnp. destruct h as [real k]. cbn [fst] in *.
  assert (Hr : slot_at (l_base l) real = Live r).
  { unfold stream_at in Hs. cbn [fst snd] in Hs. destruct (nth_error (st_slots (l_base l)) real) as [[|e|r']|] eqn:Es; try discriminate.
    destruct (nth_error (r_consumers r') k); [|discriminate]. cbn in Hs. injection Hs as -> ->. now apply slot_at_some. }
  assert (Hna : ~ In real (l_aborted l)).
  { intros Ha. destruct (ok_aborted _ _ _ Hok _ Ha) as [Ht _]. pose proof (ok_slots _ _ _ Hok real) as Hsl. rewrite Hr in Hsl.
    destruct Hsl as (_ & _ & _ & H4). assert (Hl : 0 < living (l_gone l) real (r_popped r)) by (apply (living_reader nd l real r Hok Hr); eauto). lia. }
  split; [|assumption]. destruct (r_crashed r) eqn:E; [|reflexivity].
  destruct (ok_crashed _ _ _ Hok _ _ Hr E); contradiction.
Qed.

(** ** Readers can go on *)
Lemma crash_stays (a b : queue * producer * bool) : steps (@producer_step batch err) a b -> snd a = true -> snd b = true.
Proof. intros H. induction H as [x|x y z H IH Hs]; [auto|]. intros Ha. specialize (IH Ha). inversion Hs; subst; cbn in *; auto. Qed.

Lemma crash_back (y z : queue * producer * bool) : @producer_step batch err y z -> snd z = false -> snd y = false.
Proof. intros H Hz. inversion H; subst; cbn in *; auto; discriminate. Qed.

Lemma producer_life (nd : node) real : forall a b, steps (@producer_step batch err) a b -> snd b = false ->
  forall l r, nth_error (st_slots (l_base l)) real = Some (Live r) -> a = (r_queue r, r_producer r, r_crashed r) ->
  exists l', steps (life_step nd) l l' /\ l_base l' = (let '(q, p, c) := b in set_producer (l_base l) real r q p c) /\
    l_gone l' = l_gone l /\ l_panicked l' = l_panicked l.
Proof.
  intros a b H. induction H as [x|x y z H1 IH Hs]; intros Hb l r Hr E.
  - subst x. exists l. split; [constructor|]. split; [|auto].
    unfold set_producer. rewrite upd_same; [now destruct (l_base l)|]. rewrite Hr. now destruct r.
  - pose proof (crash_back _ _ Hs Hb) as Hy. destruct (IH Hy l r Hr E) as (l1 & S1 & E1 & G1 & P1).
    destruct y as [[q p] c], z as [[q' p'] c']. cbn in Hb, Hy. subst c c'.
    pose (r1 := mkRunning q p (r_consumers r) (r_popped r) false).
    assert (Hsl : nth_error (st_slots (l_base l1)) real = Some (Live r1)).
    { rewrite E1. unfold set_producer. cbn. rewrite upd_nth, Nat.eqb_refl, Hr. reflexivity. }
    eexists. split; [eapply steps_next; [exact S1|]|].
    + apply (life_produce size nd l1 real r1 q' p' Hsl). exact Hs.
    + cbn [l_base l_gone l_panicked]. split; [|auto]. rewrite E1. unfold set_producer. cbn. now rewrite upd_upd.
Qed.

Lemma polls_life (nd : node) h : forall st st', steps (polls_of nd h) st st' -> forall l, l_base l = st -> being_read l h ->
  exists l', steps (life_step nd) l l' /\ l_base l' = st' /\ l_gone l' = l_gone l /\ l_panicked l' = l_panicked l /\ being_read l' h.
Proof.
  intros st st' H. induction H as [x|x y z H1 IH Hs]; intros l E Hb.
  - exists l. repeat split; try assumption. constructor.
  - destruct (IH l E Hb) as (l1 & S1 & E1 & G1 & P1 & Hb1). destruct Hs as (r & c & Hst & ->).
    destruct Hb1 as (r1 & c1 & Hst1 & Hk & Hg). rewrite E1, Hst in Hst1. injection Hst1 as <- <-.
    destruct h as [real k]. cbn [fst snd] in *. pose proof Hst as Hst0. unfold stream_at in Hst. cbn [fst snd] in Hst.
    destruct (nth_error (st_slots y) real) as [[|e|r']|] eqn:Es; try discriminate.
    destruct (nth_error (r_consumers r') k) as [c'|] eqn:Ec; [|discriminate]. cbn in Hst. injection Hst as -> ->.
    eexists. split; [eapply steps_next; [exact S1|]|].
    + eapply (life_poll size nd l1 real r k c); try eassumption. now rewrite E1.
    + cbn [l_base l_gone l_panicked]. rewrite E1. repeat split; try assumption.
      do 2 eexists. cbn [l_base l_gone snd]. split; [apply (stream_set _ _ _ _ _ Hst0)|]. cbn. auto.
Qed.

Lemma reader_goes_on (nd : node) (l : life) h input : steps (life_step nd) (life_init nd) l -> being_read l h ->
  nth_error (n_input nd) (fst h) = Some (inl input) -> ~ In (fst h) (l_panicked l) ->
  exists l' r c, steps (life_step nd) l l' /\ stream_at (l_base l') h = Some (r, c) /\ c_ended c = true /\ c_got c = until_error input.
Proof.
  intros Hst Hb Hi Hnp. pose proof (life_ok_reachable size nd l Hst) as Hok. pose proof Hb as (r & c & Hs & Hk & Hg).
  destruct (reader_complete nd l h r c input Hok Hs Hb Hi) as [_ Hc]. destruct (Hc Hnp) as [Hcr _].
  destruct (producer_finishes (r_queue r) (r_producer r)) as (q' & _ & _ & Hf).
  assert (Hsl : nth_error (st_slots (l_base l)) (fst h) = Some (Live r) /\ nth_error (r_consumers r) (snd h) = Some c).
  { unfold stream_at in Hs. destruct (nth_error (st_slots (l_base l)) (fst h)) as [[|e|r']|] eqn:Es; try discriminate.
    destruct (nth_error (r_consumers r') (snd h)) as [x|] eqn:Ec; [|discriminate]. cbn in Hs. injection Hs as -> ->. auto. }
  destruct Hsl as [Hsl Hcn].
  destruct (producer_life nd (fst h) _ _ (Hf false) eq_refl l r Hsl ltac:(now rewrite Hcr)) as (l1 & S1 & E1 & G1 & P1).
  set (r1 := mkRunning q' Finished (r_consumers r) (r_popped r) false).
  assert (Hs1 : stream_at (l_base l1) h = Some (r1, c)).
  { rewrite E1. unfold stream_at, set_producer. cbn. rewrite upd_nth, Nat.eqb_refl, Hsl. cbn. now rewrite Hcn. }
  pose proof (life_ok_reachable size nd l1 (steps_trans _ _ _ _ Hst S1)) as Hok1.
  destruct (C27_polling_ends _ _ nd (l_base l1) h r1 c (ok_base _ _ _ Hok1) Hs1 eq_refl) as (st2 & r2 & c2 & H2 & Hs2 & He).
  assert (Hb1 : being_read l1 h) by (exists r1, c; rewrite G1; auto).
  destruct (polls_life nd h _ _ H2 l1 eq_refl Hb1) as (l2 & S2 & E2 & G2 & P2 & Hb2). subst st2.
  exists l2, r2, c2. split; [eapply steps_trans; eassumption|]. split; [assumption|]. split; [assumption|].
  assert (Hst2 : steps (life_step nd) (life_init nd) l2) by (eapply steps_trans; [|exact S2]; eapply steps_trans; eassumption).
  pose proof (life_ok_reachable size nd l2 Hst2) as Hok2.
  destruct (reader_complete nd l2 h r2 c2 input Hok2 Hs2 Hb2 Hi) as [_ Hx].
  destruct (Hx ltac:(rewrite P2, P1; assumption)) as [Hcr2 _].
  destruct (C27_every_consumer_sees_everything _ _ _ _ _ _ _ _ (ok_base _ _ _ Hok2) Hs2 Hi) as [_ Hy]. auto.
Qed.

(** ** Release *)
Lemma can_produce (q : @queue batch err) p (c : bool) : p <> Finished -> exists q' p', producer_step (q, p, c) (q', p', c).
Proof.
  intros H. destruct p as [[|[b|e] todo]|n todo| | |]; [do 2 eexists; apply input_end|do 2 eexists; apply push_batch|do 2 eexists; apply push_error
    |do 2 eexists; apply publish|do 2 eexists; apply close|do 2 eexists; apply drop_sender|congruence].
Qed.

Lemma released (nd : node) (l : life) : life_ok size nd l -> abandoned l -> (forall l', ~ life_step nd l l') -> l_pool l = 0%Z.
Proof.
  intros Hok [Hn Hb] Hstuck. rewrite (ok_pool _ _ _ Hok). rewrite (zsum_ext _ (fun _ => 0%Z)); [apply zsum_zero|].
  intros i Hi. unfold contribution. destruct (Nat.eqb_spec (l_refs l i) 0) as [E|E]; [reflexivity|exfalso].
  destruct (slot_at (l_base l) i) as [|e|r] eqn:Es.
  - pose proof (ok_slots _ _ _ Hok i) as H. rewrite Es in H. cbn in H. lia.
  - pose proof (ok_slots _ _ _ Hok i) as H. rewrite Es in H. cbn in H. lia.
  - apply (refs_of_use nd l i r Hok Es) in E. destruct E as [E|[(k & E)|[E _]]]; [|now apply Hb in E|congruence].
    destruct (can_produce (r_queue r) (r_producer r) (r_crashed r) E) as (q' & p' & Hp).
    eapply Hstuck. eapply life_produce; [apply slot_at_live, Es|exact Hp].
Qed.

Definition left_to_do (p : @producer batch err) : nat :=
  match p with Running todo => 2 * List.length todo + 3 | Pushed _ todo => 2 * List.length todo + 4 | Closing => 2 | SenderDrop => 1 | Finished => 0 end.
Definition slot_left (s : @slot_state batch err) : nat := match s with Live r => left_to_do (r_producer r) | _ => 0 end.
Definition left_over (l : life) : nat := list_sum (map slot_left (st_slots (l_base l))).

Lemma producer_less q p q' p' (c c' : bool) : @producer_step batch err (q, p, c) (q', p', c') -> left_to_do p' < left_to_do p.
Proof. intros H. inversion H; subst; cbn [left_to_do List.length]; lia. Qed.

Lemma list_sum_upd {A} (f : A -> nat) (l : list A) i x y : nth_error l i = Some x ->
  list_sum (map f (upd l i y)) + f x = list_sum (map f l) + f y.
Proof.
  revert i. induction l as [|z l IH]; intros [|i] H; cbn in *; try discriminate.
  - injection H as ->. lia.
  - specialize (IH i H). unfold list_sum in *. lia.
Qed.

Lemma abandoned_step (nd : node) (l l' : life) : abandoned l -> life_step nd l l' -> abandoned l' /\ left_over l' < left_over l.
Proof.
  intros [Hn Hb] Hs.
  assert (Hread : forall real r q' p' cr, nth_error (st_slots (l_base l)) real = Some (Live r) ->
     forall gone pan ab refs tasks pool, gone = l_gone l ->
     abandoned (mkLife (mkState (upd (st_slots (l_base l)) real (Live (mkRunning q' p' (r_consumers r) (r_popped r) cr)))
                (st_executed (l_base l)) (st_answers (l_base l))) false gone pan ab refs tasks pool)).
  { intros real r q' p' cr Hsl gone pan ab refs tasks pool ->. split; [reflexivity|]. intros [j k] (r0 & c0 & Hst & Hk & Hg).
    cbn [l_base l_gone] in *. unfold stream_at in Hst. cbn [fst snd st_slots] in *. rewrite upd_nth in Hst.
    destruct (Nat.eqb_spec real j) as [->|Hj].
    - rewrite Hsl in Hst. cbn [r_consumers] in Hst. destruct (nth_error (r_consumers r) k) as [c1|] eqn:Ec; [|discriminate].
      cbn in Hst. injection Hst as <- <-. cbn in Hk. apply (Hb (j, k)). exists r, c1. unfold stream_at. cbn [fst snd]. rewrite Hsl, Ec. auto.
    - apply (Hb (j, k)). exists r0, c0. unfold stream_at. cbn [fst snd]. auto. }
  destruct Hs as [l partition real s inp s' ans Hn' | l real r q' p' Hsl Hps |l real r todo Hsl Hpr |l real r todo Hsl Hpr Ht
                 |l real r k c Hsl Hk Hcn Hng |l real r k c Hsl Hk Hcn Hpc Hng |l Hn'].
  - congruence.
  - split; [cbn zeta; rewrite Hn; now apply (Hread real r)|].
    unfold left_over. cbn [l_base st_slots].
    pose proof (list_sum_upd slot_left _ _ _ (Live (mkRunning q' p' (r_consumers r) (r_popped r) (r_crashed r))) Hsl) as E.
    cbn [slot_left r_producer] in E. pose proof (producer_less _ _ _ _ _ _ Hps). lia.
  - split; [rewrite Hn; now apply (Hread real r)|].
    unfold left_over. cbn [l_base st_slots].
    pose proof (list_sum_upd slot_left _ _ _ (Live (mkRunning (r_queue r) Closing (r_consumers r) (r_popped r) true)) Hsl) as E.
    cbn [slot_left r_producer] in E. rewrite Hpr in E. cbn [left_to_do] in E. lia.
  - split; [rewrite Hn; now apply (Hread real r)|].
    unfold left_over. cbn [l_base st_slots].
    pose proof (list_sum_upd slot_left _ _ _ (Live (mkRunning (r_queue r) Closing (r_consumers r) (r_popped r) true)) Hsl) as E.
    cbn [slot_left r_producer] in E. rewrite Hpr in E. cbn [left_to_do] in E. lia.
  - exfalso. apply (Hb (real, k)). exists r, c. unfold stream_at. cbn [fst snd]. rewrite Hsl, Hcn. auto.
  - exfalso. apply (Hb (real, k)). exists r, c. unfold stream_at. cbn [fst snd]. rewrite Hsl, Hcn. auto.
  - congruence.
Qed.

Lemma release_finite (nd : node) (l : life) (f : nat -> life) : abandoned l -> f 0 = l -> ~ forall i, life_step nd (f i) (f (S i)).
Proof.
  intros Ha E H. assert (G : forall i, abandoned (f i) /\ left_over (f i) + i <= left_over l).
  { induction i as [|i [IH1 IH2]]; [rewrite E; split; [assumption|lia]|].
    destruct (abandoned_step nd _ _ IH1 (H i)) as [A B]. split; [assumption|lia]. }
  destruct (G (S (left_over l))) as [_ B]. lia.
Qed.
End End_.
