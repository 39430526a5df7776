(** Proofs about the broadcast queue and node. *)
From Verif Require Import Base CiuModel CiuProofs BcastModel BcastSpec.

Section Proofs.
Context {batch err : Type}.
Notation msg := (@msg batch err).
Notation queue := (@queue batch err).
Notation consumer := (@consumer batch err).
Notation state := (@state batch err).
Notation node := (@node batch err).

(** ** Producer *)

Definition producer_ok (todo0 : list msg) (q : queue) (p : producer) (crashed : bool) : Prop :=
  match p with
  | Running todo =>
      q_entries q ++ until_error todo = until_error todo0 /\ q_len q = List.length (q_entries q) /\
      q_closed q = false /\ q_alive q = true /\ crashed = false
  | Pushed n todo =>
      q_entries q ++ until_error todo = until_error todo0 /\ n = List.length (q_entries q) /\
      q_len q <= n /\ q_closed q = false /\ q_alive q = true /\ crashed = false
  | Closing =>
      prefix (q_entries q) (until_error todo0) /\ (crashed = false -> q_entries q = until_error todo0) /\
      q_len q = List.length (q_entries q) /\ q_closed q = false /\ q_alive q = true
  | SenderDrop =>
      prefix (q_entries q) (until_error todo0) /\ (crashed = false -> q_entries q = until_error todo0) /\
      q_len q = List.length (q_entries q) /\ q_closed q = true /\ q_alive q = true
  | Finished =>
      prefix (q_entries q) (until_error todo0) /\ (crashed = false -> q_entries q = until_error todo0) /\
      q_len q = List.length (q_entries q) /\ q_closed q = true /\ q_alive q = false
  end.

Lemma producer_ok_step todo0 q p c q' p' c' :
  producer_ok todo0 q p c -> producer_step (q, p, c) (q', p', c') -> producer_ok todo0 q' p' c'.
Proof.
  intros H Hs. inversion Hs; subst; cbn in *.
  - destruct H as (H1 & H2 & H3 & H4 & H5). rewrite <- app_assoc. cbn. rewrite app_length. cbn.
    split; [assumption|]. split; [reflexivity|]. split; [lia|]. auto.
  - destruct H as (H1 & H2 & H3 & H4 & H5). rewrite app_nil_r, app_length. cbn.
    split; [assumption|]. split; [reflexivity|]. split; [lia|]. auto.
  - destruct H as (H1 & H2 & H3 & H4 & H5 & H6). auto.
  - destruct H as (H1 & H2 & H3 & H4 & H5). rewrite app_nil_r in H1. split; [exists []; now rewrite app_nil_r|]. auto.
  - destruct H as (H1 & H2 & H3 & H4 & H5). split; [eexists; now rewrite H1|]. split; [discriminate|]. auto.
  - tauto.
  - tauto.
Qed.

Lemma producer_ok_prefix todo0 q p c : producer_ok todo0 q p c -> prefix (q_entries q) (until_error todo0).
Proof.
  destruct p; cbn; intros H; try apply H; destruct H as (H & _); eexists; symmetry; exact H.
Qed.

Lemma producer_ok_len todo0 q p c : producer_ok todo0 q p c -> q_len q <= List.length (q_entries q).
Proof. destruct p; cbn; intros H; lia. Qed.

Lemma producer_ok_closed todo0 q p c : producer_ok todo0 q p c -> q_closed q = true ->
  q_len q = List.length (q_entries q) /\ (c = false -> q_entries q = until_error todo0) /\ (p = SenderDrop \/ p = Finished).
Proof. destruct p; cbn; intros H Hc; try (exfalso; destruct H as (_ & _ & H); now intuition congruence); tauto. Qed.

Lemma producer_ok_dead todo0 q p c : producer_ok todo0 q p c -> q_alive q = false -> p = Finished /\ q_closed q = true.
Proof. destruct p; cbn; intros H Hc; try (exfalso; intuition congruence). tauto. Qed.

(** ** Consumers *)

Definition consumer_ok (q : queue) (c : consumer) : Prop :=
  c_got c = firstn (c_index c) (q_entries q) /\
  c_index c <= c_len c /\ c_len c <= q_len q /\
  (c_closed c = true -> q_closed q = true /\ c_len c = q_len q) /\
  (forall v, c_seen c = Some v -> v <= q_version q /\
     (v = q_version q -> c_len c = q_len q /\ (q_closed q = true -> c_closed c = true))) /\
  (c_pc c = AtWatch -> c_index c = c_len c /\ c_closed c = false) /\
  (c_ended c = true -> c_closed c = true /\ c_index c = c_len c).

Lemma firstn_S {A} n (l : list A) v : nth_error l n = Some v -> firstn (n + 1) l = firstn n l ++ [v].
Proof.
  revert l. induction n as [|n IH]; intros [|x l] H; cbn in *; try discriminate; [congruence|].
  now rewrite (IH l H).
Qed.

Lemma consumer_next_ok todo0 q p cr c : producer_ok todo0 q p cr -> consumer_ok q c -> consumer_ok q (consumer_next q c).
Proof.
  intros Hp (Hg & Hi & Hl & Hc & Hs & Hw & He). unfold consumer_next.
  pose proof (producer_ok_len _ _ _ _ Hp) as Hq.
  destruct (c_pc c) eqn:Epc.
  - unfold start_poll, consumer_ok; cbn. split; [assumption|]. split; [assumption|]. split; [assumption|].
    split; [assumption|]. split; [assumption|]. split; [discriminate|assumption].
  - unfold at_loop. destruct (Nat.ltb_spec (c_index c) (c_len c)).
    + destruct (nth_error (q_entries q) (c_index c)) as [v|] eqn:En.
      * unfold consumer_ok; cbn. split; [rewrite (firstn_S _ _ _ En); congruence|]. split; [lia|]. split; [assumption|].
        split; [assumption|]. split; [assumption|]. split; [discriminate|]. intros H'. destruct (He H'). lia.
      * apply nth_error_None in En. lia.
    + destruct (c_closed c) eqn:Ecl; unfold consumer_ok; cbn.
      * split; [assumption|]. split; [assumption|]. split; [assumption|]. split; [assumption|]. split; [assumption|].
        split; [discriminate|]. intros _. split; [reflexivity|lia].
      * split; [assumption|]. split; [assumption|]. split; [assumption|]. split; [discriminate|]. split; [assumption|].
        split; [intros _; split; [lia|reflexivity]|]. assumption.
  - destruct (Hw eq_refl) as [Hw1 Hw2]. unfold at_watch, watch_ready.
    destruct (c_seen c) as [v|] eqn:Es.
    + destruct (Hs v eq_refl) as [Hv Hv'].
      destruct (Nat.eqb_spec v (q_version q)) as [Ev|Ev]; cbn [negb].
      * destruct (Hv' Ev) as [H1 H2]. destruct (q_alive q) eqn:Ea; unfold consumer_ok; cbn.
        -- split; [assumption|]. split; [assumption|]. split; [assumption|]. split; [assumption|].
           split; [assumption|]. split; [discriminate|]. assumption.
        -- destruct (producer_ok_dead _ _ _ _ Hp Ea) as [_ Hcl]. rewrite (H2 Hcl) in Hw2. discriminate.
      * unfold consumer_ok; cbn. split; [assumption|]. split; [lia|]. split; [lia|]. split; [auto|].
        split; [intros v' E; injection E as <-; auto|]. split; [discriminate|]. intros H'. apply He in H'. destruct H'. congruence.
    + unfold consumer_ok; cbn. split; [assumption|]. split; [lia|]. split; [lia|]. split; [auto|].
      split; [intros v' E; injection E as <-; auto|]. split; [discriminate|]. intros H'. apply He in H'. destruct H'. congruence.
Qed.

Lemma consumer_ok_producer_step todo0 q p cr q' p' cr' c :
  producer_ok todo0 q p cr -> producer_step (q, p, cr) (q', p', cr') -> consumer_ok q c -> consumer_ok q' c.
Proof.
  intros Hp Hs (Hg & Hi & Hl & Hc & Hse & Hw & He).
  pose proof (producer_ok_len _ _ _ _ Hp) as Hq.
  assert (Hf : forall l, c_got c = firstn (c_index c) (q_entries q ++ l)).
  { intros l. rewrite firstn_app. replace (c_index c - List.length (q_entries q)) with 0 by lia. cbn. now rewrite app_nil_r. }
  inversion Hs; subst; unfold consumer_ok; cbn; cbn in Hp.
  - do 6 (split; [auto|]); assumption.
  - do 6 (split; [auto|]); assumption.
  - split; [assumption|]. split; [assumption|]. split; [lia|]. split.
    + intros H. apply Hc in H. destruct H, Hp as (_ & _ & _ & H' & _). congruence.
    + split; [|auto]. intros v E. apply Hse in E. destruct E. split; [lia|]. intros ->. lia.
  - do 6 (split; [auto|]); assumption.
  - do 6 (split; [auto|]); assumption.
  - split; [assumption|]. split; [assumption|]. split; [assumption|]. split.
    + intros H. split; [reflexivity|]. now apply Hc.
    + split; [|auto]. intros v E. apply Hse in E. destruct E. split; [lia|]. intros ->. lia.
  - do 6 (split; [auto|]); assumption.
Qed.

Lemma new_consumer_ok : consumer_ok queue_new (new_consumer queue_new).
Proof. unfold consumer_ok; cbn. repeat split; try lia; try discriminate. Qed.

(** ** Slots *)

(** What the [i]-th call (from 0) for input partition [real] is answered. *)
Definition answer (nd : node) (real : nat) (inp : list msg + err) (i : nat) : (nat * nat) + exec_error :=
  match inp with
  | inr e => inr (InputError e)
  | inl _ => if i <? n_consumers nd then inl (real, i) else inr (TooManyConsumers real)
  end.

Definition slot_ok (nd : node) (inp : list msg + err) (n_calls : nat) (s : slot_state) : Prop :=
  match s with
  | Unused => n_calls = 0
  | Failed e => inp = inr e /\ 0 < n_calls
  | Live r => exists todo, inp = inl todo /\ 0 < n_calls /\
      List.length (r_consumers r) = n_consumers nd /\ r_popped r = Nat.min n_calls (n_consumers nd) /\
      producer_ok todo (r_queue r) (r_producer r) (r_crashed r) /\ Forall (consumer_ok (r_queue r)) (r_consumers r)
  end.

Definition answers_of (nd : node) (st : state) (real : nat) : list ((nat * nat) + exec_error) :=
  map snd (filter (fun '(p, _) => p mod List.length (n_input nd) =? real) (st_answers st)).

Definition node_ok (nd : node) (st : state) : Prop :=
  List.length (st_slots st) = List.length (n_input nd) /\
  List.length (st_executed st) = List.length (n_input nd) /\
  forall real s inp, nth_error (st_slots st) real = Some s -> nth_error (n_input nd) real = Some inp ->
    slot_ok nd inp (calls nd st real) s /\
    nth_error (st_executed st) real = Some (match s with Unused => 0 | _ => 1 end) /\
    answers_of nd st real = map (answer nd real inp) (seq 0 (calls nd st real)).

Lemma Forall_upd {A} (P : A -> Prop) l i x : Forall P l -> P x -> Forall P (upd l i x).
Proof.
  intros HF Hx. revert i. induction HF as [|y l Hy HF IH]; intros [|i]; cbn; constructor; auto.
Qed.

Lemma node_ok_init (nd : node) : node_ok nd (init_state nd).
Proof.
  split; [cbn; apply map_length|]. split; [cbn; apply map_length|].
  intros real s inp Hs Hi. cbn in *. rewrite nth_error_map, Hi in Hs. injection Hs as <-.
  split; [reflexivity|]. split; [|reflexivity]. rewrite nth_error_map, Hi. reflexivity.
Qed.

Lemma calls_app (nd : node) sl ex ans p a real :
  calls nd (mkState sl ex (ans ++ [(p, a)])) real =
  calls nd (mkState sl ex ans) real + (if p mod List.length (n_input nd) =? real then 1 else 0).
Proof.
  unfold calls. cbn. rewrite filter_app, app_length. cbn. destruct (_ =? real); reflexivity.
Qed.

Lemma node_ok_step (nd : node) st st' : node_ok nd st -> node_step nd st st' -> node_ok nd st'.
Proof.
  intros (L1 & L2 & H) Hs. inversion Hs; subst; clear Hs.
  - (* execute *)
    set (real := partition mod List.length (n_input nd)) in *.
    destruct (H real s inp H2 H3) as (Hok & Hex & Han).
    split; [cbn; now rewrite upd_length|]. split.
    { cbn. destruct s; try assumption. rewrite Hex, upd_length. assumption. }
    intros real' s2 inp' Hs2 Hi'. cbn [st_slots st_executed] in Hs2 |- *. rewrite upd_nth in Hs2.
    assert (Hcalls : forall sl ex, calls nd (mkState sl ex (st_answers st ++ [(partition, ans)])) real' =
       calls nd st real' + (if real =? real' then 1 else 0)).
    { intros sl ex. rewrite calls_app. reflexivity. }
    rewrite Hcalls. unfold answers_of. cbn [st_answers]. rewrite filter_app, map_app.
    cbn [filter map]. fold real. fold (answers_of nd st real').
    destruct (Nat.eqb_spec real real') as [Er|Er].
    + subst real'. rewrite H2 in Hs2. injection Hs2 as <-.
      assert (inp' = inp) by congruence. subst inp'. rewrite Han. cbn [map snd].
      set (n := calls nd st real) in *. rewrite seq_app, map_app. cbn [seq map Nat.add].
      assert (HS : slot_ok nd inp (n + 1) s' /\ ans = answer nd real inp n /\ s' <> Unused).
      { destruct s as [|e|r].
        - cbn in Hok. rewrite Hok. destruct inp as [todo|e]; cbn [init_slot] in H4.
          + cbn [pop_consumer r_popped r_consumers] in H4. rewrite repeat_length in H4. cbn [answer].
            destruct (Nat.ltb_spec 0 (n_consumers nd)) as [Hlt|Hlt]; injection H4 as <- <-.
            * split; [|split; [reflexivity|discriminate]]. exists todo. split; [reflexivity|]. split; [lia|].
              cbn [r_consumers r_popped r_queue r_producer r_crashed]. rewrite repeat_length. split; [reflexivity|]. split; [lia|]. split; [repeat split|].
              apply Forall_forall. intros x Hx. apply repeat_spec in Hx. subst. apply new_consumer_ok.
            * split; [|split; [reflexivity|discriminate]]. exists todo. split; [reflexivity|]. split; [lia|].
              cbn [r_consumers r_popped r_queue r_producer r_crashed]. rewrite repeat_length. split; [reflexivity|]. split; [lia|]. split; [repeat split|].
              apply Forall_forall. intros x Hx. apply repeat_spec in Hx. subst. apply new_consumer_ok.
          + cbn in H4. injection H4 as <- <-. split; [|split; [reflexivity|discriminate]]. cbn. split; [reflexivity|lia].
        - cbn in Hok, H4. destruct Hok as [-> Hn]. injection H4 as <- <-.
          split; [cbn; split; [reflexivity|lia]|]. split; [reflexivity|discriminate].
        - destruct Hok as (todo & -> & Hn & Hl & Hp & Hprod & Hcons). cbn [pop_consumer] in H4. rewrite Hl in H4. cbn [answer].
          destruct (Nat.ltb_spec (r_popped r) (n_consumers nd)) as [Hlt|Hlt]; injection H4 as <- <-.
          + split; [|split; [|discriminate]].
            * exists todo. cbn [r_consumers r_popped r_queue r_producer r_crashed]. do 5 (split; [first [reflexivity|assumption|lia]|]). assumption.
            * destruct (Nat.ltb_spec n (n_consumers nd)); [|lia]. do 2 f_equal. lia.
          + split; [|split; [|discriminate]].
            * exists todo. do 5 (split; [first [reflexivity|assumption|lia]|]). assumption.
            * destruct (Nat.ltb_spec n (n_consumers nd)); [lia|reflexivity]. }
      destruct HS as (HS & -> & Hne). split; [assumption|]. split.
      * destruct s as [|e|r]; [|destruct s'; [contradiction|assumption|assumption]..].
        rewrite Hex, upd_nth, Nat.eqb_refl, Hex. destruct s'; [contradiction|reflexivity|reflexivity].
      * reflexivity.
    + destruct (H real' s2 inp' Hs2 Hi') as (Hok' & Hex' & Han'). rewrite Nat.add_0_r. split; [assumption|]. split.
      * destruct s as [|e|r]; try assumption. rewrite Hex, upd_nth.
        destruct (Nat.eqb_spec real real'); [contradiction|assumption].
      * cbn. now rewrite app_nil_r.
  - (* producer *)
    split; [cbn; now rewrite upd_length|]. split; [assumption|].
    intros real' s2 inp' Hs2 Hi'. cbn [st_slots st_executed] in Hs2 |- *. rewrite upd_nth in Hs2.
    change (calls nd (mkState _ _ (st_answers st)) real') with (calls nd st real').
    change (answers_of nd (mkState _ _ (st_answers st)) real') with (answers_of nd st real').
    destruct (Nat.eqb_spec real real') as [->|Er]; [|now apply H].
    rewrite H0 in Hs2. injection Hs2 as <-. destruct (H real' _ inp' H0 Hi') as (Hok & Hex & Han).
    split; [|split; assumption]. destruct Hok as (todo & -> & Hn & Hl & Hp & Hprod & Hcons).
    exists todo. cbn. repeat (split; [assumption || reflexivity|]). split; [eapply producer_ok_step; eassumption|].
    eapply Forall_impl; [|exact Hcons]. intros c Hc. eapply consumer_ok_producer_step; eassumption.
  - (* consumer *)
    split; [cbn; now rewrite upd_length|]. split; [assumption|].
    intros real' s2 inp' Hs2 Hi'. cbn [st_slots st_executed] in Hs2 |- *. rewrite upd_nth in Hs2.
    change (calls nd (mkState _ _ (st_answers st)) real') with (calls nd st real').
    change (answers_of nd (mkState _ _ (st_answers st)) real') with (answers_of nd st real').
    destruct (Nat.eqb_spec real real') as [->|Er]; [|now apply H].
    rewrite H0 in Hs2. injection Hs2 as <-. destruct (H real' _ inp' H0 Hi') as (Hok & Hex & Han).
    split; [|split; assumption]. destruct Hok as (todo & -> & Hn & Hl & Hp & Hprod & Hcons).
    exists todo. cbn. rewrite upd_length. repeat (split; [assumption || reflexivity|]).
    apply Forall_upd; [assumption|]. eapply consumer_next_ok; [eassumption|].
    rewrite Forall_forall in Hcons. apply Hcons. eapply nth_error_In; eassumption.
Qed.

Lemma node_ok_reachable (nd : node) st : steps (node_step nd) (init_state nd) st -> node_ok nd st.
Proof. apply steps_invariant; [apply node_ok_init|apply node_ok_step]. Qed.

(** What is known of a handed out stream. *)
Lemma stream_ok (nd : node) st h r c inp : node_ok nd st -> stream_at st h = Some (r, c) ->
  nth_error (n_input nd) (fst h) = Some inp ->
  exists todo, inp = inl todo /\ producer_ok todo (r_queue r) (r_producer r) (r_crashed r) /\ consumer_ok (r_queue r) c.
Proof.
  intros (L1 & L2 & H) Hst Hi. unfold stream_at in Hst.
  destruct (nth_error (st_slots st) (fst h)) as [[|e|r']|] eqn:Es; try discriminate.
  destruct (nth_error (r_consumers r') (snd h)) as [c'|] eqn:Ec; [|discriminate]. cbn in Hst. injection Hst as -> ->.
  destruct (H _ _ _ Es Hi) as ((todo & -> & Hn & Hl & Hp & Hprod & Hcons) & _).
  exists todo. split; [reflexivity|]. split; [assumption|]. rewrite Forall_forall in Hcons. apply Hcons.
  eapply nth_error_In; eassumption.
Qed.

Lemma stream_input (nd : node) st h r c : node_ok nd st -> stream_at st h = Some (r, c) ->
  exists inp, nth_error (n_input nd) (fst h) = Some inp.
Proof.
  intros (L1 & _) Hst. unfold stream_at in Hst.
  destruct (nth_error (st_slots st) (fst h)) as [s|] eqn:Es; [|discriminate].
  destruct (nth_error (n_input nd) (fst h)) as [inp|] eqn:Ei; [eauto|].
  apply nth_error_None in Ei. assert (fst h < List.length (st_slots st)) by (apply nth_error_Some; congruence). lia.
Qed.

(** ** Progress *)

(** Setting one consumer of one slot. *)
Definition set_consumer (st : state) (h : nat * nat) (r : running) (c : consumer) : state :=
  mkState (upd (st_slots st) (fst h) (Live (mkRunning (r_queue r) (r_producer r) (upd (r_consumers r) (snd h) c)
                             (r_popped r) (r_crashed r)))) (st_executed st) (st_answers st).

Lemma upd_upd {A} (l : list A) i a b : upd (upd l i a) i b = upd l i b.
Proof.
  apply nth_ext_error. intros j. rewrite !upd_nth, Nat.eqb_refl. destruct (i =? j); [|reflexivity]. destruct (nth_error l i); reflexivity.
Qed.

Lemma upd_same {A} (l : list A) i a : nth_error l i = Some a -> upd l i a = l.
Proof.
  intros H. apply nth_ext_error. intros j. rewrite upd_nth. destruct (Nat.eqb_spec i j) as [->|]; [|reflexivity]. now rewrite H.
Qed.

Lemma stream_set st h r c c' : stream_at st h = Some (r, c) ->
  stream_at (set_consumer st h r c') h =
  Some (mkRunning (r_queue r) (r_producer r) (upd (r_consumers r) (snd h) c') (r_popped r) (r_crashed r), c').
Proof.
  unfold stream_at. destruct (nth_error (st_slots st) (fst h)) as [[|e|r']|] eqn:Es; try discriminate.
  destruct (nth_error (r_consumers r') (snd h)) as [x|] eqn:Ec; [|discriminate]. cbn. intros H. injection H as -> ->.
  rewrite upd_nth, Nat.eqb_refl, Es. cbn. now rewrite upd_nth, Nat.eqb_refl, Ec.
Qed.

Lemma set_set st h r c c' c'' : stream_at st h = Some (r, c) ->
  set_consumer (set_consumer st h r c') h
    (mkRunning (r_queue r) (r_producer r) (upd (r_consumers r) (snd h) c') (r_popped r) (r_crashed r)) c'' =
  set_consumer st h r c''.
Proof. intros _. unfold set_consumer. cbn. now rewrite !upd_upd. Qed.

Fixpoint iter_next (q : queue) (n : nat) (c : consumer) : consumer :=
  match n with 0 => c | S n => iter_next q n (consumer_next q c) end.

Lemma polls_iter (nd : node) st h r : forall n c, stream_at st h = Some (r, c) ->
  steps (polls_of nd h) st (set_consumer st h r (iter_next (r_queue r) n c)).
Proof.
  intros n c Hst. revert st r c Hst. induction n as [|n IH]; intros st r c Hst; cbn [iter_next].
  - assert (E : set_consumer st h r c = st); [|rewrite E; constructor].
    unfold stream_at in Hst. unfold set_consumer. destruct (nth_error (st_slots st) (fst h)) as [[|e|r']|] eqn:Es; try discriminate.
    destruct (nth_error (r_consumers r') (snd h)) as [x|] eqn:Ec; [|discriminate]. cbn in Hst. injection Hst as -> ->.
    rewrite (upd_same _ _ _ Ec). rewrite upd_same; [destruct st; reflexivity|]. rewrite Es. destruct r; reflexivity.
  - eapply steps_trans.
    + apply steps_one. exists r, c. split; [exact Hst|reflexivity].
    + fold (set_consumer st h r (consumer_next (r_queue r) c)).
      pose proof (stream_set st h r c (consumer_next (r_queue r) c) Hst) as Hst'.
      specialize (IH _ _ _ Hst'). cbn [r_queue] in IH.
      rewrite (set_set st h r c _ _ Hst) in IH. exact IH.
Qed.

Lemma iter_next_plus q n m c : iter_next q (n + m) c = iter_next q m (iter_next q n c).
Proof. revert c. induction n as [|n IH]; intros c; cbn; auto. Qed.

(** When the queue is finished, polling delivers the rest and the end. *)
Lemma drain todo0 q cr : producer_ok todo0 q Finished cr ->
  forall k c, consumer_ok q c -> c_pc c = AtLoop -> List.length (q_entries q) - c_index c <= k ->
  exists n, c_ended (iter_next q n c) = true.
Proof.
  intros Hp. pose proof Hp as (Hpre & Hall & Hlen & Hcl & Hal).
  assert (Hclosed : forall k c, consumer_ok q c -> c_pc c = AtLoop -> c_closed c = true ->
    List.length (q_entries q) - c_index c <= k -> exists n, c_ended (iter_next q n c) = true).
  { induction k as [|k IH]; intros c Hc Hpc Hcc Hk.
    - exists 1. cbn. unfold consumer_next. rewrite Hpc. unfold at_loop.
      destruct Hc as (Hg & Hi & Hl & Hcc' & Hs & Hw & He).
      destruct (Nat.ltb_spec (c_index c) (c_len c)); [lia|]. rewrite Hcc. reflexivity.
    - pose proof (consumer_next_ok _ _ _ _ _ Hp Hc) as Hn. unfold consumer_next in Hn. rewrite Hpc in Hn.
      unfold at_loop in Hn. pose proof Hc as (Hg & Hi & Hl & Hcc' & Hs & Hw & He).
      destruct (Nat.ltb_spec (c_index c) (c_len c)).
      + destruct (nth_error (q_entries q) (c_index c)) as [v|] eqn:En; [|apply nth_error_None in En; lia].
        pose proof (consumer_next_ok _ _ _ _ _ Hp Hn) as Hn'. unfold consumer_next in Hn'. cbn [c_pc start_poll] in Hn'.
        destruct (IH _ Hn' eq_refl Hcc) as [n Hn'']; [cbn; lia|].
        exists (2 + n). rewrite iter_next_plus. cbn [iter_next].
        replace (consumer_next q c) with (at_loop q c) by (unfold consumer_next; now rewrite Hpc).
        unfold at_loop. destruct (Nat.ltb_spec (c_index c) (c_len c)); [|lia]. rewrite En.
        unfold consumer_next at 1. cbn [c_pc]. exact Hn''.
      + exists 1. cbn. unfold consumer_next. rewrite Hpc. unfold at_loop.
        destruct (Nat.ltb_spec (c_index c) (c_len c)); [lia|]. rewrite Hcc. reflexivity. }
  induction k as [|k IH]; intros c Hc Hpc Hk.
  - (* everything was read: at most one look at the channel *)
    destruct (c_closed c) eqn:Ecl; [eapply Hclosed; eauto|].
    pose proof Hc as (Hg & Hi & Hl & Hcc' & Hs & Hw & He).
    pose proof (consumer_next_ok _ _ _ _ _ Hp Hc) as Hn. unfold consumer_next in Hn. rewrite Hpc in Hn. unfold at_loop in Hn.
    assert (E1 : consumer_next q c = mkConsumer (c_index c) (c_len c) (c_closed c) (c_seen c) AtWatch (c_got c) (c_ended c)).
    { unfold consumer_next. rewrite Hpc. unfold at_loop. destruct (Nat.ltb_spec (c_index c) (c_len c)); [lia|]. now rewrite Ecl. }
    destruct (Nat.ltb_spec (c_index c) (c_len c)); [lia|]. rewrite Ecl in Hn.
    pose proof (consumer_next_ok _ _ _ _ _ Hp Hn) as Hn'. unfold consumer_next in Hn'. cbn [c_pc] in Hn'.
    unfold at_watch in Hn'. cbn in Hn'. rewrite Hal in Hn'. rewrite Ecl in E1.
    destruct (watch_ready q (mkConsumer (c_index c) (c_len c) false (c_seen c) AtWatch (c_got c) (c_ended c))) eqn:Ew.
    + destruct (Hclosed (List.length (q_entries q)) _ Hn' eq_refl Hcl) as [n Hnn]; [cbn; lia|].
      exists (2 + n). rewrite iter_next_plus. cbn [iter_next]. rewrite E1. unfold consumer_next at 1. cbn [c_pc]. unfold at_watch.
      rewrite Ew. exact Hnn.
    + destruct (Hclosed (List.length (q_entries q)) _ Hn' eq_refl eq_refl) as [n Hnn]; [cbn; lia|].
      exists (2 + n). rewrite iter_next_plus. cbn [iter_next]. rewrite E1. unfold consumer_next at 1. cbn [c_pc]. unfold at_watch.
      rewrite Ew, Hal. exact Hnn.
  - destruct (c_closed c) eqn:Ecl; [eapply Hclosed; eauto|].
    pose proof Hc as (Hg & Hi & Hl & Hcc' & Hs & Hw & He).
    destruct (Nat.ltb_spec (c_index c) (c_len c)) as [Hlt|Hge].
    + destruct (nth_error (q_entries q) (c_index c)) as [v|] eqn:En; [|apply nth_error_None in En; lia].
      pose proof (consumer_next_ok _ _ _ _ _ Hp Hc) as Hn.
      assert (E1 : consumer_next q c = mkConsumer (c_index c + 1) (c_len c) (c_closed c) (c_seen c) Outside (c_got c ++ [v]) (c_ended c)).
      { unfold consumer_next. rewrite Hpc. unfold at_loop. destruct (Nat.ltb_spec (c_index c) (c_len c)); [|lia]. now rewrite En. }
      rewrite E1 in Hn. pose proof (consumer_next_ok _ _ _ _ _ Hp Hn) as Hn'. unfold consumer_next in Hn'. cbn [c_pc] in Hn'.
      destruct (IH _ Hn' eq_refl) as [n Hnn]; [cbn; lia|].
      exists (2 + n). rewrite iter_next_plus. cbn [iter_next]. rewrite E1. unfold consumer_next at 1. cbn [c_pc]. exact Hnn.
    + pose proof (consumer_next_ok _ _ _ _ _ Hp Hc) as Hn.
      assert (E1 : consumer_next q c = mkConsumer (c_index c) (c_len c) (c_closed c) (c_seen c) AtWatch (c_got c) (c_ended c)).
      { unfold consumer_next. rewrite Hpc. unfold at_loop. destruct (Nat.ltb_spec (c_index c) (c_len c)); [lia|]. now rewrite Ecl. }
      rewrite E1 in Hn. pose proof (consumer_next_ok _ _ _ _ _ Hp Hn) as Hn'. unfold consumer_next in Hn'. cbn [c_pc] in Hn'.
      unfold at_watch in Hn'. cbn in Hn'. rewrite Hal in Hn'.
      destruct (watch_ready q (mkConsumer (c_index c) (c_len c) (c_closed c) (c_seen c) AtWatch (c_got c) (c_ended c))) eqn:Ew.
      * destruct (Hclosed (List.length (q_entries q)) _ Hn' eq_refl Hcl) as [n Hnn]; [cbn; lia|].
        exists (2 + n). rewrite iter_next_plus. cbn [iter_next]. rewrite E1. unfold consumer_next at 1. cbn [c_pc]. unfold at_watch.
        rewrite Ew. exact Hnn.
      * destruct (Hclosed (List.length (q_entries q)) _ Hn' eq_refl eq_refl) as [n Hnn]; [cbn; lia|].
        exists (2 + n). rewrite iter_next_plus. cbn [iter_next]. rewrite E1. unfold consumer_next at 1. cbn [c_pc]. unfold at_watch.
        rewrite Ew, Hal. exact Hnn.
Qed.

Lemma drain_any todo0 q cr c : producer_ok todo0 q Finished cr -> consumer_ok q c ->
  exists n, c_ended (iter_next q n c) = true.
Proof.
  intros Hp Hc. destruct (c_pc c) eqn:Epc.
  - pose proof (consumer_next_ok _ _ _ _ _ Hp Hc) as Hn.
    assert (E : c_pc (consumer_next q c) = AtLoop) by (unfold consumer_next; now rewrite Epc).
    destruct (drain _ _ _ Hp _ _ Hn E (le_n _)) as [n H]. exists (1 + n). exact H.
  - exact (drain _ _ _ Hp _ _ Hc Epc (le_n _)).
  - pose proof (consumer_next_ok _ _ _ _ _ Hp Hc) as Hn.
    assert (E : c_pc (consumer_next q c) = AtLoop).
    { unfold consumer_next. rewrite Epc. unfold at_watch. destruct Hp as (_ & _ & _ & _ & Hal). rewrite Hal.
      destruct (watch_ready q c); reflexivity. }
    destruct (drain _ _ _ Hp _ _ Hn E (le_n _)) as [n H]. exists (1 + n). exact H.
Qed.

(** The producer can always run to its end without crashing. *)
Lemma producer_finishes : forall (q : queue) p, exists q' c, steps producer_step (q, p, c) (q', Finished, c) /\
  forall c0, steps producer_step (q, p, c0) (q', Finished, c0).
Proof.
  assert (HC : forall q : queue, exists q', forall c, steps producer_step (q, Closing, c) (q', Finished, c)).
  { intros q. eexists. intros c. eapply steps_trans; [apply steps_one, close|apply steps_one, drop_sender]. }
  assert (HR : forall todo (q : queue), exists q', forall c, steps producer_step (q, Running todo, c) (q', Finished, c)).
  { induction todo as [|[b|e] todo IH]; intros q.
    - destruct (HC q) as [q' H]. exists q'. intros c. eapply steps_trans; [apply steps_one, input_end|apply H].
    - destruct (IH (mkQueue (q_entries q ++ [inl b]) (List.length (q_entries q) + 1) (q_closed q) (q_version q + 1) (q_alive q))) as [q' H].
      exists q'. intros c. eapply steps_trans; [apply steps_one, push_batch|]. eapply steps_trans; [apply steps_one, publish|]. apply H.
    - destruct (HC (mkQueue (q_entries q ++ [inr e]) (List.length (q_entries q) + 1) (q_closed q) (q_version q + 1) (q_alive q))) as [q' H].
      exists q'. intros c. eapply steps_trans; [apply steps_one, push_error|]. eapply steps_trans; [apply steps_one, publish|].
      eapply steps_trans; [apply steps_one, input_end|]. apply H. }
  intros q p. assert (G : exists q', forall c, steps producer_step (q, p, c) (q', Finished, c)).
  { destruct p as [todo|n todo| | |].
    - apply HR.
    - destruct (HR todo (mkQueue (q_entries q) n (q_closed q) (q_version q + 1) (q_alive q))) as [q' H].
      exists q'. intros c. eapply steps_trans; [apply steps_one, publish|apply H].
    - apply HC.
    - eexists. intros c. apply steps_one, drop_sender.
    - exists q. intros c. constructor. }
  destruct G as [q' H]. exists q', false. auto.
Qed.

Definition set_producer (st : state) (real : nat) (r : running) (q : queue) (p : producer) (c : bool) : state :=
  mkState (upd (st_slots st) real (Live (mkRunning q p (r_consumers r) (r_popped r) c))) (st_executed st) (st_answers st).

Lemma producer_lift (nd : node) real : forall a b, steps producer_step a b ->
  forall st r, nth_error (st_slots st) real = Some (Live r) -> a = (r_queue r, r_producer r, r_crashed r) ->
  steps (node_step nd) st (let '(q, p, c) := b in set_producer st real r q p c).
Proof.
  intros a b H. induction H as [x|x y z H1 IH Hs]; intros st r Hr E.
  - subst x. assert (E : set_producer st real r (r_queue r) (r_producer r) (r_crashed r) = st); [|rewrite E; constructor].
    unfold set_producer. rewrite upd_same; [now destruct st|]. rewrite Hr. now destruct r.
  - specialize (IH st r Hr E). destruct y as [[q p] c], z as [[q' p'] c'].
    eapply steps_next; [exact IH|].
    pose (r1 := mkRunning q p (r_consumers r) (r_popped r) c).
    replace (set_producer st real r q' p' c') with
      (mkState (upd (st_slots (set_producer st real r q p c)) real (Live (mkRunning q' p' (r_consumers r1) (r_popped r1) c')))
         (st_executed (set_producer st real r q p c)) (st_answers (set_producer st real r q p c)))
      by (unfold set_producer; cbn; now rewrite upd_upd).
    apply (producer_moves nd _ real r1 q' p' c').
    + unfold set_producer. cbn. rewrite upd_nth, Nat.eqb_refl, Hr. reflexivity.
    + exact Hs.
Qed.
End Proofs.
