(** Proofs about connections. *)
From Verif Require Import Base CiuModel CiuProofs DemuxModel DemuxSpec.

Lemma upd_nth_inv {A} (l : list A) i v j p :
  nth_error (upd l i v) j = Some p -> (i = j /\ p = v) \/ (i <> j /\ nth_error l j = Some p).
Proof.
  rewrite upd_nth. destruct (i =? j) eqn:E.
  - apply Nat.eqb_eq in E. destruct (nth_error l i); [|discriminate]. intros H. injection H as <-. auto.
  - apply Nat.eqb_neq in E. auto.
Qed.

Lemma upd_sum {A} (f : A -> nat) l i a v :
  nth_error l i = Some a -> list_sum (map f (upd l i v)) + f a = list_sum (map f l) + f v.
Proof.
  revert i. induction l as [|x l IH]; intros [|i] H; cbn in H; try discriminate.
  - injection H as ->. cbn [upd map]. change (list_sum (f v :: map f l)) with (f v + list_sum (map f l)).
    change (list_sum (f a :: map f l)) with (f a + list_sum (map f l)). lia.
  - cbn [upd map]. change (list_sum (f x :: map f (upd l i v))) with (f x + list_sum (map f (upd l i v))).
    change (list_sum (f x :: map f l)) with (f x + list_sum (map f l)). specialize (IH _ H). lia.
Qed.

Section Proofs.
Context {data err : Type}.
Notation source_item := (@item data + err)%type.
Implicit Types (k : @conn data err) (p : @part data err).

Lemma sender_of_tag start n i : i < n -> sender_of start n (wire_tag start i) = Some i.
Proof.
  intros H. unfold sender_of, wire_tag. destruct (Nat.ltb_spec (start + i) start); [lia|].
  replace (start + i - start) with i by lia. destruct (Nat.ltb_spec i n); [reflexivity|lia].
Qed.

Lemma bytes_app (a b : list source_item) : bytes (a ++ b) = bytes a + bytes b.
Proof. unfold bytes. now rewrite map_app, list_sum_app. Qed.

Lemma error_free_app (a b : list source_item) : error_free (a ++ b) <-> error_free a /\ error_free b.
Proof.
  unfold error_free. split.
  - intros H. split; intros e He; apply (H e); apply in_or_app; auto.
  - intros [H1 H2] e He. apply in_app_or in He. destruct He; [eapply H1|eapply H2]; eauto.
Qed.
Lemma error_free_inl it : error_free [inl it : source_item].
Proof. intros e [H|[]]. discriminate. Qed.
Lemma error_free_nil : error_free ([] : list source_item).
Proof. intros e []. Qed.

Section Run.
Variables (start budget capacity : nat) (bad : nat -> err).
Notation step := (conn_step start budget capacity bad).

(** The message between [grow] and [send] for partition [i]. *)
Definition transit k i : list source_item :=
  match k_phase k with Sending j it => if j =? i then [inl it] else [] | _ => [] end.

(** What is known of partition [i]. [A]: what the demultiplexer took of the partition's source. *)
Definition part_ok k (i : nat) (S : list source_item) p : Prop :=
  (k_failed k = None -> exists A T, S = A ++ p_buf p ++ p_src p ++ p_lost p /\ error_free A /\
     A = p_got p ++ p_queue p ++ T /\ (p_live p = true -> k_crashed k = false -> T = transit k i)) /\
  (forall e, k_failed k = Some e -> exists A R T, S = A ++ R /\ error_free A /\
     A ++ [inr e] = p_got p ++ p_queue p ++ T /\ (p_live p = true -> T = [])) /\
  (p_live p = false -> p_queue p = []).

(** What is known of a stream that ended. *)
Definition ended_ok k (S : list source_item) p : Prop :=
  p_ended p = true ->
  k_phase k = Done /\ p_queue p = [] /\
  (forall e, k_failed k = Some e -> In (inr e) (p_got p)) /\
  (k_failed k = None -> k_crashed k = false ->
     S = p_got p ++ p_lost p /\ Forall (fun p => p_src p = [] /\ p_buf p = []) (k_parts k)).

Record inv (sources : list (list source_item)) k : Prop := {
  inv_len : List.length (k_parts k) = List.length sources;
  inv_part : forall i S p, nth_error sources i = Some S -> nth_error (k_parts k) i = Some p -> part_ok k i S p;
  inv_ended : forall i S p, nth_error sources i = Some S -> nth_error (k_parts k) i = Some p -> ended_ok k S p;
  inv_failed : k_failed k <> None -> k_phase k = Done;
  inv_crashed : k_crashed k = true -> k_phase k = Done;
  inv_sending : forall i it, k_phase k = Sending i it -> i < List.length (k_parts k);
  inv_cancelled : k_cancelled k = true -> forall i p, nth_error (k_parts k) i = Some p -> p_live p = false;
  inv_done : k_phase k = Done -> k_failed k = None -> k_crashed k = false -> k_cancelled k = false ->
    Forall (fun p => p_src p = [] /\ p_buf p = []) (k_parts k);
  inv_polled : k_phase k <> WaitPoll \/ k_first k = true \/ k_cancelled k = true \/
    forall i p, nth_error (k_parts k) i = Some p -> p_polled p = false;
  inv_blocked : k_phase k = Blocked -> k_permit k = false -> budget <= k_reserved k;
  inv_recv : k_phase k = Recv -> k_reserved k < budget;
  inv_bytes : k_crashed k = false -> k_reserved k = buffered k + k_leaked k;
  inv_bound : k_reserved k = 0 \/ exists s, In s (k_sizes k) /\ k_reserved k < budget + s
}.

Lemma forall_upd {A} (P : A -> Prop) l i v : Forall P l -> P v -> Forall P (upd l i v).
Proof.
  intros H Hv. apply Forall_forall. intros x Hx. apply In_nth_error in Hx. destruct Hx as [j Hj].
  apply upd_nth_inv in Hj. destruct Hj as [[_ ->]|[_ Hj]]; [assumption|].
  rewrite Forall_forall in H. apply H. now apply nth_error_In in Hj.
Qed.

Lemma inv_init sources : inv sources (conn_init sources).
Proof.
  assert (Hn : forall i p, nth_error (k_parts (conn_init sources)) i = Some p ->
     exists S, nth_error sources i = Some S /\ p = mkPart S [] [] [] true false [] false).
  { intros i p H. cbn in H. rewrite nth_error_map in H. destruct (nth_error sources i) as [S|]; [|discriminate].
    injection H as <-. eauto. }
  constructor; cbn [conn_init k_parts k_phase k_failed k_crashed k_cancelled k_first k_permit k_reserved k_leaked k_sizes];
    try congruence; try discriminate.
  - now rewrite map_length.
  - intros i S p HS Hp. apply Hn in Hp. destruct Hp as (S' & HS' & ->). rewrite HS in HS'. injection HS' as <-.
    split; [|split].
    + intros _. exists [], []. cbn. rewrite app_nil_r. auto using error_free_nil.
    + discriminate.
    + discriminate.
  - intros i S p HS Hp. apply Hn in Hp. destruct Hp as (S' & HS' & ->). intros H. discriminate.
  - right. right. right. intros i p Hp. apply Hn in Hp. destruct Hp as (S' & HS' & ->). reflexivity.
  - intros _. unfold buffered. cbn [conn_init k_parts k_phase]. rewrite map_map. cbn.
    clear Hn. induction sources; cbn; auto.
  - auto.
Qed.

(** Steps that change neither partitions' messages nor the outcome. *)
Lemma transit_done k i : k_phase k = Done -> transit k i = [].
Proof. unfold transit. now intros ->. Qed.

Ltac simp := cbn [set_parts set_phase fanout k_parts k_phase k_reserved k_permit k_first k_cancelled k_leaked k_failed
   k_crashed k_sizes p_src p_buf p_lost p_queue p_live p_polled p_got p_ended] in *.

(** ** One field at a time *)

Lemma step_len sources k k' : inv sources k -> step k k' -> List.length (k_parts k') = List.length sources.
Proof.
  intros I H. pose proof (inv_len _ _ I) as HL.
  destruct H; simp; rewrite ?map_length, ?upd_length; auto.
  destruct (sender_of _ _ _); simp; rewrite ?map_length, ?upd_length; auto.
Qed.

Lemma send_part_got p m : p_got (send_part p m) = p_got p.
Proof. unfold send_part. now destruct (p_live p). Qed.
Lemma send_part_src p m : p_src (send_part p m) = p_src p.
Proof. unfold send_part. now destruct (p_live p). Qed.
Lemma send_part_buf p m : p_buf (send_part p m) = p_buf p.
Proof. unfold send_part. now destruct (p_live p). Qed.
Lemma send_part_lost p m : p_lost (send_part p m) = p_lost p.
Proof. unfold send_part. now destruct (p_live p). Qed.
Lemma send_part_live p m : p_live (send_part p m) = p_live p.
Proof. unfold send_part. now destruct (p_live p) eqn:E; simp. Qed.
Lemma send_part_ended p m : p_ended (send_part p m) = p_ended p.
Proof. unfold send_part. now destruct (p_live p) eqn:E; simp. Qed.
Lemma send_part_polled p m : p_polled (send_part p m) = p_polled p.
Proof. unfold send_part. now destruct (p_live p) eqn:E; simp. Qed.
Lemma send_part_queue p m : p_queue (send_part p m) = if p_live p then p_queue p ++ [m] else p_queue p.
Proof. unfold send_part. now destruct (p_live p) eqn:E; simp. Qed.

(** Before the end, nothing failed or crashed. *)
Lemma running_clean sources k : inv sources k -> k_phase k <> Done -> k_failed k = None /\ k_crashed k = false.
Proof.
  intros I H. split.
  - destruct (k_failed k) eqn:E; [|reflexivity]. destruct H. apply (inv_failed _ _ I). congruence.
  - destruct (k_crashed k) eqn:E; [|reflexivity]. destruct H. now apply (inv_crashed _ _ I).
Qed.

Lemma running_not_ended sources k i S p :
  inv sources k -> k_phase k <> Done -> nth_error sources i = Some S -> nth_error (k_parts k) i = Some p -> p_ended p = false.
Proof.
  intros I H HS Hp. destruct (p_ended p) eqn:E; [|reflexivity].
  destruct (inv_ended _ _ I _ _ _ HS Hp E) as [H1 _]. contradiction.
Qed.

(** Failing from a state in which the demultiplexer holds no message. *)
Lemma fanout_part sources k i S p e :
  inv sources k -> k_phase k <> Done -> (forall i, transit k i = []) ->
  nth_error sources i = Some S -> nth_error (k_parts k) i = Some p ->
  forall k2, k_failed k2 = Some e -> part_ok k2 i S (send_part p (inr e)).
Proof.
  intros I Hd Ht HS Hp k2 Hf. destruct (running_clean _ _ I Hd) as [F C].
  destruct (inv_part _ _ I _ _ _ HS Hp) as (P1 & _ & P3).
  destruct (P1 F) as (A & T & HA & EA & HT & Hlive). split; [congruence|]. split.
  - intros e' He'. assert (e' = e) by congruence. subst e'. exists A. do 1 eexists.
    rewrite send_part_got, send_part_queue, send_part_live. destruct (p_live p) eqn:El.
    + rewrite Hlive, Ht in HT by auto. exists []. split; [exact HA|]. split; [assumption|]. split; [|auto].
      rewrite HT, !app_nil_r, <- !app_assoc. reflexivity.
    + exists (T ++ [inr e]). split; [exact HA|]. split; [assumption|]. split; [|discriminate].
      rewrite HT, <- !app_assoc. reflexivity.
  - rewrite send_part_live, send_part_queue. intros El. rewrite El. auto.
Qed.

(** The same, after the demultiplexer took the head of partition [i0]'s channel. *)
Lemma take_buf_part k i S p m rest :
  p_buf p = m :: rest -> part_ok k i S p -> k_failed k = None ->
  (forall A T, S = A ++ p_buf p ++ p_src p ++ p_lost p -> A = p_got p ++ p_queue p ++ T -> error_free A ->
     S = (A ++ [m]) ++ rest ++ p_src p ++ p_lost p).
Proof. intros Hb _ _ A T HS _ _. rewrite Hb in HS. rewrite HS. rewrite <- !app_assoc. reflexivity. Qed.

Ltac cases Hst :=
  destruct Hst as [k i p m rest Hp Hsrc Hcap|k i p Hp Hsrc|k i p Hp Hl Hpo|k i p it rest Hp Hl Hpo Hq
    |k i p e rest Hp Hl Hpo Hq|k i p Hp Hl Hpo Hq Hd He|k i p Hp Hl|k Hc Hph|k Hph Hf|k e Hph Hf|k Hph Hr|k Hph Hr|k Hph Hpe
    |k i p it rest Hph Hp Hb|k i p e rest Hph Hp Hb|k e Hph|k Hph Hall|k i it p Hph Hp|k Hph].

(** A step that changes only the phase between phases that hold no message. *)
Lemma part_ok_same k k2 i S p :
  part_ok k i S p -> k_failed k2 = k_failed k -> (k_crashed k2 = false -> k_crashed k = false) ->
  (k_crashed k2 = false -> transit k2 i = transit k i) -> part_ok k2 i S p.
Proof.
  intros (P1 & P2 & P3) F C T. split; [|split; [|exact P3]].
  - rewrite F. intros F0. destruct (P1 F0) as (A & T0 & HA & EA & HT & Hl). exists A, T0. do 3 (split; [assumption|]).
    intros L C2. rewrite Hl by auto. symmetry. auto.
  - rewrite F. exact P2.
Qed.

Lemma step_part sources k k' : inv sources k -> step k k' ->
  forall i S p, nth_error sources i = Some S -> nth_error (k_parts k') i = Some p -> part_ok k' i S p.
Proof.
  intros I Hst j S p' HS Hp'. cases Hst; simp.
  - (* worker_pull *)
    apply upd_nth_inv in Hp'. destruct Hp' as [[-> ->]|[_ Hp']]; [|exact (inv_part _ _ I _ _ _ HS Hp')].
    destruct (inv_part _ _ I _ _ _ HS Hp) as (P1 & P2 & P3). split; [|split; [exact P2|exact P3]].
    intros F. destruct (P1 F) as (A & T & HA & EA & HT & Hlive). exists A, T. simp. split; [|auto].
    rewrite HA, Hsrc, <- !app_assoc. reflexivity.
  - (* worker_crash *)
    apply upd_nth_inv in Hp'. destruct Hp' as [[-> ->]|[_ Hp']]; [|exact (inv_part _ _ I _ _ _ HS Hp')].
    destruct (inv_part _ _ I _ _ _ HS Hp) as (P1 & P2 & P3). split; [|split; [exact P2|exact P3]].
    intros F. destruct (P1 F) as (A & T & HA & EA & HT & Hlive). exists A, T. simp. auto.
  - (* first_poll *)
    apply upd_nth_inv in Hp'. destruct Hp' as [[-> ->]|[_ Hp']]; [|exact (inv_part _ _ I _ _ _ HS Hp')].
    exact (inv_part _ _ I _ _ _ HS Hp).
  - (* poll_item *)
    apply upd_nth_inv in Hp'. destruct Hp' as [[-> ->]|[_ Hp']]; [|exact (inv_part _ _ I _ _ _ HS Hp')].
    destruct (inv_part _ _ I _ _ _ HS Hp) as (P1 & P2 & P3). rewrite Hq in *. split; [|split]; simp.
    + intros F. destruct (P1 F) as (A & T & HA & EA & HT & Hlive). exists A, T. split; [assumption|]. split; [assumption|].
      split; [|assumption]. rewrite HT, <- !app_assoc. reflexivity.
    + intros e F. destruct (P2 e F) as (A & R & T & HA & EA & HT & Hlive). exists A, R, T. do 2 (split; [assumption|]).
      split; [|assumption]. rewrite HT, <- !app_assoc. reflexivity.
    + congruence.
  - (* poll_error *)
    apply upd_nth_inv in Hp'. destruct Hp' as [[-> ->]|[_ Hp']]; [|exact (inv_part _ _ I _ _ _ HS Hp')].
    destruct (inv_part _ _ I _ _ _ HS Hp) as (P1 & P2 & P3). rewrite Hq in *. split; [|split]; simp.
    + intros F. destruct (P1 F) as (A & T & HA & EA & HT & Hlive). exists A, T. split; [assumption|]. split; [assumption|].
      split; [|assumption]. rewrite HT, <- !app_assoc. reflexivity.
    + intros e' F. destruct (P2 e' F) as (A & R & T & HA & EA & HT & Hlive). exists A, R, T. do 2 (split; [assumption|]).
      split; [|assumption]. rewrite HT, <- !app_assoc. reflexivity.
    + congruence.
  - (* poll_end *)
    apply upd_nth_inv in Hp'. destruct Hp' as [[-> ->]|[_ Hp']]; [|exact (inv_part _ _ I _ _ _ HS Hp')].
    destruct (inv_part _ _ I _ _ _ HS Hp) as (P1 & P2 & P3). rewrite Hq in *. split; [|split]; simp; auto.
  - (* drop_stream *)
    apply upd_nth_inv in Hp'. destruct Hp' as [[-> ->]|[_ Hp']]; [|exact (inv_part _ _ I _ _ _ HS Hp')].
    destruct (inv_part _ _ I _ _ _ HS Hp) as (P1 & P2 & P3). split; [|split]; simp.
    + intros F. destruct (P1 F) as (A & T & HA & EA & HT & Hlive). exists A, (p_queue p ++ T). do 3 (split; [assumption|]). discriminate.
    + intros e' F. destruct (P2 e' F) as (A & R & T & HA & EA & HT & Hlive). exists A, R, (p_queue p ++ T).
      do 3 (split; [assumption|]). discriminate.
    + auto.
  - (* demux_cancelled *)
    eapply part_ok_same; [exact (inv_part _ _ I _ _ _ HS Hp')| | |]; auto.
    intros _. unfold transit. simp. destruct Hph as [-> |[-> | ->]]; reflexivity.
  - (* connect *)
    eapply part_ok_same; [exact (inv_part _ _ I _ _ _ HS Hp')| | |]; auto. intros _. unfold transit. simp. now rewrite Hph.
  - (* connect fails *)
    rewrite nth_error_map in Hp'. destruct (nth_error (k_parts k) j) as [p|] eqn:Hp; [|discriminate]. cbn in Hp'. injection Hp' as <-.
    eapply fanout_part; eauto; [congruence|]. intros i. unfold transit. now rewrite Hph.
  - (* gate open *)
    eapply part_ok_same; [exact (inv_part _ _ I _ _ _ HS Hp')| | |]; auto. intros _. unfold transit. simp. now rewrite Hph.
  - (* gate closed *)
    eapply part_ok_same; [exact (inv_part _ _ I _ _ _ HS Hp')| | |]; auto. intros _. unfold transit. simp. now rewrite Hph.
  - (* notified *)
    eapply part_ok_same; [exact (inv_part _ _ I _ _ _ HS Hp')| | |]; auto. intros _. unfold transit. simp. now rewrite Hph.
  - (* recv *)
    assert (Hi : i < List.length (k_parts k)) by (apply nth_error_Some; congruence).
    rewrite sender_of_tag in * by assumption. simp.
    destruct (running_clean _ _ I ltac:(congruence)) as [F C].
    apply upd_nth_inv in Hp'. destruct Hp' as [[-> ->]|[Hij Hp']].
    + destruct (inv_part _ _ I _ _ _ HS Hp) as (P1 & P2 & P3). split; [|split]; simp; [|congruence|auto].
      intros _. destruct (P1 F) as (A & T & HA & EA & HT & Hlive). exists (A ++ [inl it]), (T ++ [inl it]).
      split; [rewrite HA, Hb, <- !app_assoc; reflexivity|]. split; [apply error_free_app; split; [assumption|apply error_free_inl]|].
      split; [rewrite HT, <- !app_assoc; reflexivity|].
      intros L _. rewrite Hlive by auto. unfold transit. simp. now rewrite Hph, Nat.eqb_refl.
    + eapply part_ok_same; [exact (inv_part _ _ I _ _ _ HS Hp')| | |]; auto.
      intros _. unfold transit. simp. rewrite Hph. destruct (Nat.eqb_spec i j); [contradiction|reflexivity].
  - (* recv error *)
    rewrite nth_error_map in Hp'. destruct (nth_error (upd _ _ _) j) as [p2|] eqn:Hp2; [|discriminate]. cbn in Hp'. injection Hp' as <-.
    assert (Ht : forall i, transit k i = []) by (intros; unfold transit; now rewrite Hph).
    apply upd_nth_inv in Hp2. destruct Hp2 as [[-> ->]|[Hij Hp2]].
    + pose proof (fanout_part _ k j S p e I ltac:(congruence) Ht HS Hp (fanout k e) eq_refl) as (Q1 & Q2 & Q3).
      split; [discriminate|]. split.
      * intros e' Fe. destruct (Q2 e' Fe) as (A & R & T & HA & EA & HT & Hl). exists A, R, T.
        rewrite send_part_got, send_part_queue, send_part_live in *. simp. auto.
      * rewrite send_part_live, send_part_queue in *. simp. auto.
    + eapply fanout_part; eauto. congruence.
  - (* transport error *)
    rewrite nth_error_map in Hp'. destruct (nth_error (k_parts k) j) as [p|] eqn:Hp; [|discriminate]. cbn in Hp'. injection Hp' as <-.
    eapply fanout_part; eauto; [congruence|]. intros i. unfold transit. now rewrite Hph.
  - (* exhausted *)
    eapply part_ok_same; [exact (inv_part _ _ I _ _ _ HS Hp')| | |]; auto. intros _. unfold transit. simp. now rewrite Hph.
  - (* send *)
    destruct (running_clean _ _ I ltac:(congruence)) as [F C].
    apply upd_nth_inv in Hp'. destruct Hp' as [[-> ->]|[Hij Hp']].
    + destruct (inv_part _ _ I _ _ _ HS Hp) as (P1 & P2 & P3). split; [|split]; simp; [|congruence|].
      * intros _. destruct (P1 F) as (A & T & HA & EA & HT & Hlive). rewrite send_part_got, send_part_queue, send_part_live,
          send_part_buf, send_part_src, send_part_lost. destruct (p_live p) eqn:L.
        -- exists A, []. split; [assumption|]. split; [assumption|].
           rewrite Hlive in HT by auto. unfold transit in HT. rewrite Hph, Nat.eqb_refl in HT.
           split; [rewrite HT, <- !app_assoc; reflexivity|]. intros _ _. unfold transit. reflexivity.
        -- exists A, T. do 3 (split; [assumption|]). discriminate.
      * rewrite send_part_live, send_part_queue. intros L. rewrite L. auto.
    + eapply part_ok_same; [exact (inv_part _ _ I _ _ _ HS Hp')| | |]; auto.
      intros _. unfold transit. simp. rewrite Hph. destruct (Nat.eqb_spec i j); [contradiction|reflexivity].
  - (* crash *)
    eapply part_ok_same; [exact (inv_part _ _ I _ _ _ HS Hp')| | |]; simp; auto; discriminate.
Qed.

(** A partition whose stream ended stays as it is. *)
Lemma ended_keep sources k k' : inv sources k -> step k k' ->
  k_phase k = Done -> k_phase k' = Done /\ k_failed k' = k_failed k /\ k_crashed k' = k_crashed k /\
  (Forall (fun p => p_src p = [] /\ p_buf p = []) (k_parts k) -> Forall (fun p => p_src p = [] /\ p_buf p = []) (k_parts k')).
Proof.
  intros I Hst D.
  cases Hst; simp; try congruence; try (destruct Hph as [?|[?|?]]; congruence);
    (do 3 (split; [auto|])); intros HA; rewrite Forall_forall in *;
    intros x Hx; apply In_nth_error in Hx; destruct Hx as [j Hj]; apply upd_nth_inv in Hj;
    (destruct Hj as [[_ ->]|[_ Hj]]; [|apply nth_error_In in Hj; auto]);
    apply nth_error_In in Hp; destruct (HA _ Hp) as [H1 H2]; simp; auto; congruence.
Qed.

Lemma step_ended sources k k' : inv sources k -> step k k' ->
  forall i S p, nth_error sources i = Some S -> nth_error (k_parts k') i = Some p -> ended_ok k' S p.
Proof.
  intros I Hst j S p' HS Hp' En.
  (* the partition before the step *)
  assert (Hlen : List.length (k_parts k) = List.length sources) by apply (inv_len _ _ I).
  assert (Hex : exists p0, nth_error (k_parts k) j = Some p0).
  { destruct (nth_error (k_parts k) j) eqn:E; [eauto|]. apply nth_error_None in E.
    assert (j < List.length sources) by (apply nth_error_Some; congruence). lia. }
  destruct Hex as [p0 Hp0].
  destruct (p_ended p0) eqn:E0.
  - (* it had already ended *)
    destruct (inv_ended _ _ I _ _ _ HS Hp0 E0) as (D & Q & Fe & Cl).
    destruct (ended_keep _ _ _ I Hst D) as (D' & F' & C' & HA').
    assert (Hsame : p_queue p' = [] /\ (forall e, In (inr e) (p_got p0) -> In (inr e) (p_got p')) /\
       (Forall (fun p => p_src p = [] /\ p_buf p = []) (k_parts k) -> p_got p' = p_got p0 /\ p_lost p' = p_lost p0)).
    { cases Hst; simp; try congruence; try (destruct Hph as [?|[?|?]]; congruence);
      apply upd_nth_inv in Hp'; (destruct Hp' as [[-> ->]|[_ Hp']]; [|replace p' with p0 by congruence; auto]);
      simp; replace p0 with p in * by congruence; try congruence; auto.
      split; [assumption|]. split; [auto|]. intros HA. rewrite Forall_forall in HA.
      apply nth_error_In in Hp. destruct (HA _ Hp). congruence. }
    destruct Hsame as (Q' & G' & L'). split; [assumption|]. split; [assumption|]. split.
    + intros e. rewrite F'. intros H. apply G', Fe, H.
    + rewrite F', C'. intros F C. destruct (Cl F C) as [HS2 HA]. destruct (L' HA) as [-> ->]. auto.
  - (* it ends with this step *)
    assert (Hend : forall q, p_ended q = true -> nth_error (k_parts k) j = Some q -> False) by (intros; congruence).
    cases Hst; simp; try congruence;
      try (apply upd_nth_inv in Hp'; destruct Hp' as [[-> ->]|[_ Hp']]; [|exfalso; eauto; fail]; simp; congruence);
      try (rewrite nth_error_map, Hp0 in Hp'; cbn in Hp'; injection Hp' as <-; rewrite send_part_ended in En; congruence).
    + (* poll_end *)
      apply upd_nth_inv in Hp'. destruct Hp' as [[-> ->]|[_ Hp']]; [|exfalso; eauto].
      replace p0 with p in * by congruence. simp. split; [assumption|]. split; [auto|].
      destruct (inv_part _ _ I _ _ _ HS Hp) as (P1 & P2 & P3). split.
      * intros e Fe. destruct (P2 e Fe) as (A & R & T & HA & EA & HT & Hlive).
        rewrite (Hlive Hl), Hq, !app_nil_r in HT. rewrite <- HT. apply in_or_app. right. now left.
      * intros F C.
        assert (K : k_cancelled k = false).
        { destruct (k_cancelled k) eqn:E; [|reflexivity]. rewrite (inv_cancelled _ _ I E _ _ Hp) in Hl. discriminate. }
        pose proof (inv_done _ _ I Hd F C K) as HA.
        assert (Hpe : p_src p = [] /\ p_buf p = []) by (rewrite Forall_forall in HA; apply HA; now apply nth_error_In in Hp).
        destruct Hpe as [Hs Hb].
        destruct (P1 F) as (A & T & HSA & EA & HT & Hlive).
        rewrite (Hlive Hl C), Hq in HT. unfold transit in HT. rewrite Hd in HT. rewrite !app_nil_r in HT.
        split; [rewrite HSA, Hb, Hs, HT; reflexivity|]. apply forall_upd; [assumption|]. simp. auto.
    + (* recv *)
      cbv zeta in Hp'. destruct (sender_of _ _ _); simp.
      * apply upd_nth_inv in Hp'. destruct Hp' as [[-> ->]|[_ Hp']]; [|exfalso; eauto]. simp. congruence.
      * rewrite nth_error_map in Hp'. destruct (nth_error (upd _ _ _) j) as [p2|] eqn:Hp2; [|discriminate]. cbn in Hp'. injection Hp' as <-.
        rewrite send_part_ended in En. apply upd_nth_inv in Hp2. destruct Hp2 as [[-> ->]|[_ Hp2]]; [|exfalso; eauto]. simp. congruence.
    + (* recv error *)
      rewrite nth_error_map in Hp'. destruct (nth_error (upd _ _ _) j) as [p2|] eqn:Hp2; [|discriminate]. cbn in Hp'. injection Hp' as <-.
      rewrite send_part_ended in En. apply upd_nth_inv in Hp2. destruct Hp2 as [[-> ->]|[_ Hp2]]; [|exfalso; eauto]. simp. congruence.
    + (* send *)
      apply upd_nth_inv in Hp'. destruct Hp' as [[-> ->]|[_ Hp']]; [|exfalso; eauto]. rewrite send_part_ended in En. congruence.
Qed.

Lemma forallb_all_dead (ps : list (@part data err)) i p :
  forallb (fun p => negb (p_live p)) ps = true -> nth_error ps i = Some p -> p_live p = false.
Proof. intros H Hn. rewrite forallb_forall in H. apply nth_error_In in Hn. apply H in Hn. now destruct (p_live p). Qed.

Ltac recv_case k i p Hp :=
  assert (Hi : i < List.length (k_parts k)) by (apply nth_error_Some; congruence);
  rewrite sender_of_tag in * by assumption; simp.

Lemma step_cancelled sources k k' : inv sources k -> step k k' ->
  k_cancelled k' = true -> forall i p, nth_error (k_parts k') i = Some p -> p_live p = false.
Proof.
  intros I Hst Hc' j p' Hp'. pose proof (inv_cancelled _ _ I) as HC.
  cases Hst; simp; try (now eapply HC; eauto);
    try (apply upd_nth_inv in Hp'; destruct Hp' as [[-> ->]|[_ Hp']]; [simp; eauto|eauto]; fail).
  - apply orb_true_iff in Hc'. destruct Hc' as [Hc'|Hc'].
    + apply upd_nth_inv in Hp'. destruct Hp' as [[-> ->]|[_ Hp']]; [reflexivity|eauto].
    + eapply forallb_all_dead; eauto.
  - rewrite nth_error_map in Hp'. destruct (nth_error _ j) eqn:E; [|discriminate]. injection Hp' as <-. rewrite send_part_live. eauto.
  - recv_case k i p Hp. apply upd_nth_inv in Hp'. destruct Hp' as [[-> ->]|[_ Hp']]; [simp; eauto|eauto].
  - rewrite nth_error_map in Hp'. destruct (nth_error _ j) eqn:E; [|discriminate]. injection Hp' as <-. rewrite send_part_live.
    apply upd_nth_inv in E. destruct E as [[-> ->]|[_ E]]; [simp; eauto|eauto].
  - rewrite nth_error_map in Hp'. destruct (nth_error _ j) eqn:E; [|discriminate]. injection Hp' as <-. rewrite send_part_live. eauto.
  - apply upd_nth_inv in Hp'. destruct Hp' as [[-> ->]|[_ Hp']]; [rewrite send_part_live; eauto|eauto].
Qed.

Lemma step_done sources k k' : inv sources k -> step k k' ->
  k_phase k' = Done -> k_failed k' = None -> k_crashed k' = false -> k_cancelled k' = false ->
  Forall (fun p => p_src p = [] /\ p_buf p = []) (k_parts k').
Proof.
  intros I Hst D F C K.
  assert (Hdn : k_phase k = Done \/ k_phase k <> Done).
  { destruct (k_phase k); (left; reflexivity) || (right; discriminate). }
  destruct Hdn as [Hdn|Hdn].
  - destruct (ended_keep _ _ _ I Hst Hdn) as (_ & F' & C' & HA). apply HA. apply (inv_done _ _ I); try congruence.
    clear - Hst K. cases Hst; simp; auto; try congruence.
    + now apply orb_false_iff in K.
    + now destruct (sender_of _ _ _).
  - cases Hst; simp; try congruence. recv_case k i p Hp. discriminate.
Qed.

Lemma step_polled sources k k' : inv sources k -> step k k' ->
  k_phase k' <> WaitPoll \/ k_first k' = true \/ k_cancelled k' = true \/
    forall i p, nth_error (k_parts k') i = Some p -> p_polled p = false.
Proof.
  intros I Hst. pose proof (inv_polled _ _ I) as H.
  cases Hst; simp; try (left; discriminate); try (left; congruence); try tauto.
  - destruct H as [H|[H|[H|H]]]; auto. right. right. right. intros j q Hq. apply upd_nth_inv in Hq.
    destruct Hq as [[-> ->]|[_ Hq]]; [simp; eauto|eauto].
  - destruct H as [H|[H|[H|H]]]; auto. right. right. right. intros j q Hq. apply upd_nth_inv in Hq.
    destruct Hq as [[-> ->]|[_ Hq]]; [simp; eauto|eauto].
  - destruct H as [H|[H|[H|H]]]; auto. rewrite (H _ _ Hp) in Hpo. discriminate.
  - destruct H as [H|[H|[H|H]]]; auto. rewrite (H _ _ Hp) in Hpo. discriminate.
  - destruct H as [H|[H|[H|H]]]; auto; [rewrite H; auto|]. right. right. right. intros j q Hq. apply upd_nth_inv in Hq.
    destruct Hq as [[-> ->]|[_ Hq]]; [simp; eauto|eauto].
  - left. recv_case k i p Hp. discriminate.
Qed.

(** Bytes buffered for one partition. *)
Definition live_bytes p : nat := if p_live p then bytes (p_queue p) else 0.
Definition flight k : nat := match k_phase k with Sending _ it => it_size it | _ => 0 end.
Lemma buffered_eq k : buffered k = list_sum (map live_bytes (k_parts k)) + flight k.
Proof. reflexivity. Qed.

Lemma bytes_inl it (q : list source_item) : bytes (inl it :: q) = it_size it + bytes q.
Proof. reflexivity. Qed.
Lemma bytes_inr e (q : list source_item) : bytes (inr e :: q) = bytes q.
Proof. reflexivity. Qed.

Lemma fanout_bytes (ps : list (@part data err)) e : list_sum (map live_bytes (map (fun p => send_part p (inr e)) ps)) = list_sum (map live_bytes ps).
Proof.
  induction ps as [|p ps IH]; [reflexivity|]. cbn [map].
  change (list_sum (?a :: ?l)) with (a + list_sum l). rewrite IH. f_equal.
  unfold live_bytes. rewrite send_part_live, send_part_queue. destruct (p_live p); [|reflexivity].
  rewrite bytes_app. cbn. lia.
Qed.

Ltac with_sum k i Hp f v := pose proof (upd_sum f (k_parts k) i _ v Hp).

Lemma step_bytes sources k k' : inv sources k -> step k k' ->
  k_crashed k' = false -> k_reserved k' = buffered k' + k_leaked k'.
Proof.
  intros I Hst C. pose proof (inv_bytes _ _ I) as HB. rewrite buffered_eq in *.
  cases Hst; unfold flight in *; simp; try (specialize (HB C));
   try (match goal with Hp : nth_error (k_parts ?k) ?i = Some ?p |- context [upd (k_parts ?k) ?i ?v] =>
          pose proof (upd_sum live_bytes (k_parts k) i _ v Hp) as HU;
          change (live_bytes p) with (if p_live p then bytes (p_queue p) else 0) in HU;
          change (live_bytes v) with (if p_live v then bytes (p_queue v) else 0) in HU end; simp);
   rewrite ?fanout_bytes.
  - destruct (p_live p); lia.
  - destruct (p_live p); lia.
  - destruct (p_live p); lia.
  - rewrite Hl, Hq, bytes_inl in HU. rewrite ?Hl. lia.
  - rewrite Hl, Hq, bytes_inr in HU. rewrite ?Hl. lia.
  - rewrite Hl, Hq in HU. rewrite ?Hl. lia.
  - rewrite Hl in HU. rewrite ?Hl. lia.
  - destruct Hph as [E|[E|E]]; rewrite E in HB; lia.
  - rewrite Hph in HB. lia.
  - rewrite Hph in HB. lia.
  - rewrite Hph in HB. lia.
  - rewrite Hph in HB. lia.
  - rewrite Hph in HB. lia.
  - assert (HC : k_crashed k = false) by (recv_case k i p Hp; exact C). specialize (HB HC). recv_case k i p Hp.
    rewrite Hph in HB. destruct (p_live p); lia.
  - rewrite Hph in HB. destruct (p_live p); lia.
  - rewrite Hph in HB. lia.
  - rewrite Hph in HB. lia.
  - rewrite Hph in HB. rewrite send_part_live, send_part_queue in HU.
    destruct (p_live p); rewrite ?bytes_app, ?bytes_inl in HU; try (change (bytes (@nil source_item)) with 0 in HU); lia.
  - discriminate.
Qed.

Lemma inv_step sources k k' : inv sources k -> step k k' -> inv sources k'.
Proof.
  intros I Hst. constructor.
  - eapply step_len; eauto.
  - eapply step_part; eauto.
  - eapply step_ended; eauto.
  - pose proof (inv_failed _ _ I) as HF. cases Hst; simp; auto; try congruence;
      try (intros X; specialize (HF X); congruence).
    + recv_case k i p Hp. intros X; specialize (HF X); congruence.
  - pose proof (inv_crashed _ _ I) as HF. cases Hst; simp; auto; try congruence;
      try (intros X; specialize (HF X); congruence).
    + recv_case k i p Hp. intros X; specialize (HF X); congruence.
  - pose proof (inv_sending _ _ I) as HF. cases Hst; simp; rewrite ?upd_length; intros j itj X; try congruence; eauto.
    recv_case k i p Hp. rewrite upd_length. congruence.
  - eapply step_cancelled; eauto.
  - eapply step_done; eauto.
  - eapply step_polled; eauto.
  - pose proof (inv_blocked _ _ I) as HF. cases Hst; simp; auto; try congruence. recv_case k i p Hp. congruence.
  - pose proof (inv_recv _ _ I) as HF. cases Hst; simp; auto; try congruence; try (intros X; specialize (HF X); lia).
    recv_case k i p Hp. congruence.
  - eapply step_bytes; eauto.
  - pose proof (inv_bound _ _ I) as HF. cases Hst; simp; auto;
      try (destruct HF as [HF|(s & Hs & HF)]; [left; lia|right; exists s; split; [assumption|lia]]).
    + recv_case k i p Hp. right. exists (it_size it). split; [apply in_or_app; right; now left|].
      pose proof (inv_recv _ _ I Hph). lia.
    + destruct HF as [HF|(s & Hs & HF)]; [left; destruct (p_live p); lia|right; exists s; split; [assumption|destruct (p_live p); lia]].
Qed.

Lemma inv_reachable sources k : conn_reachable start budget capacity bad sources k -> inv sources k.
Proof. intros H. refine (steps_invariant _ (inv sources) _ _ (inv_init sources) _ H). intros; eapply inv_step; eauto. Qed.

(** ** Every run is finite *)
Definition part_weight p : nat :=
  16 * List.length (p_src p) + 12 * List.length (p_buf p) + 4 * List.length (p_queue p) +
  (if p_live p then 1 + (if p_polled p then 0 else 1) + (if p_ended p then 0 else 1) else 0).
Definition phase_weight (ph : @phase data) : nat :=
  match ph with WaitPoll => 3 | Gate => 2 | Blocked => 1 | Recv => 1 | Sending _ _ => 8 | Done => 0 end.
Definition conn_weight k : nat :=
  list_sum (map part_weight (k_parts k)) + phase_weight (k_phase k) +
  (match k_phase k with Done => 0 | _ => 4 * List.length (k_parts k) end) + (if k_permit k then 2 else 0).

Lemma fanout_weight (ps : list (@part data err)) e :
  list_sum (map part_weight (map (fun p => send_part p (inr e)) ps)) <= list_sum (map part_weight ps) + 4 * List.length ps.
Proof.
  induction ps as [|p ps IH]; [cbn; lia|]. cbn [map List.length].
  change (list_sum (?a :: ?l)) with (a + list_sum l).
  enough (part_weight (send_part p (inr e)) <= part_weight p + 4) by lia.
  unfold part_weight. rewrite send_part_src, send_part_buf, send_part_live, send_part_queue, send_part_polled, send_part_ended.
  destruct (p_live p); rewrite ?app_length; cbn [List.length]; lia.
Qed.

Lemma step_weight k k' : step k k' -> conn_weight k' < conn_weight k.
Proof.
  intros Hst. unfold conn_weight. cases Hst; simp; rewrite ?upd_length;
   try (match goal with Hp : nth_error (k_parts ?k) ?i = Some ?p |- context [upd (k_parts ?k) ?i ?v] =>
          pose proof (upd_sum part_weight (k_parts k) i _ v Hp) as HU;
          let W := fresh "W" in let W' := fresh "W'" in
          pose (W := part_weight v); pose (W' := part_weight p);
          change (part_weight v) with W in HU; change (part_weight p) with W' in HU;
          unfold part_weight in W, W'; simp; subst W W' end); try rewrite Hph; cbn [phase_weight].
  - rewrite Hsrc, app_length in HU. cbn [List.length] in HU. lia.
  - destruct (p_src p); [congruence|]. cbn [List.length] in HU. lia.
  - rewrite Hl, Hpo in *. lia.
  - rewrite Hl, Hpo, Hq in *. cbn [List.length] in HU. destruct (k_permit k); lia.
  - rewrite Hl, Hpo, Hq in *. cbn [List.length] in HU. lia.
  - rewrite Hl, Hpo, Hq, He in *. cbn [List.length] in HU. lia.
  - rewrite Hl in *. cbn [List.length] in HU. lia.
  - destruct Hph as [-> |[-> | ->]]; cbn [phase_weight]; lia.
  - lia.
  - pose proof (fanout_weight (k_parts k) e). lia.
  - lia.
  - lia.
  - rewrite Hpe. lia.
  - recv_case k i p Hp. rewrite upd_length. rewrite Hb in HU. cbn [List.length] in HU. cbn [phase_weight]. lia.
  - pose proof (fanout_weight (upd (k_parts k) i (mkPart (p_src p) rest (p_lost p) (p_queue p) (p_live p) (p_polled p) (p_got p) (p_ended p))) e) as Hf.
    rewrite upd_length in Hf. rewrite Hb in HU. cbn [List.length] in HU. lia.
  - pose proof (fanout_weight (k_parts k) e). lia.
  - lia.
  - rewrite send_part_src, send_part_buf, send_part_live, send_part_queue, send_part_polled, send_part_ended in HU.
    destruct (p_live p); rewrite ?app_length in HU; cbn [List.length] in HU; lia.
  - destruct (k_phase k); try congruence; cbn [phase_weight]; lia.
Qed.

(** ** Progress *)
Lemma calm_upd k i p v :
  nth_error (k_parts k) i = Some p -> p_live v = p_live p -> p_lost v = p_lost p ->
  map p_live (upd (k_parts k) i v) = map p_live (k_parts k) /\ map p_lost (upd (k_parts k) i v) = map p_lost (k_parts k).
Proof.
  intros Hp H1 H2. split; apply nth_ext_error; intros j; rewrite !nth_error_map, upd_nth;
    (destruct (Nat.eqb_spec i j) as [->|]; [rewrite Hp; cbn; congruence|reflexivity]).
Qed.

Lemma search {A} (f : A -> bool) (l : list A) :
  (exists i a, nth_error l i = Some a /\ f a = true) \/ (forall i a, nth_error l i = Some a -> f a = false).
Proof.
  induction l as [|x l [(i & a & H)|H]].
  - right. intros [|i] a; discriminate.
  - left. exists (S i), a. exact H.
  - destruct (f x) eqn:E.
    + left. exists 0, x. auto.
    + right. intros [|i] a Ha; cbn in Ha; [congruence|eauto].
Qed.

Ltac calm_tac k i p v Hp :=
  destruct (calm_upd k i p v Hp eq_refl eq_refl) as [? ?]; unfold calm; simp; auto 10.

Lemma fanout_calm (ps : list (@part data err)) e :
  map p_live (map (fun p => send_part p (inr e)) ps) = map p_live ps /\
  map p_lost (map (fun p => send_part p (inr e)) ps) = map p_lost ps.
Proof.
  rewrite !map_map. split; apply map_ext; intros; [apply send_part_live|apply send_part_lost].
Qed.

Lemma progress sources k :
  inv sources k -> k_crashed k = false -> k_leaked k < budget -> 0 < capacity ->
  (forall i p, nth_error (k_parts k) i = Some p -> p_live p = true -> p_ended p = true) \/
  exists k', calm_step start budget capacity bad k k'.
Proof.
  intros I C HL Hcap.
  destruct (search (fun p => p_live p && negb (p_polled p)) (k_parts k)) as [(i & p & Hp & Hb)|Hpoll].
  { apply andb_true_iff in Hb. destruct Hb as [Hl Hb]. apply negb_true_iff in Hb. right. eexists.
    split; [eapply first_poll; eauto|].
    calm_tac k i p (mkPart (p_src p) (p_buf p) (p_lost p) (p_queue p) (p_live p) true (p_got p) (p_ended p)) Hp. }
  assert (Hpolled : forall i p, nth_error (k_parts k) i = Some p -> p_live p = true -> p_polled p = true).
  { intros i p Hp Hl. specialize (Hpoll _ _ Hp). rewrite Hl in Hpoll. now destruct (p_polled p). }
  destruct (search (fun p => p_live p && match p_queue p with [] => false | _ => true end) (k_parts k)) as [(i & p & Hp & Hb)|Hq].
  { apply andb_true_iff in Hb. destruct Hb as [Hl Hb]. right.
    destruct (p_queue p) as [|[it|e] rest] eqn:Hq; [discriminate| |].
    - eexists. split; [eapply poll_item; eauto|].
      calm_tac k i p (mkPart (p_src p) (p_buf p) (p_lost p) rest (p_live p) true (p_got p ++ [inl it]) (p_ended p)) Hp.
    - eexists. split; [eapply poll_error; eauto|].
      calm_tac k i p (mkPart (p_src p) (p_buf p) (p_lost p) rest (p_live p) true (p_got p ++ [inr e]) (p_ended p)) Hp. }
  assert (Hempty : forall i p, nth_error (k_parts k) i = Some p -> p_live p = true -> p_queue p = []).
  { intros i p Hp Hl. specialize (Hq _ _ Hp). rewrite Hl in Hq. now destruct (p_queue p). }
  destruct (search (fun p => p_live p && negb (p_ended p)) (k_parts k)) as [(i & p & Hp & Hb)|He].
  2: { left. intros i p Hp Hl. specialize (He _ _ Hp). rewrite Hl in He. now destruct (p_ended p). }
  right. apply andb_true_iff in Hb. destruct Hb as [Hl Hb]. apply negb_true_iff in Hb.
  assert (K : k_cancelled k = false).
  { destruct (k_cancelled k) eqn:E; [|reflexivity]. rewrite (inv_cancelled _ _ I E _ _ Hp) in Hl. discriminate. }
  destruct (k_phase k) eqn:Hph.
  - (* WaitPoll *)
    assert (k_first k = true).
    { destruct (inv_polled _ _ I) as [H|[H|[H|H]]]; [congruence|assumption|congruence|].
      specialize (H _ _ Hp). rewrite (Hpolled _ _ Hp Hl) in H. discriminate. }
    eexists. split; [apply demux_connect; auto|]. unfold calm; simp; auto 10.
  - (* Gate *)
    destruct (Nat.lt_ge_cases (k_reserved k) budget).
    + eexists. split; [apply demux_gate_open; auto|]. unfold calm; simp; auto 10.
    + eexists. split; [apply demux_gate_closed; auto|]. unfold calm; simp; auto 10.
  - (* Blocked *)
    destruct (k_permit k) eqn:Hpe.
    + eexists. split; [apply demux_notified; auto|]. unfold calm; simp; auto 10.
    + pose proof (inv_blocked _ _ I Hph Hpe) as HB. rewrite (inv_bytes _ _ I C), buffered_eq in HB.
      unfold flight in HB. rewrite Hph in HB.
      assert (HZ : list_sum (map live_bytes (k_parts k)) = 0).
      { clear - Hempty. induction (k_parts k) as [|x ps IH]; [reflexivity|]. cbn [map].
        change (list_sum (?a :: ?l)) with (a + list_sum l). rewrite IH.
        - unfold live_bytes. destruct (p_live x) eqn:E; [|reflexivity]. now rewrite (Hempty 0 x eq_refl E).
        - intros i p Hp. exact (Hempty (Datatypes.S i) p Hp). }
      lia.
  - (* Recv *)
    destruct (search (fun p => match p_buf p with [] => false | _ => true end) (k_parts k)) as [(j & q & Hj & Hq2)|Hbuf].
    + destruct (p_buf q) as [|[it|e] rest] eqn:Hbq; [discriminate| |].
      * eexists. split; [eapply demux_recv; eauto|]. cbv zeta. recv_case k j q Hj.
        calm_tac k j q (mkPart (p_src q) rest (p_lost q) (p_queue q) (p_live q) (p_polled q) (p_got q) (p_ended q)) Hj.
      * eexists. split; [eapply demux_recv_error; eauto|].
        destruct (calm_upd k j q (mkPart (p_src q) rest (p_lost q) (p_queue q) (p_live q) (p_polled q) (p_got q) (p_ended q)) Hj eq_refl eq_refl) as [H1 H2].
        unfold calm. simp. destruct (fanout_calm (upd (k_parts k) j (mkPart (p_src q) rest (p_lost q) (p_queue q) (p_live q) (p_polled q) (p_got q) (p_ended q))) e) as [H3 H4].
        rewrite H3, H4. do 4 (split; [assumption || reflexivity|]). right. exists q, e. split; [now apply nth_error_In in Hj|].
        rewrite Hbq. split; [now left|reflexivity].
    + destruct (search (fun p => match p_src p with [] => false | _ => true end) (k_parts k)) as [(j & q & Hj & Hq2)|Hsrc].
      * destruct (p_src q) as [|m rest] eqn:Hsq; [discriminate|].
        assert (Hbq : p_buf q = []) by (specialize (Hbuf _ _ Hj); now destruct (p_buf q)).
        eexists. split; [eapply worker_pull; eauto; rewrite Hbq; assumption|].
        calm_tac k j q (mkPart rest (p_buf q ++ [m]) (p_lost q) (p_queue q) (p_live q) (p_polled q) (p_got q) (p_ended q)) Hj.
      * eexists. split; [apply demux_exhausted; auto|unfold calm; simp; auto 10].
        apply Forall_forall. intros x Hx. apply In_nth_error in Hx. destruct Hx as [j Hj].
        specialize (Hsrc _ _ Hj). specialize (Hbuf _ _ Hj). destruct (p_src x), (p_buf x); try discriminate; auto.
  - (* Sending *)
    pose proof (inv_sending _ _ I _ _ Hph) as Hi. destruct (nth_error (k_parts k) i0) as [q|] eqn:Hj; [|apply nth_error_None in Hj; lia].
    eexists. split; [eapply demux_send; eauto|].
    destruct (calm_upd k i0 q (send_part q (inl it)) Hj (send_part_live _ _) (send_part_lost _ _)) as [? ?].
    unfold calm; simp; auto 10.
  - (* Done *)
    eexists. split; [eapply (poll_end _ _ _ _ k i p); eauto|].
    calm_tac k i p (mkPart (p_src p) (p_buf p) (p_lost p) [] (p_live p) true (p_got p) true) Hp.
Qed.

Lemma calm_leaked k k' : calm_step start budget capacity bad k k' -> k_leaked k' = k_leaked k.
Proof.
  intros [Hst Hcm]. cases Hst; simp; auto.
  - destruct Hcm as (Hcm & _). simp. exfalso. apply (f_equal (fun l => nth_error l i)) in Hcm.
    rewrite !nth_error_map, upd_nth, Nat.eqb_refl, Hp in Hcm. cbn in Hcm. congruence.
  - destruct (sender_of _ _ _); reflexivity.
Qed.

Lemma drains sources k :
  inv sources k -> k_crashed k = false -> k_leaked k < budget -> 0 < capacity ->
  exists k', steps (calm_step start budget capacity bad) k k' /\
    forall i p, nth_error (k_parts k') i = Some p -> p_live p = true -> p_ended p = true.
Proof.
  remember (conn_weight k) as w. revert k Heqw. induction w as [w IH] using lt_wf_ind.
  intros k -> I C HL Hcap. destruct (progress sources k I C HL Hcap) as [H|(k1 & Hst)].
  - exists k. split; [constructor|assumption].
  - pose proof (calm_leaked _ _ Hst) as HL1. destruct Hst as [Hst Hc].
    destruct (IH (conn_weight k1)) with (k := k1) as (k2 & Hr & H2); auto.
    + now apply step_weight.
    + eapply inv_step; eauto.
    + destruct Hc as (_ & _ & -> & _). assumption.
    + lia.
    + exists k2. split; [|assumption]. eapply steps_trans; [eapply steps_one; split; eauto|eassumption].
Qed.

(** ** Stalls *)
Definition stalled k : Prop := (k_phase k = Gate \/ k_phase k = Blocked) /\ k_cancelled k = false.

Lemma stalled_step k k' :
  stalled k -> k_crashed k = false -> budget <= k_reserved k -> calm_step start budget capacity bad k k' ->
  stalled k' /\ (forall i, delivered k' i = delivered k i).
Proof.
  intros [Hph0 K] Hnc HR [Hst Hcm].
  assert (Hdn : k_phase k <> Done) by (destruct Hph0; congruence).
  assert (Hphase : (k_phase k' = Gate \/ k_phase k' = Blocked) /\ k_cancelled k' = false).
  { destruct Hcm as (_ & _ & Hcr & Hca & _). split; [|congruence].
    cases Hst; simp; auto; try (destruct Hph0; congruence); try congruence; try lia. }
  split; [exact Hphase|]. destruct Hphase as [Hphase _]. unfold delivered. intros j.
  assert (G : forall i p v, nth_error (k_parts k) i = Some p -> p_got v ++ p_queue v = p_got p ++ p_queue p ->
     option_map (fun p => p_got p ++ p_queue p) (nth_error (upd (k_parts k) i v) j) =
     option_map (fun p => p_got p ++ p_queue p) (nth_error (k_parts k) j)).
  { intros i p v Hp Hv. rewrite upd_nth. destruct (Nat.eqb_spec i j) as [->|]; [|reflexivity]. rewrite Hp. cbn. congruence. }
  cases Hst; simp; try (destruct Hph0; congruence); auto; try (eapply G; eauto; simp; auto; fail).
  - eapply G; eauto. simp. rewrite Hq, <- app_assoc. reflexivity.
  - eapply G; eauto. simp. rewrite Hq, <- app_assoc. reflexivity.
  - exfalso. destruct Hcm as (Hcm & _). simp. apply (f_equal (fun l => nth_error l i)) in Hcm.
    rewrite !nth_error_map, upd_nth, Nat.eqb_refl, Hp in Hcm. cbn in Hcm. congruence.
Qed.

Lemma stalled_leak sources k :
  inv sources k -> k_crashed k = false -> stalled k -> budget <= k_leaked k ->
  forall k', steps (calm_step start budget capacity bad) k k' ->
    stalled k' /\ (forall i, delivered k' i = delivered k i) /\ inv sources k' /\ k_crashed k' = false /\ k_leaked k' = k_leaked k.
Proof.
  intros I C Hs HL k' H. induction H as [|s1 s2 s3 H IH Hst]; [auto|].
  destruct (IH I C Hs HL) as (S1 & D1 & I1 & C1 & L1). 
  assert (HR : budget <= k_reserved s2) by (rewrite (inv_bytes _ _ I1 C1); lia).
  destruct (stalled_step _ _ S1 C1 HR Hst) as [S2 D2]. split; [assumption|]. split; [intros; rewrite D2; apply D1|].
  split; [eapply inv_step; eauto; apply Hst|]. split; [destruct Hst as [_ (_ & _ & -> & _)]; assumption|].
  rewrite (calm_leaked _ _ Hst). assumption.
Qed.

Lemma sum_ge {A} (f : A -> nat) l i a : nth_error l i = Some a -> f a <= list_sum (map f l).
Proof.
  revert i. induction l as [|x l IH]; intros [|i] H; cbn in H; try discriminate; cbn [map];
    change (list_sum (?a :: ?l)) with (a + list_sum l).
  - injection H as ->. lia.
  - specialize (IH _ H). lia.
Qed.

(** A stream that exists but is not polled. *)
Definition idle k i : Prop := exists p, nth_error (k_parts k) i = Some p /\ p_live p = true /\ p_polled p = false.

Lemma stalled_idle sources k i :
  inv sources k -> k_crashed k = false -> stalled k ->
  (exists p, nth_error (k_parts k) i = Some p /\ budget <= bytes (p_queue p) /\ p_got p = []) ->
  forall k', steps (fun a b => idle a i /\ calm_step start budget capacity bad a b /\ idle b i) k k' ->
    stalled k' /\ (forall j, delivered k' j = delivered k j) /\ inv sources k' /\ k_crashed k' = false /\
    (exists p, nth_error (k_parts k') i = Some p /\ budget <= bytes (p_queue p) /\ p_got p = []).
Proof.
  intros I C Hs HL k' H. induction H as [|s1 s2 s3 H IH Hst]; [auto 10|].
  destruct (IH I C Hs HL) as (S1 & D1 & I1 & C1 & (p & Hp & Hb & Hg)).
  destruct Hst as (Hi2 & Hst & Hi3).
  assert (HR : budget <= k_reserved s2).
  { rewrite (inv_bytes _ _ I1 C1), buffered_eq. pose proof (sum_ge live_bytes _ _ _ Hp) as HG.
    destruct Hi2 as (p2 & Hp2 & Hl2 & _). replace p2 with p in * by congruence. unfold live_bytes in HG at 1. rewrite Hl2 in HG. lia. }
  destruct (stalled_step _ _ S1 C1 HR Hst) as [S2 D2]. split; [assumption|]. split; [intros; rewrite D2; apply D1|].
  split; [eapply inv_step; eauto; apply Hst|]. split; [destruct Hst as [_ (_ & _ & -> & _)]; assumption|].
  destruct Hi3 as (p3 & Hp3 & Hl3 & Hpo3). exists p3. split; [assumption|].
  assert (Hg3 : p_got p3 = p_got p).
  { destruct Hi2 as (p2 & Hp2 & Hl2 & Hpo2). replace p2 with p in * by congruence. clear p2.
    destruct Hst as [Hst _]. destruct S1 as [Hph1 _]. clear - Hp3 Hp Hst Hpo2 Hpo3 Hph1.
    rename i into i1. rename p into p1. rename Hp into Hp1.
    cases Hst; simp; try congruence; try (destruct Hph1; congruence);
      apply upd_nth_inv in Hp3; (destruct Hp3 as [[-> ->]|[_ Hp3]]; [|congruence]); simp; congruence. }
  specialize (D2 i). unfold delivered in D2. rewrite Hp3, Hp in D2. cbn in D2. injection D2 as D2.
  rewrite Hg3, Hg in D2. cbn in D2. rewrite D2. split; [assumption|congruence].
Qed.
End Run.
End Proofs.
