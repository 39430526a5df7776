(** Proofs about the worker's task registry. *)
From Verif Require Import Base CiuModel CiuProofs PoolProofs TaskModel TaskSpec.

(** * The write-once slot *)
Section Slot.
Context {T : Type}.
Implicit Types s : swmr T.

Record swmr_ok s : Prop := {
  so_value : sw_value s = first_write s;
  so_writes : forall i v b, nth_error (sw_writes s) i = Some (v, b) -> (b = true <-> i = 0);
  so_readers : forall i d r, nth_error (sw_readers s) i = Some (mkReader d (Some r)) -> r = None \/ r = first_write s
}.

Lemma first_write_snoc s v b now rds x w : first_write s = Some w ->
  first_write (mkSwmr x (sw_writes s ++ [(v, b)]) now rds) = Some w.
Proof. unfold first_write. cbn. destruct (sw_writes s) as [|[v' b'] l]; cbn; congruence. Qed.

Lemma swmr_ok_reachable s : swmr_reachable s -> swmr_ok s.
Proof.
  intros H. refine (steps_invariant _ swmr_ok _ _ _ _ H); clear s H.
  - constructor; cbn; [reflexivity| |]; intros [|i]; discriminate.
  - intros s s' [V W R] Hst. destruct Hst as [s v|s d|s|s i d Hi].
    + unfold swmr_write. destruct (sw_value s) as [w|] eqn:E.
      * constructor.
        -- cbn [sw_value]. symmetry. apply first_write_snoc. congruence.
        -- cbn [sw_writes]. intros i u b Hi. apply nth_snoc in Hi. destruct Hi as [[_ Hi]|[-> Hi]]; [eauto|].
           injection Hi as -> ->. split; [discriminate|]. intros H0. unfold first_write in V.
           destruct (sw_writes s); [discriminate|discriminate].
        -- cbn [sw_readers]. intros i d r Hi. destruct (R _ _ _ Hi) as [-> | ->]; [now left|right].
           symmetry. rewrite <- V. apply first_write_snoc. congruence.
      * assert (Hnil : sw_writes s = []) by (unfold first_write in V; destruct (sw_writes s) as [|[? ?] ?]; congruence).
        constructor.
        -- unfold first_write. cbn. now rewrite Hnil.
        -- cbn. rewrite Hnil. intros [|i] u b Hi; cbn in Hi; [injection Hi as <- <-; tauto|destruct i; discriminate].
        -- cbn. intros i d r Hi. destruct (R _ _ _ Hi) as [-> | ->]; [now left|]. rewrite <- V. now left.
    + constructor; [exact V|exact W|]. cbn. intros i d' r Hi. apply nth_snoc in Hi.
      destruct Hi as [[_ Hi]|[_ Hi]]; [eauto|discriminate].
    + constructor; [exact V|exact W|]. exact R.
    + constructor; [exact V|exact W|]. cbn. intros j d' r Hj. apply upd_nth_cases in Hj.
      destruct Hj as [[_ Hj]|[_ Hj]]; [|exact (R _ _ _ Hj)]. injection Hj as _ Hj. unfold read_poll in Hj.
      change (first_write _) with (first_write s). rewrite <- V.
      destruct (sw_value s); [right; congruence|]. destruct (_ <=? _); [left|]; congruence.
Qed.
End Slot.

(** * The registry *)
Section Worker.
Context {plan head err : Type}.
Variable insert : head -> plan -> plan + err.
Notation worker := (worker plan head err).
Notation entry := (entry plan err).
Notation channel := (channel plan err).
Notation drequest := (drequest plan head err).
Implicit Types (w : worker) (es : list entry) (ch : channel) (r : drequest).

Definition published (ph : phase plan) : Prop :=
  match ph with Building | Rejected => False | _ => True end.

Definition ch_ok (keys : list nat) es ch : Prop :=
  nth_error keys (ch_entry ch) = Some (ch_key ch) /\
  match ch_phase ch with
  | Building | Rejected => True
  | BuildFailed => exists en e, nth_error es (ch_entry ch) = Some en /\ en_value en = Some (ch_build ch) /\ ch_build ch = inr e
  | Listening => exists en b, nth_error es (ch_entry ch) = Some en /\ en_value en = Some (ch_build ch) /\ ch_build ch = inl b
  | Finished s | Closed s =>
      exists en b, nth_error es (ch_entry ch) = Some en /\ en_value en = Some (ch_build ch) /\ ch_build ch = inl b /\
        forall p, s = Some p -> en_final en = Some (inl p) /\ ch_collect ch = true
  end.

Definition rq_ok (keys : list nat) es r : Prop :=
  nth_error keys (dr_entry r) = Some (dr_key r) /\
  match dr_answer r with
  | None | Some TimedOut => True
  | Some (Plan p) => exists en b, nth_error es (dr_entry r) = Some en /\ en_value en = Some (inl b) /\ en_final en = Some (inl p)
  | Some (Failed e) => exists en, nth_error es (dr_entry r) = Some en /\
      (en_value en = Some (inr e) \/ exists b, en_value en = Some (inl b) /\ en_final en = Some (inr e))
  end.

Definition en_ok (chs : list channel) (rqs : list drequest) (i : nat) (en : entry) : Prop :=
  (forall v, en_value en = Some v -> exists j ch, nth_error chs j = Some ch /\ ch_entry ch = i /\ ch_build ch = v /\ published (ch_phase ch)) /\
  (forall f, en_final en = Some f -> exists b j r, en_value en = Some (inl b) /\ nth_error rqs j = Some r /\ dr_entry r = i /\
     dr_answer r <> None /\ f = insert (dr_head r) b).

Record wk_ok (keys : list nat) w : Prop := {
  wo_len : List.length keys = List.length (wk_entries w);
  wo_cache : forall k e, In (k, e) (wk_cache w) -> nth_error keys e = Some k;
  wo_ch : forall j ch, nth_error (wk_channels w) j = Some ch -> ch_ok keys (wk_entries w) ch;
  wo_rq : forall j r, nth_error (wk_requests w) j = Some r -> rq_ok keys (wk_entries w) r;
  wo_en : forall i en, nth_error (wk_entries w) i = Some en -> en_ok (wk_channels w) (wk_requests w) i en;
  wo_uniq : forall j j' ch ch', nth_error (wk_channels w) j = Some ch -> nth_error (wk_channels w) j' = Some ch' ->
     ch_entry ch = ch_entry ch' -> published (ch_phase ch) -> published (ch_phase ch') -> j = j'
}.

Definition es_le es es' : Prop :=
  forall i en, nth_error es i = Some en -> exists en', nth_error es' i = Some en' /\
    (forall v, en_value en = Some v -> en_value en' = Some v) /\ (forall v, en_final en = Some v -> en_final en' = Some v).

Lemma es_le_refl es : es_le es es.
Proof. intros i en H. exists en. auto. Qed.
Lemma es_le_snoc es x : es_le es (es ++ [x]).
Proof. intros i en H. exists en. split; [now apply nth_snoc_old|auto]. Qed.
Lemma es_le_upd es i en en' : nth_error es i = Some en ->
  (forall v, en_value en = Some v -> en_value en' = Some v) -> (forall v, en_final en = Some v -> en_final en' = Some v) ->
  es_le es (upd es i en').
Proof.
  intros Hi Hv Hf j x Hj. destruct (Nat.eq_dec i j) as [<-|Hd].
  - exists en'. split; [eapply upd_nth_same; eauto|]. rewrite Hi in Hj. injection Hj as <-. auto.
  - exists x. split; [now rewrite upd_nth_diff|auto].
Qed.

Lemma ch_ok_mono keys keys' es es' ch : ch_ok keys es ch -> (forall i k, nth_error keys i = Some k -> nth_error keys' i = Some k) ->
  es_le es es' -> ch_ok keys' es' ch.
Proof.
  intros [H1 H2] Hk He. split; [auto|]. destruct (ch_phase ch); auto.
  - destruct H2 as (en & b & Hn & Hv & Hb). destruct (He _ _ Hn) as (en' & ? & Hv' & _). exists en', b. auto.
  - destruct H2 as (en & b & Hn & Hv & Hb). destruct (He _ _ Hn) as (en' & ? & Hv' & _). exists en', b. auto.
  - destruct H2 as (en & b & Hn & Hv & Hb & Hp). destruct (He _ _ Hn) as (en' & ? & Hv' & Hf'). exists en', b.
    do 3 (split; [auto|]). intros p E. destruct (Hp p E). auto.
  - destruct H2 as (en & b & Hn & Hv & Hb & Hp). destruct (He _ _ Hn) as (en' & ? & Hv' & Hf'). exists en', b.
    do 3 (split; [auto|]). intros p E. destruct (Hp p E). auto.
Qed.
Lemma rq_ok_mono keys keys' es es' r : rq_ok keys es r -> (forall i k, nth_error keys i = Some k -> nth_error keys' i = Some k) ->
  es_le es es' -> rq_ok keys' es' r.
Proof.
  intros [H1 H2] Hk He. split; [auto|]. destruct (dr_answer r) as [[p|e|]|]; auto.
  - destruct H2 as (en & b & Hn & Hv & Hb). destruct (He _ _ Hn) as (en' & ? & Hv' & Hf'). exists en', b. auto.
  - destruct H2 as (en & Hn & Hv). destruct (He _ _ Hn) as (en' & ? & Hv' & Hf'). exists en'. split; [assumption|].
    destruct Hv as [Hv|(b & Hv & Hf)]; [left; auto|right; exists b; auto].
Qed.

(** Channels and requests only move on. *)
Definition chs_le (a b : list channel) : Prop :=
  forall j ch, nth_error a j = Some ch -> exists ch', nth_error b j = Some ch' /\ ch_key ch' = ch_key ch /\
    ch_entry ch' = ch_entry ch /\ ch_build ch' = ch_build ch /\ (published (ch_phase ch) -> published (ch_phase ch')).
Definition rqs_le (a b : list drequest) : Prop :=
  forall j r, nth_error a j = Some r -> exists r', nth_error b j = Some r' /\ dr_key r' = dr_key r /\
    dr_entry r' = dr_entry r /\ dr_head r' = dr_head r /\ (dr_answer r <> None -> dr_answer r' <> None).
Lemma chs_le_refl a : chs_le a a.
Proof. intros j ch H. exists ch. auto. Qed.
Lemma rqs_le_refl a : rqs_le a a.
Proof. intros j ch H. exists ch. auto. Qed.
Lemma chs_le_snoc a x : chs_le a (a ++ [x]).
Proof. intros j ch H. exists ch. split; [now apply nth_snoc_old|auto]. Qed.
Lemma rqs_le_snoc a x : rqs_le a (a ++ [x]).
Proof. intros j ch H. exists ch. split; [now apply nth_snoc_old|auto]. Qed.
Lemma chs_le_upd a i ch ph : nth_error a i = Some ch -> (published (ch_phase ch) -> published ph) ->
  chs_le a (upd a i (mkChannel (ch_key ch) (ch_entry ch) (ch_build ch) (ch_collect ch) ph)).
Proof.
  intros Hi Hp j x Hj. destruct (Nat.eq_dec i j) as [<-|Hd].
  - rewrite Hi in Hj. injection Hj as <-. eexists. split; [eapply upd_nth_same; eauto|]. cbn. auto.
  - exists x. split; [now rewrite upd_nth_diff|auto].
Qed.
Lemma rqs_le_upd a i r ans : nth_error a i = Some r ->
  rqs_le a (upd a i (mkDrequest (dr_key r) (dr_head r) (dr_entry r) (Some ans))).
Proof.
  intros Hi j x Hj. destruct (Nat.eq_dec i j) as [<-|Hd].
  - rewrite Hi in Hj. injection Hj as <-. eexists. split; [eapply upd_nth_same; eauto|]. cbn.
    do 3 (split; [reflexivity|]). discriminate.
  - exists x. split; [now rewrite upd_nth_diff|auto].
Qed.
Lemma en_ok_mono chs chs' rqs rqs' i en : en_ok chs rqs i en -> chs_le chs chs' -> rqs_le rqs rqs' -> en_ok chs' rqs' i en.
Proof.
  intros [H1 H2] Hc Hr. split.
  - intros v Hv. destruct (H1 v Hv) as (j & ch & Hj & He & Hb & Hp). destruct (Hc _ _ Hj) as (ch' & Hj' & _ & He' & Hb' & Hp').
    exists j, ch'. split; [assumption|]. split; [congruence|]. split; [congruence|auto].
  - intros f Hf. destruct (H2 f Hf) as (b & j & r & Hv & Hj & He & Ha & E). destruct (Hr _ _ Hj) as (r' & Hj' & _ & He' & Hh & Ha').
    exists b, j, r'. do 2 (split; [assumption|]). split; [congruence|]. split; [auto|congruence].
Qed.

Lemma find_some_key (c : list (nat * nat)) k x : find (fun x => fst x =? k) c = Some x -> In x c /\ fst x = k.
Proof. intros H. apply find_some in H. destruct H as [H1 H2]. apply Nat.eqb_eq in H2. auto. Qed.

Lemma get_with_ok keys w k es c e : wk_ok keys w -> get_with w k = (es, c, e) ->
  exists keys', (forall i k, nth_error keys i = Some k -> nth_error keys' i = Some k) /\ nth_error keys' e = Some k /\
    wk_ok keys' (mkWorker es c (wk_channels w) (wk_requests w)).
Proof.
  intros I. unfold get_with, cached. destruct (find _ (wk_cache w)) as [[k' e']|] eqn:E; intros H; injection H as <- <- <-.
  - apply find_some_key in E. destruct E as [Hin Hk]. cbn in Hk. subst k'. exists keys. split; [auto|].
    split; [eapply wo_cache; eauto|]. destruct w; exact I.
  - exists (keys ++ [k]).
    assert (Hle : forall i k0, nth_error keys i = Some k0 -> nth_error (keys ++ [k]) i = Some k0) by (intros; now apply nth_snoc_old).
    assert (Hlast : nth_error (keys ++ [k]) (List.length (wk_entries w)) = Some k).
    { rewrite <- (wo_len _ _ I), nth_error_app2, Nat.sub_diag; [reflexivity|lia]. }
    split; [exact Hle|]. split; [exact Hlast|]. constructor; cbn.
    + rewrite !app_length. cbn. rewrite (wo_len _ _ I). reflexivity.
    + intros k0 e0 [H|H]; [injection H as <- <-; exact Hlast|]. apply Hle. eapply wo_cache; eauto.
    + intros j ch H. eapply ch_ok_mono; [eapply wo_ch; eauto|exact Hle|apply es_le_snoc].
    + intros j r H. eapply rq_ok_mono; [eapply wo_rq; eauto|exact Hle|apply es_le_snoc].
    + intros i en H. apply nth_snoc in H. destruct H as [[_ H]|[_ ->]]; [now apply (wo_en _ _ I)|]. split; cbn; discriminate.
    + exact (wo_uniq _ _ I).
Qed.

(** Moving one channel to another phase. *)
Lemma move_channel keys w i ch ph c : wk_ok keys w -> nth_error (wk_channels w) i = Some ch ->
  (published (ch_phase ch) -> published ph) -> (published ph -> published (ch_phase ch)) ->
  ch_ok keys (wk_entries w) (mkChannel (ch_key ch) (ch_entry ch) (ch_build ch) (ch_collect ch) ph) ->
  (forall x, In x c -> In x (wk_cache w)) ->
  wk_ok keys (mkWorker (wk_entries w) c
    (upd (wk_channels w) i (mkChannel (ch_key ch) (ch_entry ch) (ch_build ch) (ch_collect ch) ph)) (wk_requests w)).
Proof.
  intros I Hi Hp Hp' Hok Hc. constructor; cbn.
  - apply I.
  - intros k e H. apply (wo_cache _ _ I). auto.
  - intros j x H. apply upd_nth_cases in H. destruct H as [[_ ->]|[_ H]]; [assumption|eapply wo_ch; eauto].
  - exact (wo_rq _ _ I).
  - intros j en H. eapply en_ok_mono; [eapply wo_en; eauto|now apply chs_le_upd|apply rqs_le_refl].
  - intros j j' x x' H H' He Hx Hx'. apply upd_nth_cases in H, H'. destruct H as [[<- ->]|[_ H]], H' as [[<- ->]|[_ H']]; cbn in *.
    + reflexivity.
    + eapply (wo_uniq _ _ I); eauto.
    + eapply (wo_uniq _ _ I); eauto.
    + eapply (wo_uniq _ _ I); eauto.
Qed.

(** Answering one request without touching entries. *)
Lemma move_request keys w i r a : wk_ok keys w -> nth_error (wk_requests w) i = Some r ->
  rq_ok keys (wk_entries w) (mkDrequest (dr_key r) (dr_head r) (dr_entry r) (Some a)) ->
  wk_ok keys (mkWorker (wk_entries w) (wk_cache w) (wk_channels w)
    (upd (wk_requests w) i (mkDrequest (dr_key r) (dr_head r) (dr_entry r) (Some a)))).
Proof.
  intros I Hi Hok. constructor; cbn.
  - apply I.
  - apply I.
  - apply I.
  - intros j x H. apply upd_nth_cases in H. destruct H as [[_ ->]|[_ H]]; [assumption|eapply wo_rq; eauto].
  - intros j en H. eapply en_ok_mono; [eapply wo_en; eauto|apply chs_le_refl|now apply rqs_le_upd].
  - apply I.
Qed.

Lemma uncache_in c k x : In x (uncache c k) -> In x c.
Proof. unfold uncache. rewrite filter_In. tauto. Qed.

Lemma wk_ok_step keys w w' : wk_ok keys w -> worker_step insert w w' -> exists keys', wk_ok keys' w'.
Proof.
  intros I Hst. destruct Hst as [w k build collect|w i ch en Hi Hph Hen|w i ch en Hi Hph Hen|w i ch sent Hi Hph|w k h
    |w i r en base Hi Ha Hen Hv|w i r en e Hi Ha Hen Hv|w i r en Hi Ha Hen Hv|w k].
  - destruct (get_with w k) as [[es c] e] eqn:E. destruct (get_with_ok _ _ _ _ _ _ I E) as (keys' & _ & Hk & I').
    exists keys'. destruct I' as [A B C D F G]. cbn in *. constructor; cbn.
    + assumption.
    + assumption.
    + intros j ch H. apply nth_snoc in H. destruct H as [[_ H]|[_ ->]]; [eauto|]. split; cbn; auto.
    + assumption.
    + intros j en H. eapply en_ok_mono; [eapply F; eauto|apply chs_le_snoc|apply rqs_le_refl].
    + intros j j' ch ch' H H'. apply nth_snoc in H, H'. destruct H as [[_ H]|[_ ->]], H' as [[_ H']|[_ ->]]; cbn; try contradiction.
      eapply G; eauto.
  - destruct (wo_ch _ _ I _ _ Hi) as [Hk _].
    destruct (en_value en) as [v|] eqn:Ev.
    { exists keys. eapply move_channel; eauto.
      - rewrite Hph. cbn. auto.
      - cbn. tauto.
      - split; cbn; auto. }
    set (en' := mkEntry (Some (ch_build ch)) (en_final en)).
    set (ph := match ch_build ch with inl _ => Listening | inr _ => BuildFailed end).
    assert (Hpub : published ph) by (unfold ph; destruct (ch_build ch); exact Logic.I).
    assert (Hle : es_le (wk_entries w) (upd (wk_entries w) (ch_entry ch) en')).
    { apply es_le_upd with (en := en); [assumption|rewrite Ev; discriminate|auto]. }
    assert (Hle2 : chs_le (wk_channels w) (upd (wk_channels w) i (mkChannel (ch_key ch) (ch_entry ch) (ch_build ch) (ch_collect ch) ph))).
    { apply chs_le_upd; auto. }
    exists keys. constructor; cbn.
    + rewrite upd_length. apply I.
    + apply I.
    + intros j x H. apply upd_nth_cases in H. destruct H as [[_ ->]|[_ H]].
      * split; cbn; [assumption|]. unfold ph. destruct (ch_build ch) as [b|e] eqn:Eb.
        -- exists en', b. split; [eapply upd_nth_same; eauto|]. unfold en'. cbn. auto.
        -- exists en', e. split; [eapply upd_nth_same; eauto|]. unfold en'. cbn. auto.
      * eapply ch_ok_mono; [eapply wo_ch; eauto|auto|assumption].
    + intros j x H. eapply rq_ok_mono; [eapply wo_rq; eauto|auto|assumption].
    + intros j x H. apply upd_nth_cases in H. destruct H as [[<- ->]|[_ H]].
      * split; cbn.
        -- intros v Hv. injection Hv as <-. exists i. eexists. split; [eapply upd_nth_same; eauto|]. cbn. auto.
        -- intros f Hf. destruct (wo_en _ _ I _ _ Hen) as [_ H2]. destruct (H2 f Hf) as (b & ? & ? & Hb & _). congruence.
      * eapply en_ok_mono; [eapply wo_en; eauto|assumption|apply rqs_le_refl].
    + assert (Hnone : forall j x, nth_error (wk_channels w) j = Some x -> ch_entry x = ch_entry ch -> published (ch_phase x) -> False).
      { intros j x Hj He Hp. destruct (wo_ch _ _ I _ _ Hj) as [_ H]. rewrite He in H.
        destruct (ch_phase x); cbn in Hp; try contradiction.
        - destruct H as (en2 & b & Hn & Hv & _). congruence.
        - destruct H as (en2 & b & Hn & Hv & _). congruence.
        - destruct H as (en2 & b & Hn & Hv & _). congruence.
        - destruct H as (en2 & b & Hn & Hv & _). congruence. }
      intros j j' x x' H H' He Hx Hx'. apply upd_nth_cases in H, H'. destruct H as [[<- ->]|[_ H]], H' as [[<- ->]|[_ H']]; cbn in *.
      * reflexivity.
      * exfalso. eapply Hnone; [exact H'|auto|assumption].
      * exfalso. eapply Hnone; [exact H|auto|assumption].
      * eapply (wo_uniq _ _ I); eauto.
  - destruct (wo_ch _ _ I _ _ Hi) as [Hk H]. rewrite Hph in H. destruct H as (en2 & b & Hn & Hv & Hb).
    rewrite Hen in Hn. injection Hn as <-. exists keys. eapply move_channel; eauto.
    + cbn. auto.
    + rewrite Hph. cbn. auto.
    + split; cbn; [assumption|]. exists en, b. do 3 (split; [assumption|]). intros p.
      destruct (en_final en) as [[q|e]|]; [|discriminate|discriminate]. destruct (ch_collect ch) eqn:Ec; [|discriminate].
      intros E. injection E as ->. auto.
  - destruct (wo_ch _ _ I _ _ Hi) as [Hk H]. rewrite Hph in H. exists keys. eapply move_channel; eauto.
    + cbn. auto.
    + rewrite Hph. cbn. auto.
    + split; cbn; assumption.
    + intros x. apply uncache_in.
  - destruct (get_with w k) as [[es c] e] eqn:E. destruct (get_with_ok _ _ _ _ _ _ I E) as (keys' & _ & Hk & I').
    exists keys'. destruct I' as [A B C D F G]. cbn in *. constructor; cbn; try assumption.
    + intros j r H. apply nth_snoc in H. destruct H as [[_ H]|[_ ->]]; [eauto|]. split; cbn; auto.
    + intros j en H. eapply en_ok_mono; [eapply F; eauto|apply chs_le_refl|apply rqs_le_snoc].
  - destruct (wo_rq _ _ I _ _ Hi) as [Hk _].
    set (f := final_plan insert base (en_final en) (dr_head r)). set (en' := mkEntry (en_value en) (Some f)).
    set (a := match f with inl p => Plan p | inr e => Failed e end).
    assert (Hle : es_le (wk_entries w) (upd (wk_entries w) (dr_entry r) en')).
    { apply es_le_upd with (en := en); [assumption|auto|]. intros v E. unfold en', f. cbn. now rewrite E. }
    exists keys. constructor; cbn.
    + rewrite upd_length. apply I.
    + apply I.
    + intros j x H. eapply ch_ok_mono; [eapply wo_ch; eauto|auto|assumption].
    + intros j x H. apply upd_nth_cases in H. destruct H as [[_ ->]|[_ H]].
      * split; cbn; [assumption|]. unfold a. destruct f as [p|e] eqn:Ef.
        -- exists en', base. split; [eapply upd_nth_same; eauto|]. unfold en'. cbn. auto.
        -- exists en'. split; [eapply upd_nth_same; eauto|]. right. exists base. unfold en'. cbn. auto.
      * eapply rq_ok_mono; [eapply wo_rq; eauto|auto|assumption].
    + intros j x H. apply upd_nth_cases in H. destruct H as [[<- ->]|[_ H]].
      * assert (Hen' : en_ok (wk_channels w) (upd (wk_requests w) i (mkDrequest (dr_key r) (dr_head r) (dr_entry r) (Some a))) (dr_entry r) en).
        { eapply en_ok_mono; [eapply wo_en; eauto|apply chs_le_refl|now apply rqs_le_upd]. }
        destruct Hen' as [H1 H2]. split; [exact H1|]. cbn. intros g Hg. injection Hg as <-.
        destruct (en_final en) as [g|] eqn:Ef.
        -- destruct (H2 g eq_refl) as (b & j & x & Hb & Hj & He & Hx & E). exists b, j, x. cbn. auto.
        -- exists base, i. eexists. cbn. split; [assumption|]. split; [eapply upd_nth_same; eauto|]. cbn.
           do 2 (split; [auto; discriminate|]). reflexivity.
      * eapply en_ok_mono; [eapply wo_en; eauto|apply chs_le_refl|now apply rqs_le_upd].
    + apply I.
  - exists keys. destruct (wo_rq _ _ I _ _ Hi) as [Hk _]. eapply move_request; eauto. split; cbn; [assumption|]. exists en. auto.
  - exists keys. destruct (wo_rq _ _ I _ _ Hi) as [Hk _]. eapply move_request; eauto. split; cbn; auto.
  - exists keys. destruct I as [A B C D F G]. constructor; cbn; try assumption. intros k0 e H. apply B. eapply uncache_in; eauto.
Qed.

Lemma wk_ok_new : wk_ok [] worker_new.
Proof.
  constructor; cbn; auto.
  - intros k e [].
  - intros [|?]; discriminate.
  - intros [|?]; discriminate.
  - intros [|?]; discriminate.
  - intros [|?]; discriminate.
Qed.

Lemma wk_ok_reachable w : worker_reachable insert w -> exists keys, wk_ok keys w.
Proof.
  intros H. refine (steps_invariant _ (fun w => exists keys, wk_ok keys w) _ _ _ _ H).
  - exists []. apply wk_ok_new.
  - intros a b [keys I] Hst. eapply wk_ok_step; eauto.
Qed.

(** Steps only extend entries, channels and requests. *)
Lemma step_le w w' : worker_step insert w w' ->
  es_le (wk_entries w) (wk_entries w') /\ chs_le (wk_channels w) (wk_channels w') /\ rqs_le (wk_requests w) (wk_requests w').
Proof.
  intros Hst. destruct Hst as [w k build collect|w i ch en Hi Hph Hen|w i ch en Hi Hph Hen|w i ch sent Hi Hph|w k h
    |w i r en base Hi Ha Hen Hv|w i r en e Hi Ha Hen Hv|w i r en Hi Ha Hen Hv|w k].
  - destruct (get_with w k) as [[es c] e] eqn:E. cbn. split; [|split; [apply chs_le_snoc|apply rqs_le_refl]].
    unfold get_with in E. destruct (cached w k); injection E as <- _ _; [apply es_le_refl|apply es_le_snoc].
  - destruct (en_value en) as [v|] eqn:Ev; cbn.
    + split; [apply es_le_refl|]. split; [|apply rqs_le_refl]. apply chs_le_upd; [assumption|]. rewrite Hph. auto.
    + split; [|split; [|apply rqs_le_refl]].
      * apply es_le_upd with (en := en); cbn; [assumption|rewrite Ev; discriminate|auto].
      * apply chs_le_upd; [assumption|]. rewrite Hph. cbn. tauto.
  - cbn. split; [apply es_le_refl|]. split; [|apply rqs_le_refl]. apply chs_le_upd; cbn; auto.
  - cbn. split; [apply es_le_refl|]. split; [|apply rqs_le_refl]. apply chs_le_upd; cbn; auto.
  - destruct (get_with w k) as [[es c] e] eqn:E. cbn. split; [|split; [apply chs_le_refl|apply rqs_le_snoc]].
    unfold get_with in E. destruct (cached w k); injection E as <- _ _; [apply es_le_refl|apply es_le_snoc].
  - cbn. split; [|split; [apply chs_le_refl|now apply rqs_le_upd]].
    apply es_le_upd with (en := en); cbn; [assumption|auto|]. intros v Hf. now rewrite Hf.
  - cbn. split; [apply es_le_refl|]. split; [apply chs_le_refl|now apply rqs_le_upd].
  - cbn. split; [apply es_le_refl|]. split; [apply chs_le_refl|now apply rqs_le_upd].
  - cbn. split; [apply es_le_refl|]. split; [apply chs_le_refl|apply rqs_le_refl].
Qed.


Lemma length_filter_snoc {A} (f : A -> bool) l x :
  List.length (filter f (l ++ [x])) = List.length (filter f l) + (if f x then 1 else 0).
Proof. rewrite filter_app, app_length. cbn. destruct (f x); reflexivity. Qed.

Lemma filter_upd_len {A} (f : A -> bool) l i x y : nth_error l i = Some x -> f y = f x ->
  List.length (filter f (upd l i y)) = List.length (filter f l).
Proof.
  revert i. induction l as [|a l IH]; intros [|i] H E; cbn in *; try discriminate.
  - injection H as ->. rewrite E. destruct (f x); reflexivity.
  - destruct (f a); cbn; rewrite (IH i); auto.
Qed.

Lemma cached_uncache w k k' es chs (rqs : list drequest) : cached (mkWorker es (uncache (wk_cache w) k') chs rqs) k =
  if k =? k' then None else cached w k.
Proof.
  unfold cached, uncache. cbn. induction (wk_cache w) as [|[a e] c IH]; cbn.
  - destruct (k =? k'); reflexivity.
  - destruct (Nat.eqb_spec a k') as [->|Ha]; cbn.
    + rewrite IH. destruct (Nat.eqb_spec k k') as [->|Hk]; [reflexivity|].
      destruct (Nat.eqb_spec k' k); [congruence|reflexivity].
    + destruct (Nat.eqb_spec a k) as [->|Hk].
      * destruct (Nat.eqb_spec k k'); [congruence|reflexivity].
      * exact IH.
Qed.

Lemma get_with_cached w k es c e : get_with w k = (es, c, e) ->
  (forall chs (rqs : list drequest), cached (mkWorker es c chs rqs) k = Some e) /\
  (forall chs (rqs : list drequest) k', k' <> k -> cached (mkWorker es c chs rqs) k' = cached w k').
Proof.
  unfold get_with. destruct (cached w k) as [x|] eqn:E; intros H; injection H as <- <- <-.
  - split; [intros; exact E|]. reflexivity.
  - unfold cached in *. cbn. rewrite Nat.eqb_refl. split; [reflexivity|]. intros _ _ k' Hk.
    destruct (Nat.eqb_spec k k'); [congruence|reflexivity].
Qed.

(** How arrivals and the cache change. *)
Lemma step_cache w w' k : worker_step insert w w' ->
  plans_set w k <= plans_set w' k /\ arrivals w k <= arrivals w' k /\
  (arrivals w' k = arrivals w k ->
     (cached w k = None -> cached w' k = None) /\
     (quiet w k -> cached w' k = cached w k \/ exists k', w' = mkWorker (wk_entries w) (uncache (wk_cache w) k') (wk_channels w) (wk_requests w))).
Proof.
  intros Hst. unfold arrivals, plans_set.
  destruct Hst as [w k0 build collect|w i ch en Hi Hph Hen|w i ch en Hi Hph Hen|w i ch sent Hi Hph|w k0 h
    |w i r en base Hi Ha Hen Hv|w i r en e Hi Ha Hen Hv|w i r en Hi Ha Hen Hv|w k0].
  - destruct (get_with w k0) as [[es c] e] eqn:E. destruct (get_with_cached _ _ _ _ _ E) as [C1 C2]. cbn [wk_channels wk_requests].
    rewrite !length_filter_snoc. cbn [ch_key]. destruct (Nat.eqb_spec k0 k) as [->|Hk].
    + split; [lia|]. split; [lia|]. intros; lia.
    + split; [lia|]. split; [lia|]. intros _. rewrite C2 by auto. auto.
  - destruct (en_value en); cbn [wk_channels wk_requests]; erewrite filter_upd_len by (eauto; reflexivity);
      (do 2 (split; [lia|])); intros _; (split; [auto|]); intros _; left; reflexivity.
  - cbn [wk_channels wk_requests]. erewrite filter_upd_len by (eauto; reflexivity).
    do 2 (split; [lia|]). intros _. split; [auto|]. left. reflexivity.
  - cbn [wk_channels wk_requests]. erewrite filter_upd_len by (eauto; reflexivity).
    do 2 (split; [lia|]). intros _. rewrite cached_uncache. destruct (Nat.eqb_spec k (ch_key ch)) as [->|Hk].
    + split; [auto|]. intros [Q _]. specialize (Q ch (nth_error_In _ _ Hi) eq_refl). rewrite Hph in Q. destruct Q.
    + auto.
  - destruct (get_with w k0) as [[es c] e] eqn:E. destruct (get_with_cached _ _ _ _ _ E) as [C1 C2]. cbn [wk_channels wk_requests].
    rewrite !length_filter_snoc. cbn [dr_key]. destruct (Nat.eqb_spec k0 k) as [->|Hk].
    + split; [lia|]. split; [lia|]. intros; lia.
    + split; [lia|]. split; [lia|]. intros _. rewrite C2 by auto. auto.
  - cbn [wk_channels wk_requests]. erewrite filter_upd_len by (eauto; reflexivity).
    do 2 (split; [lia|]). intros _. split; [auto|]. left. reflexivity.
  - cbn [wk_channels wk_requests]. erewrite filter_upd_len by (eauto; reflexivity).
    do 2 (split; [lia|]). intros _. split; [auto|]. left. reflexivity.
  - cbn [wk_channels wk_requests]. erewrite filter_upd_len by (eauto; reflexivity).
    do 2 (split; [lia|]). intros _. split; [auto|]. left. reflexivity.
  - cbn [wk_channels wk_requests]. do 2 (split; [lia|]). intros _. rewrite cached_uncache. split.
    + destruct (k =? k0); auto.
    + intros _. right. exists k0. reflexivity.
Qed.

Lemma stays_uncached w w' k : steps (worker_step insert) w w' -> cached w k = None ->
  arrivals w k <= arrivals w' k /\ (arrivals w' k = arrivals w k -> cached w' k = None).
Proof.
  intros H H0. refine (steps_ind_fwd _ w (fun w' => arrivals w k <= arrivals w' k /\ (arrivals w' k = arrivals w k -> cached w' k = None)) _ _ _ H).
  - auto.
  - intros a b _ [IH1 IH2] Hst. destruct (step_cache _ _ k Hst) as (_ & H1 & H2). split; [lia|].
    intros E. assert (Ea : arrivals a k = arrivals w k) by lia. destruct (H2 ltac:(lia)) as [H3 _]. auto.
Qed.

(** * The metrics store *)
Implicit Types m : monitored plan head err.

Lemma monitored_worker m m' : steps (monitored_step insert) m m' -> steps (worker_step insert) (mo_worker m) (mo_worker m').
Proof.
  intros H. refine (steps_ind_fwd _ m (fun m' => steps (worker_step insert) (mo_worker m) (mo_worker m')) _ _ _ H).
  - apply steps_refl.
  - intros a b _ IH Hst. destruct Hst; cbn in *; [eapply steps_next; eauto|assumption].
Qed.

(** What a channel that sent metrics sent stays so; a finished channel stays finished. *)
Definition sent_of (ph : phase plan) : option (option plan) :=
  match ph with Finished s | Closed s => Some s | _ => None end.

Lemma step_channel w w' i ch : worker_step insert w w' -> nth_error (wk_channels w) i = Some ch ->
  exists ch', nth_error (wk_channels w') i = Some ch' /\ ch_key ch' = ch_key ch /\ ch_entry ch' = ch_entry ch /\ ch_build ch' = ch_build ch /\
    ch_collect ch' = ch_collect ch /\
    (forall s, sent_of (ch_phase ch) = Some s -> sent_of (ch_phase ch') = Some s) /\
    (forall s, sent_of (ch_phase ch) = None -> sent_of (ch_phase ch') = Some s ->
       ch_phase ch = Listening /\ exists en, nth_error (wk_entries w) (ch_entry ch) = Some en /\
         s = match en_final en with Some (inl p) => if ch_collect ch then Some p else None | _ => None end).
Proof.
  intros Hst Hi.
  assert (Hsame : forall chs', nth_error chs' i = Some ch -> exists ch', nth_error chs' i = Some ch' /\ ch_key ch' = ch_key ch /\ ch_entry ch' = ch_entry ch /\
    ch_build ch' = ch_build ch /\ ch_collect ch' = ch_collect ch /\
    (forall s, sent_of (ch_phase ch) = Some s -> sent_of (ch_phase ch') = Some s) /\
    (forall s, sent_of (ch_phase ch) = None -> sent_of (ch_phase ch') = Some s ->
       ch_phase ch = Listening /\ exists en, nth_error (wk_entries w) (ch_entry ch) = Some en /\
         s = match en_final en with Some (inl p) => if ch_collect ch then Some p else None | _ => None end)).
  { intros chs' H. exists ch. do 6 (split; [auto|]). congruence. }
  destruct Hst as [w k build collect|w j c en Hj Hph Hen|w j c en Hj Hph Hen|w j c sent Hj Hph|w k h
    |w j r en base Hj Ha Hen Hv|w j r en e Hj Ha Hen Hv|w j r en Hj Ha Hen Hv|w k]; try (cbn; apply Hsame; exact Hi).
  - destruct (get_with w k) as [[es c] e]. cbn. apply Hsame. now apply nth_snoc_old.
  - destruct (en_value en); cbn [wk_channels].
    + destruct (Nat.eq_dec j i) as [<-|Hd]; [|apply Hsame; now rewrite upd_nth_diff].
      rewrite Hj in Hi. injection Hi as ->. eexists. split; [eapply upd_nth_same; eauto|]. cbn. rewrite Hph.
      do 4 (split; [reflexivity|]). split; discriminate.
    + destruct (Nat.eq_dec j i) as [<-|Hd]; [|apply Hsame; now rewrite upd_nth_diff].
      rewrite Hj in Hi. injection Hi as ->. eexists. split; [eapply upd_nth_same; eauto|]. cbn. rewrite Hph.
      do 4 (split; [reflexivity|]). split; [discriminate|]. destruct (ch_build ch); discriminate.
  - cbn [wk_channels]. destruct (Nat.eq_dec j i) as [<-|Hd]; [|apply Hsame; now rewrite upd_nth_diff].
    rewrite Hj in Hi. injection Hi as ->. eexists. split; [eapply upd_nth_same; eauto|]. cbn. rewrite Hph.
    do 4 (split; [reflexivity|]). split; [discriminate|]. intros s _ E. injection E as <-. split; [reflexivity|]. exists en. auto.
  - cbn [wk_channels]. destruct (Nat.eq_dec j i) as [<-|Hd]; [|apply Hsame; now rewrite upd_nth_diff].
    rewrite Hj in Hi. injection Hi as ->. eexists. split; [eapply upd_nth_same; eauto|]. cbn. rewrite Hph.
    do 4 (split; [reflexivity|]). split; [auto|discriminate].
  - destruct (get_with w k) as [[es c] e]. cbn. apply Hsame. assumption.
Qed.

(** Once the final plan of a listening, collecting channel is there, its metrics will be sent. *)
Lemma will_send w w' i ch en p : worker_reachable insert w -> steps (worker_step insert) w w' ->
  nth_error (wk_channels w) i = Some ch -> ch_collect ch = true ->
  nth_error (wk_entries w) (ch_entry ch) = Some en -> en_final en = Some (inl p) ->
  (forall s, sent_of (ch_phase ch) = Some s -> s = Some p) ->
  exists ch', nth_error (wk_channels w') i = Some ch' /\ ch_key ch' = ch_key ch /\
    forall s, sent_of (ch_phase ch') = Some s -> s = Some p.
Proof.
  intros Hreach H Hi Hc Hen Hf Hs.
  cut (exists ch' en', nth_error (wk_channels w') i = Some ch' /\ ch_key ch' = ch_key ch /\ ch_collect ch' = true /\
         nth_error (wk_entries w') (ch_entry ch') = Some en' /\ en_final en' = Some (inl p) /\
         forall s, sent_of (ch_phase ch') = Some s -> s = Some p).
  { intros (ch' & en' & H1 & H2 & _ & _ & _ & H3). exists ch'. auto. }
  revert w' H. refine (steps_ind_fwd _ w _ _ _).
  - exists ch, en. auto 10.
  - intros a b _ (ch' & en' & H1 & H2 & H3 & H4 & H5 & H6) Hst.
    destruct (step_channel _ _ _ _ Hst H1) as (ch2 & G1 & G2 & G3 & _ & G4 & G5 & G6).
    destruct (step_le _ _ Hst) as (He & _ & _). destruct (He _ _ H4) as (en2 & E1 & _ & E2).
    exists ch2, en2. split; [assumption|]. split; [congruence|]. split; [congruence|]. split; [now rewrite G3|]. split; [auto|].
    intros s Hs2. destruct (sent_of (ch_phase ch')) as [s0|] eqn:E0.
    + rewrite (G5 s0 eq_refl) in Hs2. injection Hs2 as <-. now apply H6.
    + destruct (G6 s eq_refl Hs2) as (_ & en3 & H7 & ->). rewrite H4 in H7. injection H7 as <-. now rewrite H5, H3.
Qed.

Lemma store_sent m : monitored_reachable insert m -> forall k p, In (k, p) (mo_store m) ->
  exists i ch, nth_error (wk_channels (mo_worker m)) i = Some ch /\ ch_key ch = k /\ sent_of (ch_phase ch) = Some (Some p).
Proof.
  intros H. refine (steps_invariant _ (fun m => forall k p, In (k, p) (mo_store m) ->
    exists i ch, nth_error (wk_channels (mo_worker m)) i = Some ch /\ ch_key ch = k /\ sent_of (ch_phase ch) = Some (Some p)) _ _ _ _ H).
  - intros k p [].
  - intros a b IH Hst k p. destruct Hst as [w w' store Hst|w store i ch q Hi Hq]; cbn in *.
    + intros Hin. destruct (IH k p Hin) as (i & ch & Hi & Hk & Hs). destruct (step_channel _ _ _ _ Hst Hi) as (ch' & G1 & G2 & _ & _ & _ & G5 & _).
      exists i, ch'. split; [assumption|]. split; [congruence|auto].
    + intros [E|Hin]; [|auto]. injection E as <- <-. exists i, ch. split; [assumption|]. split; [reflexivity|].
      destruct Hq as [-> | ->]; reflexivity.
Qed.
End Worker.
