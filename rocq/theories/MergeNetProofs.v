(** Proofs about merging streams of the network. *)
From Verif Require Import Base CiuModel CiuProofs DemuxModel DemuxSpec DemuxProofs SampleNetModel SampleNetProofs
  MergeNetModel MergeNetSpec.

Section Proofs.
Context {data err : Type}.
Notation source_item := (@item data + err)%type.
Notation conn := (@conn data err).
Notation link := (@link data err).
Variables (start budget capacity prefetch : nat) (bad : nat -> err).
Notation calm_step := (calm_step start budget capacity bad).
Notation step := (merge_step start budget capacity prefetch bad).

Lemma taken_same (k : conn) i p v : nth_error (k_parts k) i = Some p -> p_got v = p_got p -> p_ended v = p_ended p ->
  map (fun p => (p_got p, p_ended p)) (upd (k_parts k) i v) = map (fun p => (p_got p, p_ended p)) (k_parts k).
Proof.
  intros Hp H1 H2. apply nth_ext_error. intros j. rewrite !nth_error_map, upd_nth.
  destruct (Nat.eqb_spec i j) as [<-|]; [|reflexivity]. rewrite Hp. cbn. now rewrite H1, H2.
Qed.

(** The connection works for a stream that waits, as long as its budget is not used up. *)
Lemma conn_progress (sources : list (list source_item)) (k : conn) i p : steps calm_step (conn_init sources) k -> 0 < capacity ->
  nth_error (k_parts k) i = Some p -> p_queue p = [] ->
  (k_phase k = Gate \/ k_phase k = Blocked -> k_reserved k < budget) ->
  k_phase k = Done \/ exists k', calm_step k k' /\ taken k' = taken k.
Proof.
  intros H Hcap Hp Hq Hb. destruct (calm_facts _ _ _ _ _ _ H) as (J & C & K & L & Lv).
  pose proof (Lv i p Hp) as Hl.
  destruct (p_polled p) eqn:Hpo.
  2: { right. eexists. split; [split; [eapply first_poll; eauto|]|].
       - destruct (calm_upd k i p (DemuxModel.mkPart (p_src p) (p_buf p) (p_lost p) (p_queue p) (p_live p) true (p_got p) (p_ended p)) Hp eq_refl eq_refl) as [H1 H2].
         unfold calm. csimp. auto 10.
       - unfold taken. csimp. eapply taken_same; eauto. }
  destruct (k_phase k) eqn:Hph.
  - assert (Hf : k_first k = true).
    { destruct (inv_polled _ _ _ J) as [X|[X|[X|X]]]; [congruence|assumption|congruence|]. specialize (X _ _ Hp). congruence. }
    right. eexists. split; [split; [apply demux_connect; auto|unfold calm; csimp; auto 10]|reflexivity].
  - right. eexists. split; [split; [apply demux_gate_open; auto|unfold calm; csimp; auto 10]|reflexivity].
  - destruct (k_permit k) eqn:Hpe.
    + right. eexists. split; [split; [apply demux_notified; auto|unfold calm; csimp; auto 10]|reflexivity].
    + pose proof (inv_blocked _ _ _ J Hph Hpe). specialize (Hb (or_intror eq_refl)). lia.
  - right. destruct (search (fun p => match p_buf p with [] => false | _ => true end) (k_parts k)) as [(j & q & Hj & Hq2)|Hbuf].
    + set (v := fun rest => DemuxModel.mkPart (p_src q) rest (p_lost q) (p_queue q) (p_live q) (p_polled q) (p_got q) (p_ended q)).
      assert (Hjl : j < List.length (k_parts k)) by (apply nth_error_Some; congruence).
      destruct (p_buf q) as [|[it|e] rest] eqn:Hbq; [discriminate| |]; destruct (calm_upd k j q (v rest) Hj eq_refl eq_refl) as [H1 H2].
      * eexists. split; [split; [eapply demux_recv; eauto|]|]; cbv zeta; rewrite sender_of_tag by assumption.
        -- unfold calm. csimp. auto 10.
        -- unfold taken. csimp. eapply taken_same; eauto.
      * eexists. split; [split; [eapply demux_recv_error; eauto|]|].
        -- unfold calm. csimp. destruct (fanout_calm (upd (k_parts k) j (v rest)) e) as [H3 H4]. unfold v in *.
           rewrite H3, H4. do 4 (split; [assumption || reflexivity|]). right. exists q, e. split; [now apply nth_error_In in Hj|].
           rewrite Hbq. split; [now left|reflexivity].
        -- unfold taken. csimp. rewrite map_map. rewrite <- (taken_same k j q (v rest) Hj eq_refl eq_refl).
           apply map_ext. intros x. now rewrite send_part_got, send_part_ended.
    + destruct (search (fun p => match p_src p with [] => false | _ => true end) (k_parts k)) as [(j & q & Hj & Hq2)|Hsrc].
      * destruct (p_src q) as [|m rest] eqn:Hsq; [discriminate|].
        assert (Hbq : p_buf q = []) by (specialize (Hbuf _ _ Hj); now destruct (p_buf q)).
        eexists. split; [split; [eapply worker_pull; eauto; rewrite Hbq; assumption|]|].
        -- destruct (calm_upd k j q (DemuxModel.mkPart rest (p_buf q ++ [m]) (p_lost q) (p_queue q) (p_live q) (p_polled q) (p_got q) (p_ended q)) Hj eq_refl eq_refl) as [H1 H2].
           unfold calm. csimp. auto 10.
        -- unfold taken. csimp. eapply taken_same; eauto.
      * eexists. split; [split; [apply demux_exhausted; auto|unfold calm; csimp; auto 10]|reflexivity].
        apply Forall_forall. intros x Hx. apply In_nth_error in Hx. destruct Hx as [j Hj].
        specialize (Hsrc _ _ Hj). specialize (Hbuf _ _ Hj). destruct (p_src x), (p_buf x); try discriminate; auto.
  - pose proof (inv_sending _ _ _ J _ _ Hph) as Hi0. destruct (nth_error (k_parts k) i0) as [q|] eqn:Hj; [|apply nth_error_None in Hj; lia].
    right. eexists. split; [split; [eapply demux_send; eauto|]|].
    + destruct (calm_upd k i0 q (send_part q (inl it)) Hj (send_part_live _ _) (send_part_lost _ _)) as [? ?].
      unfold calm. csimp. auto 10.
    + unfold taken. csimp. eapply taken_same; [eassumption|apply send_part_got|apply send_part_ended].
  - now left.
Qed.

(** What is reserved while a stream waits with nothing queued: data of its siblings. *)
Lemma sum_le {A B} (f : A -> nat) (g : B -> nat) l m : List.length l = List.length m ->
  (forall i a b, nth_error l i = Some a -> nth_error m i = Some b -> f a <= g b) ->
  list_sum (map f l) <= list_sum (map g m).
Proof.
  revert m. induction l as [|a l IH]; intros [|b m] Hlen H; try discriminate; [cbn; lia|]. cbn [map].
  change (list_sum (?a :: ?l)) with (a + list_sum l). pose proof (H 0 a b eq_refl eq_refl).
  assert (list_sum (map f l) <= list_sum (map g m)); [|lia]. apply IH; [now injection Hlen|]. intros i. apply (H (S i)).
Qed.
Lemma sum_le_but {A B} (f : A -> nat) (g : B -> nat) l m i a b : List.length l = List.length m ->
  (forall i a b, nth_error l i = Some a -> nth_error m i = Some b -> f a <= g b) ->
  nth_error l i = Some a -> nth_error m i = Some b -> f a = 0 ->
  list_sum (map f l) + g b <= list_sum (map g m).
Proof.
  revert m i. induction l as [|x l IH]; intros [|y m] [|i] Hlen H Ha Hb Hz; try discriminate; cbn [map];
    change (list_sum (?a :: ?l)) with (a + list_sum l).
  - injection Ha as ->. injection Hb as ->. assert (list_sum (map f l) <= list_sum (map g m)); [|lia].
    apply sum_le; [now injection Hlen|]. intros j. apply (H (S j)).
  - pose proof (H 0 x y eq_refl eq_refl). assert (list_sum (map f l) + g b <= list_sum (map g m)); [|lia].
    eapply (IH m i); eauto. intros j. apply (H (S j)).
Qed.

Lemma waiting_reserved (sources : list (list source_item)) (k : conn) i S p : steps calm_step (conn_init sources) k ->
  nth_error sources i = Some S -> nth_error (k_parts k) i = Some p -> p_queue p = [] ->
  k_phase k = Gate \/ k_phase k = Blocked -> k_reserved k + bytes S <= list_sum (map bytes sources).
Proof.
  intros H HS Hp Hq Hph. destruct (calm_facts _ _ _ _ _ _ H) as (J & C & K & L & Lv).
  rewrite (inv_bytes _ _ _ J C), L, Nat.add_0_r, buffered_eq.
  assert (Hfl : flight k = 0) by (unfold flight; destruct Hph as [-> | ->]; reflexivity). rewrite Hfl, Nat.add_0_r.
  assert (Hnf : k_failed k = None).
  { destruct (k_failed k) eqn:E; [|reflexivity]. assert (k_phase k = Done) by (apply (inv_failed _ _ _ J); congruence). destruct Hph; congruence. }
  apply (sum_le_but _ _ _ _ i p S); auto.
  - apply (inv_len _ _ _ J).
  - intros j q Sj Hj HSj. unfold live_bytes. rewrite (Lv _ _ Hj).
    destruct (inv_part _ _ _ J _ _ _ HSj Hj) as (P1 & _). destruct (P1 Hnf) as (A & T & -> & _ & -> & _).
    rewrite !bytes_app. lia.
  - unfold live_bytes. rewrite (Lv _ _ Hp), Hq. reflexivity.
Qed.

(** ** Invariant *)
Record linked (sources : list (list source_item)) (l : link) : Prop := {
  lk_conn : steps calm_step (conn_init sources) (ln_conn l);
  lk_len : List.length (ln_used l) = List.length sources;
  lk_used : forall i p u, nth_error (k_parts (ln_conn l)) i = Some p -> nth_error (ln_used l) i = Some u -> u <= List.length (p_got p)
}.

Lemma got_grows (k k' : conn) i p p' : conn_step start budget capacity bad k k' -> nth_error (k_parts k) i = Some p -> nth_error (k_parts k') i = Some p' ->
  List.length (p_got p) <= List.length (p_got p').
Proof.
  intros Hst Hp0 Hp'.
  assert (G : forall (j : nat) (q v : @DemuxModel.part data err) ps, nth_error ps j = Some q -> nth_error ps i = Some p -> List.length (p_got q) <= List.length (p_got v) ->
    nth_error (upd ps j v) i = Some p' -> List.length (p_got p) <= List.length (p_got p')).
  { intros j q v ps Hj Hi Hle Hu. apply upd_nth_inv in Hu as [[-> ->]|[_ Hu]]; [|replace p' with p by congruence; lia]. rewrite Hj in Hi. injection Hi as ->. exact Hle. }
  assert (F : forall ps e, (forall q, nth_error ps i = Some q -> List.length (p_got p) <= List.length (p_got q)) ->
    nth_error (map (fun p => send_part p (inr e)) ps) i = Some p' -> List.length (p_got p) <= List.length (p_got p')).
  { intros ps e Hq Hm. rewrite nth_error_map in Hm. destruct (nth_error ps i) as [q|]; [|discriminate]. cbn in Hm. injection Hm as <-.
    rewrite send_part_got. auto. }
  destruct Hst as [k i1 p1 m rest Hp Hsrc Hcap|k i1 p1 Hp Hsrc|k i1 p1 Hp Hl Hpo|k i1 p1 it rest Hp Hl Hpo Hq
    |k i1 p1 e rest Hp Hl Hpo Hq|k i1 p1 Hp Hl Hpo Hq Hd He|k i1 p1 Hp Hl|k Hc Hph|k Hph Hf|k e Hph Hf|k Hph Hr|k Hph Hr|k Hph Hpe
    |k i1 p1 it rest Hph Hp Hb|k i1 p1 e rest Hph Hp Hb|k e Hph|k Hph Hall|k i1 it p1 Hph Hp|k Hph]; csimp;
    try (replace p' with p by congruence; lia);
    try (refine (G i1 p1 _ _ Hp Hp0 _ Hp'); cbn [p_got]; rewrite ?app_length, ?send_part_got; lia).
  - refine (F _ e _ Hp'). intros q Hq. replace q with p by congruence. lia.
  - destruct (sender_of _ _ _); csimp.
    + refine (G i1 p1 _ _ Hp Hp0 _ Hp'); cbn [p_got]; lia.
    + refine (F _ _ _ Hp'). intros q Hq. apply upd_nth_inv in Hq as [[-> ->]|[_ Hq]].
      * replace p1 with p by congruence. cbn. lia.
      * replace q with p by congruence. lia.
  - refine (F _ _ _ Hp'). intros q Hq. apply upd_nth_inv in Hq as [[-> ->]|[_ Hq]].
    + replace p1 with p by congruence. cbn. lia.
    + replace q with p by congruence. lia.
  - refine (F _ e _ Hp'). intros q Hq. replace q with p by congruence. lia.
Qed.

Lemma sum_upd_eq {A} (f : A -> nat) l i a v : nth_error l i = Some a -> f v = f a -> list_sum (map f (upd l i v)) = list_sum (map f l).
Proof. intros H E. pose proof (upd_sum f l i a v H). lia. Qed.

Definition total_got (k : conn) : nat := list_sum (map (fun p => List.length (p_got p)) (k_parts k)).
Lemma fanout_got (ps : list (@DemuxModel.part data err)) e :
  list_sum (map (fun p => List.length (p_got p)) (map (fun p => send_part p (inr e)) ps)) = list_sum (map (fun p => List.length (p_got p)) ps).
Proof. rewrite map_map. f_equal. apply map_ext. intros p. now rewrite send_part_got. Qed.
Lemma got_one (k k' : conn) : conn_step start budget capacity bad k k' -> total_got k' <= total_got k + 1.
Proof.
  intros Hst. unfold total_got.
  destruct Hst as [k i1 p1 m rest Hp Hsrc Hcap|k i1 p1 Hp Hsrc|k i1 p1 Hp Hl Hpo|k i1 p1 it rest Hp Hl Hpo Hq
    |k i1 p1 e rest Hp Hl Hpo Hq|k i1 p1 Hp Hl Hpo Hq Hd He|k i1 p1 Hp Hl|k Hc Hph|k Hph Hf|k e Hph Hf|k Hph Hr|k Hph Hr|k Hph Hpe
    |k i1 p1 it rest Hph Hp Hb|k i1 p1 e rest Hph Hp Hb|k e Hph|k Hph Hall|k i1 it p1 Hph Hp|k Hph]; csimp;
   try (match goal with Hp : nth_error (k_parts ?k) ?i = Some ?p |- context [upd (k_parts ?k) ?i ?v] =>
          pose proof (upd_sum (fun p => List.length (p_got p)) (k_parts k) i _ v Hp) as HU; cbn [p_got] in HU end);
   rewrite ?fanout_got; try (rewrite ?app_length in HU); cbn [List.length] in *; try lia.
  - destruct (sender_of _ _ _); csimp; rewrite ?fanout_got; lia.
  - rewrite send_part_got in HU. lia.
Qed.

Lemma linked_conn sources l k' : linked sources l -> calm_step (ln_conn l) k' -> linked sources (mkLink k' (ln_used l)).
Proof.
  intros [H1 H2 H3] Hk. constructor; cbn [ln_conn ln_used].
  - eapply steps_next; eauto.
  - exact H2.
  - intros i p' u Hp' Hu. destruct (calm_facts _ _ _ _ _ _ H1) as (J & _).
    assert (List.length (k_parts k') = List.length sources).
    { destruct (calm_facts start budget capacity bad sources k') as (J' & _); [|apply (inv_len _ _ _ J')]. eapply steps_next; eauto. }
    destruct (nth_error (k_parts (ln_conn l)) i) as [p|] eqn:Hp.
    + specialize (H3 _ _ _ Hp Hu). destruct Hk as [Hk _]. pose proof (got_grows _ _ _ _ _ Hk Hp Hp'). lia.
    + apply nth_error_None in Hp. rewrite (inv_len _ _ _ J) in Hp. assert (i < List.length (k_parts k')) by (apply nth_error_Some; congruence). lia.
Qed.

Lemma linked_take sources l i p u : linked sources l -> nth_error (k_parts (ln_conn l)) i = Some p -> nth_error (ln_used l) i = Some u ->
  u < List.length (p_got p) -> linked sources (mkLink (ln_conn l) (upd (ln_used l) i (S u))).
Proof.
  intros [H1 H2 H3] Hp Hu Hlt. constructor; cbn [ln_conn ln_used]; auto.
  - now rewrite upd_length.
  - intros j q v Hq Hv. apply upd_nth_inv in Hv as [[<- ->]|[_ Hv]]; [|eauto]. replace q with p by congruence. lia.
Qed.

Lemma linked_init sources : linked sources (mkLink (conn_init sources) (map (fun _ => 0) sources)).
Proof.
  constructor; cbn [ln_conn ln_used]; [apply steps_refl|now rewrite map_length|].
  intros i p u _ Hu. rewrite nth_error_map in Hu. destruct (nth_error sources i); [|discriminate]. injection Hu as <-. lia.
Qed.

Lemma linked_reachable tasks ls : merge_reachable start budget capacity prefetch bad tasks ls -> Forall2 linked tasks ls.
Proof.
  assert (U : forall (ts : list (list (list source_item))) ls c l v, Forall2 linked ts ls -> nth_error ls c = Some l ->
    (forall sources, linked sources l -> linked sources v) -> Forall2 linked ts (upd ls c v)).
  { intros ts ls0 c l v H. revert c. induction H as [|t x ts xs Hx Hxs IH]; intros [|c] Hc Hv; try discriminate; cbn [upd].
    - injection Hc as ->. constructor; auto.
    - constructor; [exact Hx|]. now apply IH. }
  intros H. refine (steps_invariant _ (Forall2 linked tasks) _ _ _ _ H).
  - unfold merge_init. clear. induction tasks as [|t ts IH]; cbn; constructor; auto using linked_init.
  - intros a b F Hst. destruct Hst as [ls0 c l k' Hc Hk Hroom|ls0 c l i p u Hr Hc Hp Hu Hlt].
    + eapply U; eauto. intros sources Hl. now apply linked_conn.
    + eapply U; eauto. intros sources Hl. eapply linked_take; eauto.
Qed.

(** ** Stalls *)
Lemma queued_reserved sources (l : link) is : linked sources l -> NoDup is ->
  list_sum (map (queued l) is) <= k_reserved (ln_conn l).
Proof.
  intros Hl Hn. destruct (calm_facts _ _ _ _ _ _ (lk_conn _ _ Hl)) as (J & C & K & L & Lv).
  rewrite (inv_bytes _ _ _ J C), L, Nat.add_0_r, buffered_eq.
  enough (list_sum (map (queued l) is) <= list_sum (map live_bytes (k_parts (ln_conn l)))) by lia.
  rewrite <- (sum_seq live_bytes (k_parts (ln_conn l))).
  assert (Hf : list_sum (map (queued l) is) = list_sum (map (queued l) (filter (fun i => i <? List.length (k_parts (ln_conn l))) is))).
  { clear Hn. induction is as [|i is IH]; [reflexivity|]. cbn [filter map]. change (list_sum (?a :: ?m)) with (a + list_sum m).
    destruct (Nat.ltb_spec i (List.length (k_parts (ln_conn l)))).
    - cbn [map]. change (list_sum (?a :: ?m)) with (a + list_sum m). lia.
    - unfold queued at 1. rewrite (proj2 (nth_error_None _ _)) by assumption. exact IH. }
  rewrite Hf. eapply Nat.le_trans; [apply (sub_sum (queued l) _ (seq 0 (List.length (k_parts (ln_conn l)))))|].
  - now apply NoDup_filter.
  - intros i Hi. apply filter_In in Hi as [_ Hi]. apply Nat.ltb_lt in Hi. apply in_seq. lia.
  - apply Nat.eq_le_incl. f_equal. apply map_ext. intros i. unfold queued. destruct (nth_error _ i) as [p|] eqn:Hp; [|reflexivity].
    unfold live_bytes. now rewrite (Lv _ _ Hp).
Qed.

(** The connection [c] waits for room, its budget is used up by streams that are full, and another of its streams has nothing. *)
Record blocked (c j : nat) (is : list nat) (sources : list (list source_item)) (ls : list link) : Prop := {
  bk_link : exists l, nth_error ls c = Some l /\ linked sources l /\
    (k_phase (ln_conn l) = Gate \/ k_phase (ln_conn l) = Blocked) /\
    budget <= list_sum (map (queued l) is) /\ (forall i, In i is -> full prefetch l i) /\ starved l j
}.

Lemma delivered_split (a b c d : list source_item) : a ++ b = c ++ d -> a = c -> b = d.
Proof. intros H ->. now apply app_inv_head in H. Qed.

Lemma blocked_step c j is sources ls ls' : NoDup is -> blocked c j is sources ls -> step ls ls' ->
  blocked c j is sources ls' /\ used ls' = used ls.
Proof.
  intros Hn [(l & Hc & Hl & Hph & Hbud & Hfull & Hst)] Hstep.
  destruct Hstep as [ls c1 l1 k' Hc1 Hk Hroom|ls c1 l1 i p u Hr Hc1 Hp Hu Hlt].
  - assert (Hused : used (upd ls c1 (mkLink k' (ln_used l1))) = used ls).
    { unfold used. apply nth_ext_error. intros x. rewrite !nth_error_map, upd_nth. destruct (Nat.eqb_spec c1 x) as [<-|]; [|reflexivity].
      now rewrite Hc1. }
    split; [|exact Hused]. constructor.
    destruct (Nat.eq_dec c1 c) as [->|Hne].
    2: { exists l. rewrite upd_nth. apply Nat.eqb_neq in Hne. rewrite Hne. auto 10. }
    rewrite Hc in Hc1. injection Hc1 as <-. exists (mkLink k' (ln_used l)). rewrite upd_nth, Nat.eqb_refl, Hc.
    split; [reflexivity|]. split; [now apply linked_conn|].
    destruct (calm_facts _ _ _ _ _ _ (lk_conn _ _ Hl)) as (J & C & K & L & Lv).
    assert (HR : budget <= k_reserved (ln_conn l)) by (pose proof (queued_reserved _ _ _ Hl Hn); lia).
    destruct (stalled_step start budget capacity bad _ _ (conj Hph K) C HR Hk) as [[Hph' _] D].
    cbn [ln_conn]. split; [exact Hph'|].
    assert (Hlen : List.length (k_parts k') = List.length (k_parts (ln_conn l))).
    { destruct (calm_facts start budget capacity bad sources k') as (J' & _); [eapply steps_next; [apply Hl|exact Hk]|].
      now rewrite (inv_len _ _ _ J'), (inv_len _ _ _ J). }
    assert (Hf : forall i, In i is -> queued (mkLink k' (ln_used l)) i = queued l i /\ full prefetch (mkLink k' (ln_used l)) i).
    { intros i Hi. destruct (Hfull i Hi) as (p & u & Hp & Hu & Hle).
      assert (Hp' : exists p', nth_error (k_parts k') i = Some p').
      { destruct (nth_error (k_parts k') i) eqn:E; [eauto|]. apply nth_error_None in E.
        assert (i < List.length (k_parts (ln_conn l))) by (apply nth_error_Some; congruence). lia. }
      destruct Hp' as [p' Hp']. destruct (Hroom i p p' u Hp Hp' Hu) as [Hg|Hg]; [|lia].
      specialize (D i). unfold delivered in D. rewrite Hp, Hp' in D. cbn in D. injection D as D. apply (fun D => delivered_split _ _ _ _ D Hg) in D.
      unfold queued. cbn [ln_conn]. rewrite Hp, Hp', D. split; [reflexivity|]. exists p', u. cbn [ln_conn ln_used]. rewrite Hg. auto. }
    split.
    { rewrite (map_ext_in _ (queued l)); [exact Hbud|]. intros i Hi. apply Hf, Hi. }
    split; [intros i Hi; apply Hf, Hi|].
    destruct Hst as (p & u & Hp & Hu & He & Hg & Hq).
    assert (Hp' : exists p', nth_error (k_parts k') j = Some p').
    { destruct (nth_error (k_parts k') j) eqn:E; [eauto|]. apply nth_error_None in E.
      assert (j < List.length (k_parts (ln_conn l))) by (apply nth_error_Some; congruence). lia. }
    destruct Hp' as [p' Hp']. pose proof (got_grows _ _ _ _ _ (proj1 Hk) Hp Hp') as Hgr.
    specialize (D j). unfold delivered in D. rewrite Hp, Hp' in D. cbn in D. injection D as D. rewrite Hq, app_nil_r in D.
    assert (Hl2 : List.length (p_got p') + List.length (p_queue p') = List.length (p_got p)) by (rewrite <- app_length; now rewrite D).
    exists p', u. cbn [ln_conn ln_used]. split; [assumption|]. split; [assumption|]. split.
    { destruct (p_ended p') eqn:E; [|reflexivity]. exfalso.
      destruct (calm_facts start budget capacity bad sources k') as (J' & _); [eapply steps_next; [apply Hl|exact Hk]|].
      assert (HS : exists S, nth_error sources j = Some S).
      { destruct (nth_error sources j) eqn:E2; [eauto|]. apply nth_error_None in E2. rewrite <- (inv_len _ _ _ J') in E2.
        assert (j < List.length (k_parts k')) by (apply nth_error_Some; congruence). lia. }
      destruct HS as [S HS]. destruct (inv_ended _ _ _ J' _ _ _ HS Hp' E) as (Dn & _). destruct Hph'; congruence. }
    split; [lia|]. destruct (p_queue p'); [reflexivity|cbn in Hl2; lia].
  - exfalso. rewrite Forall_forall in Hr. destruct Hst as (q & v & Hq & Hv & He & Hg & _).
    destruct (Hr l (nth_error_In _ _ Hc) j q v Hq Hv) as [E|E]; [congruence|lia].
Qed.

(** ** Progress *)
Lemma steps_room (l : link) k' : taken k' = taken (ln_conn l) ->
  forall i p p' u, nth_error (k_parts (ln_conn l)) i = Some p -> nth_error (k_parts k') i = Some p' ->
    nth_error (ln_used l) i = Some u -> p_got p' = p_got p \/ List.length (p_got p) < u + prefetch.
Proof.
  intros H i p p' u Hp Hp' Hu. left. apply (f_equal (fun l => nth_error l i)) in H. unfold taken in H.
  rewrite !nth_error_map, Hp, Hp' in H. cbn in H. now injection H.
Qed.

Lemma waiting_dec (l : link) : (exists i p u, nth_error (k_parts (ln_conn l)) i = Some p /\ nth_error (ln_used l) i = Some u /\
    p_ended p = false /\ List.length (p_got p) <= u) \/ all_ready l.
Proof.
  unfold all_ready.
  destruct (search (fun '(p, u) => negb (p_ended p) && (List.length (p_got p) <=? u)) (combine (k_parts (ln_conn l)) (ln_used l))) as [(i & [p u] & Hi & Hb)|Hno].
  - left. exists i, p, u. apply andb_true_iff in Hb as [H1 H2]. apply negb_true_iff in H1. apply Nat.leb_le in H2.
    assert (G : forall (a : list (@DemuxModel.part data err)) (b : list nat) i, nth_error (combine a b) i = Some (p, u) -> nth_error a i = Some p /\ nth_error b i = Some u).
    { clear. induction a as [|x a IH]; intros [|y b] [|i] H; cbn in *; try discriminate; [now injection H as -> ->|auto]. }
    destruct (G _ _ _ Hi). auto.
  - right. intros i p u Hp Hu.
    assert (Hi : nth_error (combine (k_parts (ln_conn l)) (ln_used l)) i = Some (p, u)).
    { revert Hp Hu. generalize (k_parts (ln_conn l)) (ln_used l). clear. intros a b. revert b i. induction a as [|x a IH]; intros [|y b] [|i] H1 H2; cbn in *; try discriminate; [congruence|auto]. }
    specialize (Hno _ _ Hi). cbn in Hno. apply andb_false_iff in Hno as [Hno|Hno].
    + left. now apply negb_false_iff in Hno.
    + right. apply Nat.leb_gt in Hno. lia.
Qed.
(** ** No infinite runs *)
Definition link_weight (l : link) : nat := 2 * conn_weight (ln_conn l) + (total_got (ln_conn l) - list_sum (ln_used l)).

Lemma used_le sources l : linked sources l -> list_sum (ln_used l) <= total_got (ln_conn l).
Proof.
  intros Hl. destruct (calm_facts _ _ _ _ _ _ (lk_conn _ _ Hl)) as (J & _). unfold total_got.
  rewrite <- (map_id (ln_used l)). apply sum_le.
  - now rewrite (lk_len _ _ Hl), (inv_len _ _ _ J).
  - intros i u p Hu Hp. eapply (lk_used _ _ Hl); eauto.
Qed.

Lemma merge_weight tasks ls ls' : Forall2 linked tasks ls -> step ls ls' ->
  list_sum (map link_weight ls') < list_sum (map link_weight ls).
Proof.
  intros F Hst.
  assert (At : forall c l, nth_error ls c = Some l -> exists sources, linked sources l).
  { clear Hst. induction F as [|t l0 ts ls0 Ht F0 IH]; intros [|c] l H; try discriminate; [injection H as <-; eauto|eauto]. }
  destruct Hst as [ls c l k' Hc Hk Hroom|ls c l i p u Hr Hc Hp Hu Hlt]; destruct (At _ _ Hc) as (sources & Hl).
  - pose proof (upd_sum link_weight ls c l (mkLink k' (ln_used l)) Hc) as HU.
    enough (link_weight (mkLink k' (ln_used l)) < link_weight l) by lia.
    unfold link_weight. cbn [ln_conn ln_used]. destruct Hk as [Hk _].
    pose proof (step_weight _ _ _ _ _ _ Hk). pose proof (got_one _ _ Hk). pose proof (used_le _ _ Hl). lia.
  - pose proof (upd_sum link_weight ls c l (mkLink (ln_conn l) (upd (ln_used l) i (S u))) Hc) as HU.
    enough (link_weight (mkLink (ln_conn l) (upd (ln_used l) i (S u))) < link_weight l) by lia.
    unfold link_weight. cbn [ln_conn ln_used].
    pose proof (upd_sum (fun n => n) (ln_used l) i u (S u) Hu) as HV. rewrite !map_id in HV.
    pose proof (used_le _ _ (linked_take _ _ _ _ _ Hl Hp Hu Hlt)) as HW. cbn [ln_conn ln_used] in HW. lia.
Qed.

Lemma linked_step tasks ls ls' : Forall2 linked tasks ls -> step ls ls' -> Forall2 linked tasks ls'.
Proof.
  assert (U : forall (ts : list (list (list source_item))) ls c l v, Forall2 linked ts ls -> nth_error ls c = Some l ->
    (forall sources, linked sources l -> linked sources v) -> Forall2 linked ts (upd ls c v)).
  { intros ts ls0 c l v H. revert c. induction H as [|t x ts xs Hx Hxs IH]; intros [|c] Hc Hv; try discriminate; cbn [upd].
    - injection Hc as ->. constructor; auto.
    - constructor; [exact Hx|]. now apply IH. }
  intros F Hst. destruct Hst as [ls0 c l k' Hc Hk Hroom|ls0 c l i p u Hr Hc Hp Hu Hlt].
  + eapply U; eauto. intros sources Hl. now apply linked_conn.
  + eapply U; eauto. intros sources Hl. eapply linked_take; eauto.
Qed.

Lemma merge_acc tasks ls : Forall2 linked tasks ls -> Acc (fun b a => step a b) ls.
Proof.
  remember (list_sum (map link_weight ls)) as w eqn:Hw. revert ls Hw. induction w as [w IH] using lt_wf_ind.
  intros ls -> F. constructor. intros ls' Hst. eapply IH; [|reflexivity|].
  - eapply merge_weight; eauto.
  - eapply linked_step; eauto.
Qed.

(** ** Ends *)
Lemma calm_never_fails sources (k : conn) : Forall error_free sources -> steps calm_step (conn_init sources) k ->
  k_failed k = None /\ Forall (eq []) (map p_lost (k_parts k)).
Proof.
  intros Hef. revert k. apply steps_ind_fwd; [|intros k1 k2 H IH Hst].
  - split; [reflexivity|]. cbn. rewrite map_map. cbn. apply Forall_map, Forall_forall. reflexivity.
  - destruct IH as [F L]. destruct (calm_facts _ _ _ _ _ _ H) as (J & _). destruct Hst as [_ (_ & El & _ & _ & Ef)].
    rewrite El. split; [|exact L]. destruct Ef as [->|(p & e & Hin & He & _)]; [exact F|exfalso].
    apply In_nth_error in Hin as (i & Hp).
    assert (HS : exists S, nth_error sources i = Some S).
    { destruct (nth_error sources i) eqn:E2; [eauto|]. apply nth_error_None in E2. rewrite <- (inv_len _ _ _ J) in E2.
      assert (i < List.length (k_parts k1)) by (apply nth_error_Some; congruence). lia. }
    destruct HS as [S HS]. destruct (inv_part _ _ _ J _ _ _ HS Hp) as (P1 & _). destruct (P1 F) as (A & T & HSA & _).
    rewrite Forall_forall in Hef. apply (Hef S (nth_error_In _ _ HS) e). rewrite HSA. rewrite !in_app_iff. auto.
Qed.

Lemma ended_complete sources (k : conn) i S p : Forall error_free sources -> steps calm_step (conn_init sources) k ->
  nth_error sources i = Some S -> nth_error (k_parts k) i = Some p -> p_ended p = true -> p_got p = S.
Proof.
  intros Hef H HS Hp He. destruct (calm_never_fails _ _ Hef H) as [F L]. destruct (calm_facts _ _ _ _ _ _ H) as (J & C & _).
  destruct (inv_ended _ _ _ J _ _ _ HS Hp He) as (_ & _ & _ & X). destruct (X F C) as [-> _].
  rewrite Forall_map, Forall_forall in L. rewrite <- (L p (nth_error_In _ _ Hp)). now rewrite app_nil_r.
Qed.

(** The condition under which nobody waits for ever: whichever stream the merge waits for, all the others of its
    connection fit in the budget. *)
Definition fits (sources : list (list source_item)) : Prop :=
  forall i S, nth_error sources i = Some S -> list_sum (map bytes sources) < budget + bytes S.

Lemma link_progress sources l : 0 < capacity -> 0 < prefetch -> fits sources -> linked sources l ->
  all_ready l \/ exists k', calm_step (ln_conn l) k' /\
    (forall i p p' u, nth_error (k_parts (ln_conn l)) i = Some p -> nth_error (k_parts k') i = Some p' ->
       nth_error (ln_used l) i = Some u -> p_got p' = p_got p \/ List.length (p_got p) < u + prefetch).
Proof.
  intros Hcap Hpre Hfit Hl. destruct (waiting_dec l) as [(i & p & u & Hp & Hu & He & Hg)|R]; [right|now left].
  pose proof (lk_used _ _ Hl _ _ _ Hp Hu) as Hg2.
  destruct (calm_facts _ _ _ _ _ _ (lk_conn _ _ Hl)) as (J & C & K & L & Lv).
  assert (HS : exists S, nth_error sources i = Some S).
  { destruct (nth_error sources i) eqn:E2; [eauto|]. apply nth_error_None in E2. rewrite <- (inv_len _ _ _ J) in E2.
    assert (i < List.length (k_parts (ln_conn l))) by (apply nth_error_Some; congruence). lia. }
  destruct HS as [S HS].
  destruct (p_polled p) eqn:Hpo.
  2: { eexists. split; [split; [eapply first_poll; eauto|]|].
       - destruct (calm_upd (ln_conn l) i p (DemuxModel.mkPart (p_src p) (p_buf p) (p_lost p) (p_queue p) (p_live p) true (p_got p) (p_ended p)) Hp eq_refl eq_refl) as [H1 H2].
         unfold calm. csimp. auto 10.
       - apply steps_room. unfold taken. csimp. eapply taken_same; eauto. }
  destruct (p_queue p) as [|m rest] eqn:Hq.
  - destruct (conn_progress _ _ i p (lk_conn _ _ Hl) Hcap Hp Hq) as [Hd|(k' & Hk & Ht)].
    + intros Hph. pose proof (waiting_reserved _ _ _ _ _ (lk_conn _ _ Hl) HS Hp Hq Hph). specialize (Hfit _ _ HS). lia.
    + eexists. split; [split; [eapply poll_end; eauto|]|].
      * destruct (calm_upd (ln_conn l) i p (DemuxModel.mkPart (p_src p) (p_buf p) (p_lost p) [] (p_live p) true (p_got p) true) Hp eq_refl eq_refl) as [H1 H2].
        unfold calm. csimp. auto 10.
      * intros j q q' v Hj Hj' _. left. csimp. apply upd_nth_inv in Hj' as [[-> ->]|[_ Hj']]; [|congruence].
        cbn [p_got]. congruence.
    + exists k'. split; [exact Hk|]. now apply steps_room.
  - exists (take_chunk (ln_conn l) i p 1). split; [eapply poll_calm; eauto|].
    intros j q q' v Hj Hj' Hv. unfold take_chunk in Hj'. csimp. apply upd_nth_inv in Hj' as [[-> ->]|[_ Hj']]; [|left; congruence].
    right. replace q with p by congruence. replace v with u by congruence. lia.
Qed.

Lemma merge_progress tasks ls : 0 < capacity -> 0 < prefetch -> Forall (Forall error_free) tasks -> Forall fits tasks ->
  Forall2 linked tasks ls -> merged_all tasks ls \/ exists ls', step ls ls'.
Proof.
  intros Hcap Hpre Hef Hfit F.
  assert (A : Forall all_ready ls \/ exists c l k', nth_error ls c = Some l /\ calm_step (ln_conn l) k' /\
    (forall i p p' u, nth_error (k_parts (ln_conn l)) i = Some p -> nth_error (k_parts k') i = Some p' ->
       nth_error (ln_used l) i = Some u -> p_got p' = p_got p \/ List.length (p_got p) < u + prefetch)).
  { clear Hef. revert Hfit. induction F as [|t l ts ls Hl F IH]; intros Hfit; [left; constructor|].
    apply Forall_cons_iff in Hfit as [Hf1 Hf2]. destruct (link_progress t l Hcap Hpre Hf1 Hl) as [R|(k' & H1 & H2)].
    - destruct (IH Hf2) as [R2|(c & l2 & k' & Hc & H1 & H2)]; [left; now constructor|right; exists (S c), l2, k'; auto].
    - right. exists 0, l, k'. auto. }
  destruct A as [R|(c & l & k' & Hc & H1 & H2)]; [|right; eexists; eapply merging_conn; eauto].
  assert (B : (exists c l i p u, nth_error ls c = Some l /\ nth_error (k_parts (ln_conn l)) i = Some p /\ nth_error (ln_used l) i = Some u /\ u < List.length (p_got p)) \/
    forall c l i p u, nth_error ls c = Some l -> nth_error (k_parts (ln_conn l)) i = Some p -> nth_error (ln_used l) i = Some u -> List.length (p_got p) <= u).
  { clear. induction ls as [|l ls IH]; [right; intros [|c] l i p u H; discriminate|].
    assert (D : forall (a : list (@DemuxModel.part data err)) (b : list nat),
      (exists i p u, nth_error a i = Some p /\ nth_error b i = Some u /\ u < List.length (p_got p)) \/
      forall i p u, nth_error a i = Some p -> nth_error b i = Some u -> List.length (p_got p) <= u).
    { clear. induction a as [|p a IH]; intros b; [right; intros [|i] p u H; discriminate|].
      destruct b as [|u b]; [right; intros [|i] q v _ H; discriminate|].
      destruct (Nat.lt_ge_cases u (List.length (p_got p))) as [H|H]; [left; exists 0, p, u; auto|].
      destruct (IH b) as [(i & q & v & H1 & H2 & H3)|H2]; [left; exists (S i), q, v; auto|].
      right. intros [|i] q v Hq Hv; [cbn in Hq, Hv; injection Hq as <-; injection Hv as <-; exact H|eapply H2; eauto]. }
    destruct (D (k_parts (ln_conn l)) (ln_used l)) as [(i & p & u & H)|H]; [left; exists 0, l, i, p, u; auto|].
    destruct IH as [(c & l2 & i & p & u & Hx)|IH]; [left; exists (S c), l2, i, p, u; auto|].
    right. intros [|c] l2 i p u Hc Hp Hu; [cbn in Hc; injection Hc as <-; eauto|eapply (IH c); eauto]. }
  destruct B as [(c & l & i & p & u & Hc & Hp & Hu & Hlt)|B]; [right; eexists; eapply merging_take; eauto|left].
  split; [clear -F; induction F; cbn; congruence|].
  intros c i l sources S Hc Hs HS.
  assert (Hl : linked sources l).
  { clear -F Hc Hs. revert c Hc Hs. induction F as [|t x ts xs Hx F IH]; intros [|c] Hc Hs; try discriminate; [|eauto].
    cbn in Hc, Hs. injection Hc as <-. injection Hs as <-. exact Hx. }
  destruct (calm_facts _ _ _ _ _ _ (lk_conn _ _ Hl)) as (J & _).
  assert (Hi : i < List.length sources) by (apply nth_error_Some; congruence).
  destruct (nth_error (k_parts (ln_conn l)) i) as [p|] eqn:Hp; [|apply nth_error_None in Hp; rewrite (inv_len _ _ _ J) in Hp; lia].
  destruct (nth_error (ln_used l) i) as [u|] eqn:Hu; [|apply nth_error_None in Hu; rewrite (lk_len _ _ Hl) in Hu; lia].
  rewrite Forall_forall in R. pose proof (B _ _ _ _ _ Hc Hp Hu) as Hle.
  destruct (R l (nth_error_In _ _ Hc) i p u Hp Hu) as [He|Hlt]; [|lia].
  exists p. split; [reflexivity|]. split; [exact He|].
  assert (Hg : p_got p = S).
  { rewrite Forall_forall in Hef. exact (ended_complete _ _ _ _ _ (Hef _ (nth_error_In _ _ Hs)) (lk_conn _ _ Hl) HS Hp He). }
  split; [exact Hg|]. pose proof (lk_used _ _ Hl _ _ _ Hp Hu). f_equal. rewrite <- Hg. lia.
Qed.
End Proofs.
