(** Proofs about the connection pool. *)
From Verif Require Import Base CiuModel CiuProofs NetModel PoolModel.

Lemma upd_nth_cases {A} (l : list A) i v j p :
  nth_error (upd l i v) j = Some p -> (i = j /\ p = v) \/ (i <> j /\ nth_error l j = Some p).
Proof.
  rewrite upd_nth. destruct (i =? j) eqn:E.
  - apply Nat.eqb_eq in E. destruct (nth_error l i); [|discriminate]. intros H. injection H as <-. auto.
  - apply Nat.eqb_neq in E. auto.
Qed.
Lemma upd_nth_same {A} (l : list A) i v a : nth_error l i = Some a -> nth_error (upd l i v) i = Some v.
Proof. intros H. now rewrite upd_nth, Nat.eqb_refl, H. Qed.
Lemma upd_nth_diff {A} (l : list A) i v j : i <> j -> nth_error (upd l i v) j = nth_error l j.
Proof. intros H. rewrite upd_nth. destruct (Nat.eqb_spec i j); [contradiction|reflexivity]. Qed.
Lemma nth_snoc {A} (l : list A) x i y :
  nth_error (l ++ [x]) i = Some y -> (i < List.length l /\ nth_error l i = Some y) \/ (i = List.length l /\ y = x).
Proof.
  intros H. destruct (Nat.lt_ge_cases i (List.length l)) as [Hi|Hi].
  - rewrite nth_error_app1 in H by assumption. auto.
  - rewrite nth_error_app2 in H by assumption. destruct (i - List.length l) as [|k] eqn:E; cbn in H.
    + injection H as <-. right. split; [lia|reflexivity].
    + destruct k; discriminate.
Qed.
Lemma nth_snoc_old {A} (l : list A) x i y : nth_error l i = Some y -> nth_error (l ++ [x]) i = Some y.
Proof. intros H. rewrite nth_error_app1; [assumption|]. apply nth_error_Some. congruence. Qed.
Lemma NoDup_snoc {A} (l : list A) x : NoDup l -> ~ In x l -> NoDup (l ++ [x]).
Proof.
  intros H Hn. apply NoDup_Add with (a := x) (l := l); [|auto].
  pose proof (Add_app x l []) as HA. now rewrite app_nil_r in HA.
Qed.

Section Proofs.
Context {row stream err : Type}.
Notation pool := (pool row stream err).
Notation outcome := (outcome stream err).
Implicit Types pl : pool.

Definition slot pl t : option (group row stream err) :=
  match nth_error (pl_slots pl) t with Some (Some g) => Some g | _ => None end.

Definition takes pl c t i : Prop := exists r s, nth_error (pl_calls pl) c = Some (r, Some (Got t i s)).

Definition outcome_ok pl c (r : request row) (o : outcome) : Prop :=
  match o with
  | NoWorker | NoConnection => True
  | Got t i s =>
      t = rq_task r /\ rq_start r <= rq_target r /\ i = rq_target r - rq_start r /\
      exists l, In (t, inl l) (pl_answers pl) /\ nth_error l i = Some s
  | ConnectionFailed e => In (rq_task r, inr e) (pl_answers pl)
  | NoStream => rq_start r <= rq_target r /\
      exists l, In (rq_task r, inl l) (pl_answers pl) /\ List.length l <= rq_target r - rq_start r
  | Consumed => rq_start r <= rq_target r /\ exists c', c' <> c /\ takes pl c' (rq_task r) (rq_target r - rq_start r)
  | Underflow => rq_target r < rq_start r
  end.

Definition group_ok pl t (g : group row stream err) : Prop :=
  rq_task (g_request g) = t /\ In (g_request g) (pl_issued pl) /\
  match g_result g with
  | None => ~ In t (map fst (pl_answers pl))
  | Some (inr e) => In (t, inr e) (pl_answers pl)
  | Some (inl streams) =>
      exists l, In (t, inl l) (pl_answers pl) /\ List.length streams = List.length l /\
        forall i s, nth_error l i = Some s ->
          (nth_error streams i = Some (Some s) /\ forall c, ~ takes pl c t i) \/
          (nth_error streams i = Some None /\ exists c, takes pl c t i)
  end.

Record pool_ok n pl : Prop := {
  ok_len : List.length (pl_slots pl) = n;
  ok_issued : NoDup (map rq_task (pl_issued pl));
  ok_issued_slot : forall r, In r (pl_issued pl) -> exists g, slot pl (rq_task r) = Some g /\ g_request g = r;
  ok_answers : NoDup (map fst (pl_answers pl));
  ok_groups : forall t g, slot pl t = Some g -> group_ok pl t g;
  ok_pending : forall c r, nth_error (pl_calls pl) c = Some (r, None) -> exists g, slot pl (rq_task r) = Some g;
  ok_outcomes : forall c r o, nth_error (pl_calls pl) c = Some (r, Some o) -> outcome_ok pl c r o;
  ok_unique : forall c c' t i, takes pl c t i -> takes pl c' t i -> c = c';
  ok_answered : forall t a, In (t, a) (pl_answers pl) -> exists g, slot pl t = Some g /\ g_result g <> None
}.

Lemma slot_inv pl t g : slot pl t = Some g -> nth_error (pl_slots pl) t = Some (Some g).
Proof. unfold slot. destruct (nth_error _ _) as [[?|]|]; congruence. Qed.
Lemma slot_intro pl t g : nth_error (pl_slots pl) t = Some (Some g) -> slot pl t = Some g.
Proof. unfold slot. now intros ->. Qed.

Lemma pool_ok_new n : pool_ok n (pool_new n).
Proof.
  assert (Hs : forall t, slot (pool_new n) t = None).
  { intros t. unfold slot. cbn. destruct (nth_error (repeat None n) t) as [x|] eqn:E; [|reflexivity].
    apply nth_error_In, repeat_spec in E. now subst. }
  assert (Ht : forall c t i, ~ takes (pool_new n) c t i).
  { intros c t i (r & s & H). cbn in H. destruct c; discriminate. }
  constructor; cbn.
  - apply repeat_length.
  - constructor.
  - intros r [].
  - constructor.
  - intros t g H. rewrite Hs in H. discriminate.
  - intros [|c] r; discriminate.
  - intros [|c] r o; discriminate.
  - intros c c' t i H. now apply Ht in H.
  - intros t a [].
Qed.

(** Adding a call that has no stream yet changes nothing of the rest. *)
Lemma takes_snoc pl slots r o issued answers c t i :
  (forall t i s, o <> Some (Got t i s)) ->
  takes (mkPool slots (pl_calls pl ++ [(r, o)]) issued answers) c t i <-> takes pl c t i.
Proof.
  intros Ho. unfold takes. cbn. split; intros (r' & s & H).
  - apply nth_snoc in H. destruct H as [[_ H]|[_ H]]; [eauto|]. injection H as _ E. now destruct (Ho _ _ _ (eq_sym E)).
  - exists r', s. now apply nth_snoc_old.
Qed.

Lemma outcome_ok_ext pl pl' c r o :
  outcome_ok pl c r o -> (forall x, In x (pl_answers pl) -> In x (pl_answers pl')) ->
  (forall c t i, takes pl c t i -> takes pl' c t i) -> outcome_ok pl' c r o.
Proof.
  intros H HA HT. destruct o; cbn in *; auto.
  - destruct H as (? & ? & ? & l & ? & ?). do 3 (split; [assumption|]). exists l. auto.
  - destruct H as (? & l & ? & ?). split; [assumption|]. exists l. auto.
  - destruct H as (? & c' & ? & ?). split; [assumption|]. exists c'. auto.
Qed.

Lemma add_call n pl r o :
  pool_ok n pl -> (forall t i s, o <> Some (Got t i s)) ->
  (o = None -> exists g, slot pl (rq_task r) = Some g) -> (forall x, o = Some x -> forall pl' c, outcome_ok pl' c r x) ->
  pool_ok n (mkPool (pl_slots pl) (pl_calls pl ++ [(r, o)]) (pl_issued pl) (pl_answers pl)).
Proof.
  intros I Ho Hp Hx. set (pl' := mkPool _ _ _ _).
  assert (Ht : forall c t i, takes pl' c t i <-> takes pl c t i) by (intros; now apply takes_snoc).
  assert (Hs : forall t, slot pl' t = slot pl t) by reflexivity.
  constructor; cbn; try apply I.
  - intros t g Hg. rewrite Hs in Hg. destruct (ok_groups _ _ I _ _ Hg) as (H1 & H2 & H3). split; [assumption|]. split; [assumption|].
    destruct (g_result g) as [[streams|e]|]; [|assumption|assumption].
    destruct H3 as (l & Hl & Hlen & H). exists l. split; [assumption|]. split; [assumption|]. intros i s Hi.
    destruct (H i s Hi) as [[H4 H5]|[H4 [c Hc]]].
    + left. split; [assumption|]. intros c Hc. apply (H5 c). now apply Ht.
    + right. split; [assumption|]. exists c. now apply Ht.
  - intros c r' H. apply nth_snoc in H. destruct H as [[_ H]|[_ H]].
    + destruct (ok_pending _ _ I _ _ H) as [g Hg]. exists g. now rewrite Hs.
    + injection H as -> <-. destruct (Hp eq_refl) as [g Hg]. exists g. now rewrite Hs.
  - intros c r' o' H. apply nth_snoc in H. destruct H as [[_ H]|[_ H]].
    + eapply outcome_ok_ext; [apply (ok_outcomes _ _ I _ _ _ H)|auto|]. intros; now apply Ht.
    + injection H as -> <-. now apply Hx.
  - intros c c' t i H1 H2. apply Ht in H1, H2. eapply (ok_unique _ _ I); eauto.
Qed.

Lemma pool_ok_step workers n pl pl' : pool_ok n pl -> pool_step workers pl pl' -> pool_ok n pl'.
Proof.
  intros I Hst. destruct Hst as [pl r|pl t r result Hslot|pl c r g result Hc Hslot Hres].
  - (* call *)
    unfold pool_call. destruct (workers <=? rq_task r).
    { apply add_call; [assumption|discriminate|discriminate|]. intros x E. injection E as <-. intros; exact Logic.I. }
    destruct (nth_error (pl_slots pl) (rq_task r)) as [[g|]|] eqn:E.
    + apply add_call; [assumption|discriminate| |discriminate]. intros _. exists g. now apply slot_intro.
    + (* first caller: the group is created, then the call added *)
      set (pl1 := mkPool (upd (pl_slots pl) (rq_task r) (Some (mkGroup r None))) (pl_calls pl) (pl_issued pl ++ [r]) (pl_answers pl)).
      assert (Hs1 : slot pl1 (rq_task r) = Some (mkGroup r None)).
      { apply slot_intro. cbn. eapply upd_nth_same; eauto. }
      assert (Hsd : forall t, t <> rq_task r -> slot pl1 t = slot pl t).
      { intros t Ht. unfold slot. cbn. rewrite upd_nth_diff by auto. reflexivity. }
      assert (Hno : slot pl (rq_task r) = None) by (unfold slot; now rewrite E).
      assert (P1 : pool_ok n pl1).
      { constructor; cbn.
        - rewrite upd_length. apply I.
        - rewrite map_app. cbn. apply NoDup_snoc; [apply I|]. intros Hin. apply in_map_iff in Hin. destruct Hin as (r' & Hr' & Hin).
          destruct (ok_issued_slot _ _ I _ Hin) as (g & Hg & _). rewrite Hr' in Hg. congruence.
        - intros r' Hin. apply in_app_or in Hin. destruct Hin as [Hin|[<-|[]]].
          + destruct (ok_issued_slot _ _ I _ Hin) as (g & Hg & Hgr). exists g. split; [|assumption].
            rewrite Hsd; [assumption|]. congruence.
          + exists (mkGroup r None). auto.
        - apply I.
        - intros t g Hg. destruct (Nat.eq_dec t (rq_task r)) as [->|Ht].
          + rewrite Hs1 in Hg. injection Hg as <-. cbn. split; [reflexivity|]. split; [apply in_or_app; right; now left|].
            cbn. intros Hin. apply in_map_iff in Hin. destruct Hin as ([t' a] & Ht' & Hin). cbn in Ht'. subst t'.
            destruct (ok_answered _ _ I _ _ Hin) as (g & Hg & _). congruence.
          + rewrite Hsd in Hg by assumption. destruct (ok_groups _ _ I _ _ Hg) as (H1 & H2 & H3). split; [assumption|].
            split; [apply in_or_app; now left|]. exact H3.
        - intros c r' H. destruct (ok_pending _ _ I _ _ H) as [g Hg]. destruct (Nat.eq_dec (rq_task r') (rq_task r)) as [Ht|Ht].
          + rewrite Ht. eauto.
          + exists g. now rewrite Hsd.
        - exact (ok_outcomes _ _ I).
        - exact (ok_unique _ _ I).
        - intros t a H. destruct (ok_answered _ _ I _ _ H) as (g & Hg & Hr). destruct (Nat.eq_dec t (rq_task r)) as [->|Ht]; [congruence|].
          exists g. now rewrite Hsd. }
      apply (add_call n pl1 r None P1); [discriminate| |discriminate]. eauto.
    + apply add_call; [assumption|discriminate|discriminate|]. intros x E'. injection E' as <-. intros; exact Logic.I.
  - (* resolve *)
    set (g' := mkGroup r (Some (match result with inl l => inl (map Some l) | inr e => inr e end))).
    set (pl1 := mkPool _ _ _ _).
    assert (Hs0 : slot pl t = Some (mkGroup r None)) by now apply slot_intro.
    assert (Hs1 : slot pl1 t = Some g') by (apply slot_intro; cbn; eapply upd_nth_same; eauto).
    assert (Hsd : forall t', t' <> t -> slot pl1 t' = slot pl t').
    { intros t' Ht. unfold slot. cbn. rewrite upd_nth_diff by auto. reflexivity. }
    assert (Ht : forall c t i, takes pl1 c t i <-> takes pl c t i) by reflexivity.
    destruct (ok_groups _ _ I _ _ Hs0) as (G1 & G2 & G3). cbn in G1, G2, G3.
    constructor; cbn.
    + rewrite upd_length. apply I.
    + apply I.
    + intros r' Hin. destruct (ok_issued_slot _ _ I _ Hin) as (g & Hg & Hgr). destruct (Nat.eq_dec (rq_task r') t) as [E|E].
      * rewrite E in *. exists g'. split; [assumption|]. rewrite Hs0 in Hg. injection Hg as <-. assumption.
      * exists g. now rewrite Hsd.
    + rewrite map_app. cbn. apply NoDup_snoc; [apply I|assumption].
    + intros t' g Hg. destruct (Nat.eq_dec t' t) as [->|E].
      * rewrite Hs1 in Hg. injection Hg as <-. split; [assumption|]. split; [assumption|]. cbn.
        destruct result as [l|e]; [|apply in_or_app; right; now left].
        exists l. split; [apply in_or_app; right; now left|]. split; [now rewrite map_length|].
        intros i s Hi. left. split; [rewrite nth_error_map, Hi; reflexivity|].
        intros c (r' & s' & Hc). destruct (ok_outcomes _ _ I _ _ _ Hc) as (H1 & _ & _ & l' & Hl' & _).
        apply G3. apply (in_map fst) in Hl'. exact Hl'.
      * rewrite Hsd in Hg by assumption. destruct (ok_groups _ _ I _ _ Hg) as (H1 & H2 & H3). split; [assumption|]. split; [assumption|].
        destruct (g_result g) as [[streams|e]|].
        -- destruct H3 as (l & Hl & H3). exists l. split; [apply in_or_app; now left|assumption].
        -- apply in_or_app. now left.
        -- unfold pl1; cbn [pl_answers]. rewrite map_app. intros Hin. apply in_app_or in Hin. destruct Hin as [Hin|[Hin|[]]]; [contradiction|]. cbn in Hin. congruence.
    + intros c r' H. destruct (ok_pending _ _ I _ _ H) as [g Hg]. destruct (Nat.eq_dec (rq_task r') t) as [->|E]; [eauto|].
      exists g. now rewrite Hsd.
    + intros c r' o H. eapply outcome_ok_ext; [apply (ok_outcomes _ _ I _ _ _ H)| |auto]. intros x Hx. apply in_or_app. now left.
    + exact (ok_unique _ _ I).
    + intros t' a Hin. apply in_app_or in Hin. destruct Hin as [Hin|[Hin|[]]].
      * destruct (ok_answered _ _ I _ _ Hin) as (g & Hg & Hr). destruct (Nat.eq_dec t' t) as [->|E].
        -- rewrite Hs0 in Hg. injection Hg as <-. now destruct Hr.
        -- exists g. now rewrite Hsd.
      * injection Hin as <- <-. exists g'. split; [assumption|discriminate].
  - (* poll *)
    set (pl1 := mkPool _ _ _ _).
    assert (Hs0 : slot pl (rq_task r) = Some g) by now apply slot_intro.
    set (g' := mkGroup (g_request g) (Some (snd (first_item r result)))) in *.
    assert (Hs1 : slot pl1 (rq_task r) = Some g') by (apply slot_intro; cbn; eapply upd_nth_same; eauto).
    assert (Hsd : forall t', t' <> rq_task r -> slot pl1 t' = slot pl t').
    { intros t' Ht. unfold slot. cbn. rewrite upd_nth_diff by auto. reflexivity. }
    destruct (ok_groups _ _ I _ _ Hs0) as (G1 & G2 & G3). rewrite Hres in G3.
    (* what the poll takes *)
    assert (Htk : forall c' t i, takes pl1 c' t i <->
       takes pl c' t i \/ (c' = c /\ exists s, fst (first_item r result) = Got t i s)).
    { intros c' t i. unfold takes. cbn. split.
      - intros (r' & s & H). apply upd_nth_cases in H. destruct H as [[-> H]|[_ H]]; [|eauto].
        injection H as -> E. right. split; [reflexivity|]. exists s. congruence.
      - intros [(r' & s & H)|[-> [s H]]].
        + destruct (Nat.eq_dec c c') as [->|E]; [congruence|]. exists r', s. rewrite upd_nth_diff by assumption. assumption.
        + exists r, s. rewrite (upd_nth_same _ _ _ _ Hc). congruence. }
    assert (Hmono : forall c' t i, takes pl c' t i -> takes pl1 c' t i) by (intros; apply Htk; auto).
    (* the facts about the result *)
    assert (Hfi : (exists l streams i s, result = inl streams /\ In (rq_task r, inl l) (pl_answers pl) /\ nth_error l i = Some s /\
                     nth_error streams i = Some (Some s) /\ (forall c, ~ takes pl c (rq_task r) i) /\
                     rq_start r <= rq_target r /\ i = rq_target r - rq_start r /\
                     first_item r result = (Got (rq_task r) i s, inl (upd streams i None))) \/
                  (snd (first_item r result) = result /\ (forall t i s, fst (first_item r result) <> Got t i s) /\
                   outcome_ok pl1 c r (fst (first_item r result)))).
    { destruct result as [streams|e]; [|right; cbn; split; [reflexivity|]; split; [discriminate|assumption]].
      destruct G3 as (l & Hl & Hlen & HG). unfold first_item. destruct (Nat.ltb_spec (rq_target r) (rq_start r)) as [Hlt|Hge].
      { right. cbn. split; [reflexivity|]. split; [discriminate|assumption]. }
      destruct (nth_error l (rq_target r - rq_start r)) as [s|] eqn:Hn.
      - destruct (HG _ _ Hn) as [[H1 H2]|[H1 [c' H2]]]; rewrite H1.
        + left. exists l, streams, (rq_target r - rq_start r), s. auto 10.
        + right. cbn. split; [reflexivity|]. split; [discriminate|]. split; [assumption|]. exists c'. split; [|auto].
          intros ->. destruct H2 as (r' & s' & H2). congruence.
      - assert (Hn2 : nth_error streams (rq_target r - rq_start r) = None).
        { apply nth_error_None in Hn. apply nth_error_None. lia. }
        rewrite Hn2. right. cbn. split; [reflexivity|]. split; [discriminate|]. split; [assumption|]. exists l. split; [assumption|].
        now apply nth_error_None in Hn. }
    constructor; cbn.
    + rewrite upd_length. apply I.
    + apply I.
    + intros r' Hin. destruct (ok_issued_slot _ _ I _ Hin) as (g0 & Hg & Hgr). destruct (Nat.eq_dec (rq_task r') (rq_task r)) as [E|E].
      * rewrite E in *. exists g'. split; [assumption|]. rewrite Hs0 in Hg. injection Hg as <-. assumption.
      * exists g0. now rewrite Hsd.
    + apply I.
    + intros t g0 Hg. destruct (Nat.eq_dec t (rq_task r)) as [->|E].
      * rewrite Hs1 in Hg. injection Hg as <-. split; [assumption|]. split; [assumption|]. cbn.
        destruct Hfi as [(l & streams & i & s & -> & Hl & Hn & Hns & Hnt & Hst & Hi & Hfi)|(Hsnd & Hng & _)].
        -- rewrite Hfi. cbn. destruct G3 as (l2 & Hl2 & Hlen & HG).
           exists l2. split; [assumption|]. split; [now rewrite upd_length|]. intros j s' Hj.
           destruct (Nat.eq_dec i j) as [<-|Hij].
           ++ right. split; [eapply upd_nth_same; eauto|]. exists c. apply Htk. right. split; [reflexivity|]. exists s. now rewrite Hfi.
           ++ rewrite upd_nth_diff by assumption. destruct (HG _ _ Hj) as [[H1 H2]|[H1 [c' H2]]].
              ** left. split; [assumption|]. intros c' Hc'. apply Htk in Hc'. destruct Hc' as [Hc'|[-> [s2 Hc']]]; [now apply H2 in Hc'|].
                 rewrite Hfi in Hc'. cbn in Hc'. congruence.
              ** right. split; [assumption|]. exists c'. auto.
        -- rewrite Hsnd. destruct result as [streams|e]; [|assumption]. destruct G3 as (l & Hl & Hlen & HG). exists l.
           split; [assumption|]. split; [assumption|]. intros j s' Hj. destruct (HG _ _ Hj) as [[H1 H2]|[H1 [c' H2]]].
           ++ left. split; [assumption|]. intros c' Hc'. apply Htk in Hc'. destruct Hc' as [Hc'|[-> [s2 Hc']]]; [now apply H2 in Hc'|].
              now apply Hng in Hc'.
           ++ right. split; [assumption|]. exists c'. auto.
      * rewrite Hsd in Hg by assumption. destruct (ok_groups _ _ I _ _ Hg) as (H1 & H2 & H3). split; [assumption|]. split; [assumption|].
        destruct (g_result g0) as [[streams|e]|]; [|assumption|assumption].
        destruct H3 as (l & Hl & Hlen & HG). exists l. split; [assumption|]. split; [assumption|]. intros j s' Hj.
        destruct (HG _ _ Hj) as [[H4 H5]|[H4 [c' H5]]].
        -- left. split; [assumption|]. intros c' Hc'. apply Htk in Hc'. destruct Hc' as [Hc'|[-> [s2 Hc']]]; [now apply H5 in Hc'|].
           destruct Hfi as [(l' & st' & i' & s3 & _ & _ & _ & _ & _ & _ & _ & Hfi)|(_ & Hng & _)]; [|now apply Hng in Hc'].
           rewrite Hfi in Hc'. cbn in Hc'. congruence.
        -- right. split; [assumption|]. exists c'. auto.
    + intros c' r' H. apply upd_nth_cases in H. destruct H as [[_ H]|[_ H]]; [discriminate|].
      destruct (ok_pending _ _ I _ _ H) as [g0 Hg]. destruct (Nat.eq_dec (rq_task r') (rq_task r)) as [->|E]; [eauto|].
      exists g0. now rewrite Hsd.
    + intros c' r' o H. apply upd_nth_cases in H. destruct H as [[<- H]|[_ H]].
      * injection H as -> ->. destruct Hfi as [(l & streams & i & s & -> & Hl & Hn & Hns & Hnt & Hst & Hi & Hfi)|(_ & _ & Ho)]; [|assumption].
        rewrite Hfi. cbn. do 3 (split; [auto|]). exists l. auto.
      * eapply outcome_ok_ext; [apply (ok_outcomes _ _ I _ _ _ H)|auto|assumption].
    + intros c1 c2 t i H1 H2. apply Htk in H1, H2.
      destruct Hfi as [(l & streams & i0 & s & _ & _ & _ & _ & Hnt & _ & _ & Hfi)|(_ & Hng & _)].
      * rewrite Hfi in H1, H2. cbn in H1, H2.
        destruct H1 as [H1|[-> [s1 H1]]], H2 as [H2|[-> [s2 H2]]].
        -- eapply (ok_unique _ _ I); eauto.
        -- injection H2 as <- <- _. now apply Hnt in H1.
        -- injection H1 as <- <- _. now apply Hnt in H2.
        -- reflexivity.
      * destruct H1 as [H1|[-> [s1 H1]]]; [|now apply Hng in H1]. destruct H2 as [H2|[-> [s2 H2]]]; [|now apply Hng in H2].
        eapply (ok_unique _ _ I); eauto.
    + intros t a H. destruct (ok_answered _ _ I _ _ H) as (g0 & Hg & Hr). destruct (Nat.eq_dec t (rq_task r)) as [->|E].
      * exists g'. split; [assumption|discriminate].
      * exists g0. now rewrite Hsd.
Qed.

Lemma pool_ok_reachable workers n pl : steps (pool_step workers) (pool_new n) pl -> pool_ok n pl.
Proof.
  intros H. refine (steps_invariant _ (pool_ok n) _ _ (pool_ok_new n) _ H). intros; eapply pool_ok_step; eauto.
Qed.
(** Errors of the checks at the call, and where the requests come from. *)
Definition checks_ok (workers n : nat) pl : Prop :=
  List.length (pl_slots pl) = n /\ (forall c r, nth_error (pl_calls pl) c = Some (r, Some NoWorker) -> workers <= rq_task r) /\
  (forall c r, nth_error (pl_calls pl) c = Some (r, Some NoConnection) -> n <= rq_task r) /\
  (forall q, In q (pl_issued pl) -> In q (map fst (pl_calls pl))).

Lemma checks_ok_reachable workers n pl : steps (pool_step workers) (pool_new n) pl -> checks_ok workers n pl.
Proof.
  intros H. refine (steps_invariant _ (checks_ok workers n) _ _ _ _ H).
  - unfold checks_ok, pool_new. cbn. split; [apply repeat_length|]. split; [intros [|?]; discriminate|].
    split; [intros [|?]; discriminate|intros ? []].
  - clear pl H. intros pl pl' (L & A & B & C) Hst. unfold checks_ok.
    destruct Hst as [pl r|pl t r result Hslot|pl c r g result Hc Hslot Hres].
    + unfold pool_call. destruct (Nat.leb_spec workers (rq_task r)) as [Hw|Hw]; cbn.
      { split; [assumption|]. split.
        - intros c r' H. apply nth_snoc in H. destruct H as [[_ H]|[_ H]]; [eauto|]. injection H as ->. assumption.
        - split.
          + intros c r' H. apply nth_snoc in H. destruct H as [[_ H]|[_ H]]; [eauto|discriminate].
          + intros q Hq. rewrite map_app. apply in_or_app. auto. }
      destruct (nth_error (pl_slots pl) (rq_task r)) as [[g|]|] eqn:E; cbn.
      * split; [assumption|]. split; [|split].
        -- intros c r' H. apply nth_snoc in H. destruct H as [[_ H]|[_ H]]; [eauto|discriminate].
        -- intros c r' H. apply nth_snoc in H. destruct H as [[_ H]|[_ H]]; [eauto|discriminate].
        -- intros q Hq. rewrite map_app. apply in_or_app. auto.
      * split; [now rewrite upd_length|]. split; [|split].
        -- intros c r' H. apply nth_snoc in H. destruct H as [[_ H]|[_ H]]; [eauto|discriminate].
        -- intros c r' H. apply nth_snoc in H. destruct H as [[_ H]|[_ H]]; [eauto|discriminate].
        -- intros q Hq. rewrite map_app. apply in_or_app. apply in_app_or in Hq. destruct Hq as [Hq|[->|[]]]; [auto|].
           right. now left.
      * split; [assumption|]. split; [|split].
        -- intros c r' H. apply nth_snoc in H. destruct H as [[_ H]|[_ H]]; [eauto|discriminate].
        -- intros c r' H. apply nth_snoc in H. destruct H as [[_ H]|[_ H]]; [eauto|]. injection H as ->.
           apply nth_error_None in E. lia.
        -- intros q Hq. rewrite map_app. apply in_or_app. auto.
    + cbn. rewrite upd_length. auto.
    + cbn. rewrite upd_length. split; [assumption|].
      assert (Hf : forall o, o = NoWorker \/ o = NoConnection -> fst (first_item r result) <> o).
      { intros o Ho. unfold first_item. destruct result as [l|e]; [|cbn; destruct Ho; subst; discriminate].
        destruct (_ <? _); [cbn; destruct Ho; subst; discriminate|].
        destruct (nth_error l _) as [[s|]|]; cbn; destruct Ho; subst; discriminate. }
      split; [|split].
      * intros c' r' H. apply upd_nth_cases in H. destruct H as [[_ H]|[_ H]]; [|eauto]. injection H as _ H.
        destruct (Hf NoWorker); auto.
      * intros c' r' H. apply upd_nth_cases in H. destruct H as [[_ H]|[_ H]]; [|eauto]. injection H as _ H.
        destruct (Hf NoConnection); auto.
      * intros q Hq. apply C in Hq. clear - Hq Hc. apply In_nth_error in Hq. destruct Hq as [k Hk].
        rewrite nth_error_map in Hk. destruct (nth_error (pl_calls pl) k) as [[q' o']|] eqn:E; [|discriminate].
        cbn in Hk. injection Hk as ->. destruct (Nat.eq_dec c k) as [<-|Hd].
        -- rewrite Hc in E. injection E as -> <-.
           apply (in_map fst _ (q, Some (fst (first_item q result)))). eapply nth_error_In. eapply upd_nth_same. exact Hc.
        -- apply (in_map fst _ (q, o')). eapply nth_error_In. rewrite upd_nth_diff; eauto.
Qed.
End Proofs.
