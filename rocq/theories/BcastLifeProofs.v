(** Proofs about what a broadcast holds. *)
From Coq Require Import ZArith.
From Verif Require Import Base CiuModel CiuProofs BcastModel BcastSpec BcastProofs BcastLifeModel BcastLifeSpec.

(** ** Sums *)
Definition zsum (g : nat -> Z) (n : nat) : Z := fold_right (fun i a => (g i + a)%Z) 0%Z (seq 0 n).

Lemma fold_ext (g g' : nat -> Z) l : (forall i, In i l -> g i = g' i) ->
  fold_right (fun i a => (g i + a)%Z) 0%Z l = fold_right (fun i a => (g' i + a)%Z) 0%Z l.
Proof. induction l as [|x l IH]; intros H; cbn; [reflexivity|]. rewrite (H x), IH; [reflexivity| |]; intros; try apply H; now (left + right). Qed.

Lemma zsum_ext g g' n : (forall i, i < n -> g i = g' i) -> zsum g n = zsum g' n.
Proof. intros H. apply fold_ext. intros i Hi. apply in_seq in Hi. apply H. lia. Qed.

Lemma zsum_S g n : zsum g (S n) = (zsum g n + g n)%Z.
Proof.
  unfold zsum. rewrite seq_S. cbn [Nat.add]. induction (seq 0 n) as [|x l IH]; cbn; [lia|]. cbn in IH. rewrite IH. lia.
Qed.

Lemma zsum_set g g' i n : i < n -> (forall j, j <> i -> g' j = g j) -> zsum g' n = (zsum g n - g i + g' i)%Z.
Proof.
  intros Hi H. induction n as [|n IH]; [lia|]. rewrite !zsum_S. destruct (Nat.eq_dec i n) as [->|Hn].
  - rewrite (zsum_ext g' g n) by (intros j Hj; apply H; lia). lia.
  - rewrite IH by lia. rewrite (H n) by lia. lia.
Qed.

Lemma zsum_sub g g' d n : (forall i, i < n -> g' i = (g i - d i)%Z) -> zsum g' n = (zsum g n - zsum d n)%Z.
Proof.
  intros H. induction n as [|n IH]; [reflexivity|]. rewrite !zsum_S, IH by (intros; apply H; lia). rewrite H by lia. lia.
Qed.

Section Proofs.
Context {batch err : Type}.
Variable size : batch -> N.
Notation node := (@node batch err).
Notation life := (@life batch err).
Notation life_step := (@life_step batch err size).
Notation entries_bytes := (@entries_bytes batch err size).

(** ** Slots *)
Lemma slot_at_upd (slots : list (@slot_state batch err)) ex ans i s j : i < List.length slots ->
  slot_at (mkState (upd slots i s) ex ans) j = if j =? i then s else slot_at (mkState slots ex ans) j.
Proof.
  intros Hi. unfold slot_at. cbn. destruct (Nat.eqb_spec j i) as [->|Hj].
  - apply nth_error_nth. rewrite upd_nth, Nat.eqb_refl.
    destruct (nth_error slots i) eqn:E; [reflexivity|]. apply nth_error_None in E. lia.
  - rewrite <- (nth_error_nth' (upd slots i s) Unused) at 1 || idtac.
    assert (E : nth_error (upd slots i s) j = nth_error slots j).
    { rewrite upd_nth. destruct (Nat.eqb_spec i j); [congruence|reflexivity]. }
    destruct (nth_error slots j) as [x|] eqn:E2.
    + now rewrite (nth_error_nth _ _ Unused E), (nth_error_nth _ _ Unused E2).
    + rewrite !nth_overflow; [reflexivity| |]; now apply nth_error_None.
Qed.

Lemma slot_at_some (st : @state batch err) real s : nth_error (st_slots st) real = Some s -> slot_at st real = s.
Proof. intros H. unfold slot_at. now apply nth_error_nth. Qed.

Lemma slot_at_live (st : @state batch err) real r : slot_at st real = Live r -> nth_error (st_slots st) real = Some (Live r).
Proof.
  unfold slot_at. intros H. destruct (nth_error (st_slots st) real) as [s|] eqn:E.
  - rewrite (nth_error_nth _ _ Unused E) in H. congruence.
  - rewrite nth_overflow in H by now apply nth_error_None. discriminate.
Qed.

(** ** Readers *)
Definition in_gone (gone : list (nat * nat)) (h : nat * nat) : bool :=
  existsb (fun x => (fst x =? fst h) && (snd x =? snd h)) gone.
Lemma in_gone_iff gone h : in_gone gone h = true <-> In h gone.
Proof.
  unfold in_gone. rewrite existsb_exists. split.
  - intros ([a b] & Hin & E). apply andb_prop in E as [E1 E2]. apply Nat.eqb_eq in E1, E2. destruct h. cbn in *. now subst.
  - intros H. exists h. split; [assumption|]. now rewrite !Nat.eqb_refl.
Qed.
Definition living (gone : list (nat * nat)) (real n : nat) : nat :=
  List.length (filter (fun k => negb (in_gone gone (real, k))) (seq 0 n)).

Lemma living_S gone real n : ~ In (real, n) gone -> living gone real (S n) = S (living gone real n).
Proof.
  intros H. unfold living. rewrite seq_S, filter_app, app_length. cbn.
  destruct (in_gone gone (real, n)) eqn:E; [now apply in_gone_iff in E|]. cbn. lia.
Qed.
Lemma living_S_gone gone real n : In (real, n) gone -> living gone real (S n) = living gone real n.
Proof.
  intros H. unfold living. rewrite seq_S, filter_app, app_length. cbn.
  apply in_gone_iff in H. rewrite H. cbn. lia.
Qed.

Lemma in_gone_cons gone h x : in_gone (h :: gone) x = ((fst h =? fst x) && (snd h =? snd x)) || in_gone gone x.
Proof. reflexivity. Qed.

Lemma living_drop gone real k n : k < n -> ~ In (real, k) gone ->
  living gone real n = S (living ((real, k) :: gone) real n).
Proof.
  intros Hk Hg. induction n as [|n IH]; [lia|].
  destruct (Nat.eq_dec k n) as [->|Hn].
  - rewrite living_S by assumption. rewrite living_S_gone by (now left). f_equal. clear IH Hk.
    unfold living. f_equal. apply filter_ext_in. intros a Ha. apply in_seq in Ha. rewrite in_gone_cons. cbn [fst snd].
    destruct (Nat.eqb_spec n a); [lia|]. now rewrite andb_false_r.
  - destruct (in_dec (fun a b : nat * nat => ltac:(decide equality; apply Nat.eq_dec)) (real, n) gone) as [Hin|Hin].
    + rewrite !living_S_gone; [apply IH; lia|now right|assumption].
    + rewrite !living_S; [f_equal; apply IH; lia| |assumption]. intros [E|E]; [congruence|contradiction].
Qed.

Lemma living_other gone real real' k n : real <> real' -> living ((real', k) :: gone) real n = living gone real n.
Proof.
  intros H. unfold living. f_equal. apply filter_ext. intros a. rewrite in_gone_cons. cbn [fst].
  destruct (Nat.eqb_spec real' real); [congruence|reflexivity].
Qed.

Lemma living_zero gone real n : living gone real n = 0 <-> forall k, k < n -> In (real, k) gone.
Proof.
  induction n as [|n IH]; [split; [lia|reflexivity]|].
  destruct (in_dec (fun a b : nat * nat => ltac:(decide equality; apply Nat.eq_dec)) (real, n) gone) as [Hin|Hin].
  - rewrite living_S_gone by assumption. rewrite IH. split; intros H k Hk; [|apply H; lia].
    destruct (Nat.eq_dec k n) as [->|]; [assumption|apply H; lia].
  - rewrite living_S by assumption. split; [discriminate|]. intros H. exfalso. apply Hin, H. lia.
Qed.

(** ** The invariant *)
Definition queue_part (p : @producer batch err) : nat := match p with Finished => 0 | _ => 1 end.

Definition slot_life (nd : node) (alive : bool) (gone : list (nat * nat)) (real : nat) (s : @slot_state batch err) (refs tasks : nat) : Prop :=
  match s with
  | Live r =>
      List.length (r_consumers r) = n_consumers nd /\ r_popped r <= n_consumers nd /\
      refs = queue_part (r_producer r) + living gone real (r_popped r) + (if alive then n_consumers nd - r_popped r else 0) /\
      tasks = (if alive then 1 else 0) + living gone real (r_popped r)
  | _ => refs = 0 /\ tasks = 0
  end.

Definition contribution (refs : nat -> nat) (st : @state batch err) (real : nat) : Z :=
  if refs real =? 0 then 0%Z else entries_bytes (slot_entries (slot_at st real)).

Record life_ok (nd : node) (l : life) : Prop := {
  ok_base : steps (node_step nd) (init_state nd) (l_base l);
  ok_slots : forall real, slot_life nd (l_node l) (l_gone l) real (slot_at (l_base l) real) (l_refs l real) (l_tasks l real);
  ok_gone : forall real k, In (real, k) (l_gone l) -> exists r, slot_at (l_base l) real = Live r /\ k < r_popped r;
  ok_aborted : forall real, In real (l_aborted l) -> l_tasks l real = 0 /\ l_node l = false;
  ok_crashed : forall real r, slot_at (l_base l) real = Live r -> r_crashed r = true ->
    In real (l_panicked l) \/ In real (l_aborted l);
  ok_pool : l_pool l = zsum (contribution (l_refs l) (l_base l)) (List.length (st_slots (l_base l)))
}.

Lemma bytes_app a b : entries_bytes (a ++ b) = (entries_bytes a + entries_bytes b)%Z.
Proof.
  induction a as [|x a IH]; [reflexivity|]. cbn [app]. unfold BcastLifeModel.entries_bytes in *. cbn [fold_right]. rewrite IH. lia.
Qed.

Lemma contribution_same (refs refs' : nat -> nat) (st st' : @state batch err) real :
  refs' real = refs real -> slot_at st' real = slot_at st real -> contribution refs' st' real = contribution refs st real.
Proof. intros H1 H2. unfold contribution. now rewrite H1, H2. Qed.

Lemma zsum_zero n : zsum (fun _ => 0%Z) n = 0%Z.
Proof. induction n as [|n IH]; [reflexivity|]. rewrite zsum_S, IH. reflexivity. Qed.

Lemma life_ok_init (nd : node) : life_ok nd (life_init nd).
Proof.
  assert (E : forall real, slot_at (@init_state batch err nd) real = Unused).
  { intros real. unfold slot_at. cbn. destruct (nth_error (map (fun _ => @Unused batch err) (n_input nd)) real) as [s|] eqn:Es.
    - rewrite (nth_error_nth _ _ _ Es). rewrite nth_error_map in Es. destruct (nth_error (n_input nd) real); cbn in Es; congruence.
    - apply nth_overflow. now apply nth_error_None. }
  constructor; cbn [life_init l_base l_node l_gone l_panicked l_aborted l_refs l_tasks l_pool].
  - constructor.
  - intros real. rewrite E. cbn. auto.
  - intros real k [].
  - intros real [].
  - intros real r Hr. rewrite E in Hr. discriminate.
  - symmetry. apply zsum_zero.
Qed.

Lemma set_at_eq {A} (f : nat -> A) i v : set_at f i v i = v.
Proof. unfold set_at. now rewrite Nat.eqb_refl. Qed.
Lemma set_at_neq {A} (f : nat -> A) i v j : j <> i -> set_at f i v j = f j.
Proof. intros H. unfold set_at. now destruct (Nat.eqb_spec j i). Qed.

Lemma nth_lt {A} (l : list A) i x : nth_error l i = Some x -> i < List.length l.
Proof. intros H. apply nth_error_Some. congruence. Qed.

(** A step of the producer. *)
Lemma producer_bytes q p q' p' (c c' : bool) : @producer_step batch err (q, p, c) (q', p', c') ->
  entries_bytes (q_entries q') = (entries_bytes (q_entries q) + grown size p p')%Z.
Proof.
  intros H. inversion H; subst; cbn [q_entries grown]; try lia.
  - rewrite bytes_app. cbn. lia.
  - rewrite bytes_app. cbn. lia.
  - destruct todo as [|[b|e] todo]; lia.
Qed.
Lemma producer_parts q p q' p' (c c' : bool) : @producer_step batch err (q, p, c) (q', p', c') ->
  queue_part p = 1 /\ queue_part p' = 1 - producer_drops p p' /\ (producer_drops p p' = 1 -> q_entries q' = q_entries q /\ grown size p p' = 0%Z).
Proof. intros H. inversion H; subst; cbn; repeat split; try lia; try discriminate; reflexivity. Qed.

Lemma life_ok_step (nd : node) l l' : life_ok nd l -> life_step nd l l' -> life_ok nd l'.
Proof.
  intros [Hb Hs Hg Ha Hc Hp] Hstep.
  destruct Hstep as [l partition real s inp s' ans Hn Hne Hreal Hsl Hi Hpop
                    |l real r q' p' Hsl Hps |l real r todo Hsl Hpr |l real r todo Hsl Hpr Ht
                    |l real r k c Hsl Hk Hcn Hng |l real r k c Hsl Hk Hcn Hpc Hng |l Hn].
  - (* execute *)
    pose proof (nth_lt _ _ _ Hsl) as Hlt.
    assert (Hb' : node_step nd (l_base l) (mkState (upd (st_slots (l_base l)) real s')
                (match s, nth_error (st_executed (l_base l)) real with
                 | Unused, Some k => upd (st_executed (l_base l)) real (k + 1)
                 | _, _ => st_executed (l_base l) end)
                (st_answers (l_base l) ++ [(partition, ans)]))) by (eapply call_execute; eauto).
    assert (Hat : forall ex an j, slot_at (mkState (upd (st_slots (l_base l)) real s') ex an) j = if j =? real then s' else slot_at (l_base l) j).
    { intros ex an j. rewrite slot_at_upd by assumption. reflexivity. }
    pose proof (slot_at_some _ _ _ Hsl) as Hat0. pose proof (Hs real) as Hsr. rewrite Hat0, Hn in Hsr.
    (* what the slot looks like afterwards *)
    assert (Hgone0 : forall r, s' = Live r -> forall k, In (real, k) (l_gone l) -> k < match s with Live r0 => r_popped r0 | _ => 0 end).
    { intros r _ k Hk. destruct (Hg _ _ Hk) as (r0 & E & Hlt0). rewrite Hat0 in E. rewrite E. exact Hlt0. }
    assert (Key : slot_life nd true (l_gone l) real s'
              ((match s, s' with Unused, Live _ => set_at (l_refs l) real (1 + n_consumers nd) | _, _ => l_refs l end) real)
              (set_at (l_tasks l) real
                 (l_tasks l real + match s, s' with Unused, Live _ => 1 | _, _ => 0 end + match ans with inl _ => 1 | inr _ => 0 end) real)
            /\ slot_entries s' = slot_entries s /\ (forall r, s' = Live r -> r_crashed r = true -> exists r0, s = Live r0 /\ r_crashed r0 = true)
            /\ (forall r0, s = Live r0 -> exists r, s' = Live r /\ r_popped r0 <= r_popped r)
            /\ (s = Unused -> slot_entries s' = [])
            /\ (match s, s' with Unused, Live _ => True | _, _ => True end)).
    { rewrite set_at_eq. destruct s as [|e|r].
      - destruct Hsr as [Hr0 Ht0]. rewrite Ht0. destruct inp as [todo|e]; cbn [init_slot] in Hpop.
        + cbn [pop_consumer r_popped r_consumers] in Hpop. rewrite repeat_length in Hpop.
          destruct (Nat.ltb_spec 0 (n_consumers nd)) as [Hlt0|Hge].
          * injection Hpop as <- <-. rewrite set_at_eq. cbn [slot_life r_consumers r_popped r_producer queue_part Nat.add].
            rewrite repeat_length. split; [|split; [reflexivity|split; [intros r E Hcr; injection E as <-; discriminate|split; [discriminate|split; [reflexivity|trivial]]]]].
            assert (El : living (l_gone l) real 1 = 1).
            { rewrite living_S; [reflexivity|]. intros Hin. destruct (Hg _ _ Hin) as (r0 & E & _). rewrite Hat0 in E. discriminate. }
            rewrite El. repeat split; lia.
          * injection Hpop as <- <-. rewrite set_at_eq. cbn. rewrite repeat_length. repeat split; try lia; try discriminate; auto.
            intros r E Hcr. injection E as <-. discriminate.
        + cbn in Hpop. injection Hpop as <- <-. cbn. rewrite Hr0. repeat split; try discriminate.
      - destruct Hsr as [Hr0 Ht0]. cbn in Hpop. injection Hpop as <- <-. cbn. rewrite Hr0, Ht0. repeat split; try discriminate; auto.
      - destruct Hsr as (H1 & H2 & H3 & H4). cbn [pop_consumer] in Hpop.
        destruct (Nat.ltb_spec (r_popped r) (List.length (r_consumers r))) as [Hlt0|Hge].
        + injection Hpop as <- <-. cbn [slot_life r_consumers r_popped r_producer slot_entries r_queue].
          split; [|split; [reflexivity|split; [|split; [|split; [discriminate|trivial]]]]].
          * replace (r_popped r + 1) with (S (r_popped r)) by lia. rewrite living_S; [repeat split; lia|].
            intros Hin. pose proof (Hgone0 _ eq_refl _ Hin) as Hx. cbn in Hx. lia.
          * intros r1 E Hcr. injection E as <-. cbn in Hcr. exists r. auto.
          * intros r0 E. injection E as <-. eexists. split; [reflexivity|]. cbn. lia.
        + injection Hpop as <- <-. split; [|split; [reflexivity|split; [|split; [|split; [discriminate|trivial]]]]].
          * cbn [slot_life]. repeat split; lia.
          * intros r1 E Hcr. injection E as <-. exists r. auto.
          * intros r0 E. injection E as <-. eauto. }
    destruct Key as (K1 & K2 & K3 & K4 & K5 & _).
    constructor; cbn [l_base l_node l_gone l_panicked l_aborted l_refs l_tasks l_pool].
    + eapply steps_next; [exact Hb|exact Hb'].
    + intros j. rewrite Hat. destruct (Nat.eqb_spec j real) as [->|Hj]; [exact K1|].
      rewrite set_at_neq by assumption. pose proof (Hs j) as Hj'. rewrite Hn in Hj'.
      destruct s, s'; try exact Hj'. rewrite set_at_neq by assumption. exact Hj'.
    + intros j k Hin. rewrite Hat. destruct (Hg _ _ Hin) as (r0 & E & Hlt0). destruct (Nat.eqb_spec j real) as [->|Hj]; [|eauto].
      rewrite Hat0 in E. destruct (K4 _ E) as (r & -> & Hle). exists r. split; [reflexivity|lia].
    + intros j Hin. destruct (Ha _ Hin) as [_ Hf]. congruence.
    + intros j r. rewrite Hat. destruct (Nat.eqb_spec j real) as [->|Hj]; [|apply Hc].
      intros E Hcr. destruct (K3 _ E Hcr) as (r0 & E0 & Hcr0). apply (Hc real r0); [now rewrite Hat0|assumption].
    + rewrite Hp. cbn [st_slots]. rewrite upd_length. apply zsum_ext. intros j Hj. unfold contribution. rewrite Hat.
      destruct (Nat.eqb_spec j real) as [->|Hjr].
      * rewrite K2, Hat0. destruct s as [|e|r]; [|reflexivity|reflexivity]. cbn [slot_entries]. cbn.
        destruct (_ =? 0); destruct (_ =? 0); reflexivity.
      * destruct s, s'; try reflexivity. now rewrite set_at_neq.
  - (* produce *)
    pose proof (nth_lt _ _ _ Hsl) as Hlt. pose proof (slot_at_some _ _ _ Hsl) as Hat0.
    pose proof (Hs real) as Hsr. rewrite Hat0 in Hsr. destruct Hsr as (H1 & H2 & H3 & H4).
    destruct (producer_parts _ _ _ _ _ _ Hps) as (P1 & P2 & P3). pose proof (producer_bytes _ _ _ _ _ _ Hps) as P4.
    assert (P5 : producer_drops (r_producer r) p' <= 1) by (destruct (r_producer r), p'; cbn; lia).
    assert (Hat : forall ex an x j, slot_at (mkState (upd (st_slots (l_base l)) real x) ex an) j = if j =? real then x else slot_at (l_base l) j).
    { intros ex an x j. now rewrite slot_at_upd by assumption. }
    constructor; cbn [l_base l_node l_gone l_panicked l_aborted l_refs l_tasks l_pool].
    + eapply steps_next; [exact Hb|]. now apply producer_moves.
    + intros j. rewrite Hat. destruct (Nat.eqb_spec j real) as [->|Hj].
      * rewrite set_at_eq. cbn [slot_life r_consumers r_popped r_producer]. repeat split; try assumption. lia.
      * rewrite set_at_neq by assumption. apply Hs.
    + intros j k Hin. rewrite Hat. destruct (Hg _ _ Hin) as (r0 & E & Hlt0). destruct (Nat.eqb_spec j real) as [->|Hj]; [|eauto].
      rewrite Hat0 in E. injection E as <-. eexists. split; [reflexivity|]. exact Hlt0.
    + exact Ha.
    + intros j r0. rewrite Hat. destruct (Nat.eqb_spec j real) as [->|Hj]; [|apply Hc].
      intros E Hcr. injection E as <-. cbn in Hcr. apply (Hc real r); assumption.
    + cbn [st_slots]. rewrite upd_length.
      rewrite (zsum_set (contribution (l_refs l) (l_base l)) _ real) by
        (first [assumption|intros j Hj; apply contribution_same; [now apply set_at_neq|rewrite Hat; now destruct (Nat.eqb_spec j real)]]).
      rewrite Hp. unfold contribution at 3 4. rewrite Hat, Nat.eqb_refl, set_at_eq, Hat0. cbn [slot_entries r_queue].
      unfold given_back.
      destruct (Nat.eqb_spec (l_refs l real) 0) as [E0|E0]; [lia|].
      replace (0 <? l_refs l real) with true by (symmetry; apply Nat.ltb_lt; lia). cbn [andb].
      destruct (Nat.eqb_spec (l_refs l real - producer_drops (r_producer r) p') 0) as [E1|E1]; [|lia].
      assert (E2 : producer_drops (r_producer r) p' = 1).
      { destruct (producer_drops (r_producer r) p') as [|[|n]] eqn:E; [lia|reflexivity|].
        destruct (r_producer r), p'; cbn in E; discriminate. }
      destruct (P3 E2) as [-> E3]. rewrite E3. lia.
  - (* panic *)
    pose proof (nth_lt _ _ _ Hsl) as Hlt. pose proof (slot_at_some _ _ _ Hsl) as Hat0.
    pose proof (Hs real) as Hsr. rewrite Hat0 in Hsr. destruct Hsr as (H1 & H2 & H3 & H4).
    assert (Hat : forall ex an x j, slot_at (mkState (upd (st_slots (l_base l)) real x) ex an) j = if j =? real then x else slot_at (l_base l) j).
    { intros ex an x j. now rewrite slot_at_upd by assumption. }
    constructor; cbn [l_base l_node l_gone l_panicked l_aborted l_refs l_tasks l_pool].
    + eapply steps_next; [exact Hb|]. apply producer_moves; [assumption|]. rewrite Hpr. apply crash.
    + intros j. rewrite Hat. destruct (Nat.eqb_spec j real) as [->|Hj]; [|apply Hs].
      cbn [slot_life r_consumers r_popped r_producer]. rewrite Hpr in H3. repeat split; assumption.
    + intros j k Hin. rewrite Hat. destruct (Hg _ _ Hin) as (r0 & E & Hlt0). destruct (Nat.eqb_spec j real) as [->|Hj]; [|eauto].
      rewrite Hat0 in E. injection E as <-. eexists. split; [reflexivity|]. exact Hlt0.
    + exact Ha.
    + intros j r0. rewrite Hat. destruct (Nat.eqb_spec j real) as [->|Hj]; [intros _ _; left; now left|].
      intros E Hcr. destruct (Hc _ _ E Hcr); [left; now right|now right].
    + cbn [st_slots]. rewrite upd_length, Hp. apply zsum_ext. intros j Hj. unfold contribution. rewrite Hat.
      destruct (Nat.eqb_spec j real) as [->|]; [now rewrite Hat0|reflexivity].
  - (* abort *)
    pose proof (nth_lt _ _ _ Hsl) as Hlt. pose proof (slot_at_some _ _ _ Hsl) as Hat0.
    pose proof (Hs real) as Hsr. rewrite Hat0 in Hsr. destruct Hsr as (H1 & H2 & H3 & H4).
    assert (Hat : forall ex an x j, slot_at (mkState (upd (st_slots (l_base l)) real x) ex an) j = if j =? real then x else slot_at (l_base l) j).
    { intros ex an x j. now rewrite slot_at_upd by assumption. }
    constructor; cbn [l_base l_node l_gone l_panicked l_aborted l_refs l_tasks l_pool].
    + eapply steps_next; [exact Hb|]. apply producer_moves; [assumption|]. rewrite Hpr. apply crash.
    + intros j. rewrite Hat. destruct (Nat.eqb_spec j real) as [->|Hj]; [|apply Hs].
      cbn [slot_life r_consumers r_popped r_producer]. rewrite Hpr in H3. repeat split; assumption.
    + intros j k Hin. rewrite Hat. destruct (Hg _ _ Hin) as (r0 & E & Hlt0). destruct (Nat.eqb_spec j real) as [->|Hj]; [|eauto].
      rewrite Hat0 in E. injection E as <-. eexists. split; [reflexivity|]. exact Hlt0.
    + intros j [<-|Hin]; [|now apply Ha]. split; [assumption|]. destruct (l_node l); [lia|reflexivity].
    + intros j r0. rewrite Hat. destruct (Nat.eqb_spec j real) as [->|Hj]; [intros _ _; right; now left|].
      intros E Hcr. destruct (Hc _ _ E Hcr); [now left|right; now right].
    + cbn [st_slots]. rewrite upd_length, Hp. apply zsum_ext. intros j Hj. unfold contribution. rewrite Hat.
      destruct (Nat.eqb_spec j real) as [->|]; [now rewrite Hat0|reflexivity].
  - (* poll *)
    pose proof (nth_lt _ _ _ Hsl) as Hlt. pose proof (slot_at_some _ _ _ Hsl) as Hat0.
    pose proof (Hs real) as Hsr. rewrite Hat0 in Hsr. destruct Hsr as (H1 & H2 & H3 & H4).
    assert (Hat : forall ex an x j, slot_at (mkState (upd (st_slots (l_base l)) real x) ex an) j = if j =? real then x else slot_at (l_base l) j).
    { intros ex an x j. now rewrite slot_at_upd by assumption. }
    constructor; cbn [l_base l_node l_gone l_panicked l_aborted l_refs l_tasks l_pool].
    + eapply steps_next; [exact Hb|]. now apply consumer_moves.
    + intros j. rewrite Hat. destruct (Nat.eqb_spec j real) as [->|Hj]; [|apply Hs].
      cbn [slot_life r_consumers r_popped r_producer]. rewrite upd_length. repeat split; assumption.
    + intros j k0 Hin. rewrite Hat. destruct (Hg _ _ Hin) as (r0 & E & Hlt0). destruct (Nat.eqb_spec j real) as [->|Hj]; [|eauto].
      rewrite Hat0 in E. injection E as <-. eexists. split; [reflexivity|]. exact Hlt0.
    + exact Ha.
    + intros j r0. rewrite Hat. destruct (Nat.eqb_spec j real) as [->|Hj]; [|apply Hc].
      intros E Hcr. injection E as <-. cbn in Hcr. apply (Hc real r); assumption.
    + cbn [st_slots]. rewrite upd_length, Hp. apply zsum_ext. intros j Hj. unfold contribution. rewrite Hat.
      destruct (Nat.eqb_spec j real) as [->|]; [now rewrite Hat0|reflexivity].
  - (* a stream is dropped *)
    pose proof (nth_lt _ _ _ Hsl) as Hlt. pose proof (slot_at_some _ _ _ Hsl) as Hat0.
    pose proof (Hs real) as Hsr. rewrite Hat0 in Hsr. destruct Hsr as (H1 & H2 & H3 & H4).
    pose proof (living_drop (l_gone l) real k (r_popped r) Hk Hng) as Hd.
    constructor; cbn [l_base l_node l_gone l_panicked l_aborted l_refs l_tasks l_pool].
    + exact Hb.
    + intros j. destruct (Nat.eq_dec j real) as [->|Hj].
      * rewrite !set_at_eq, Hat0. cbn [slot_life]. repeat split; lia.
      * rewrite !set_at_neq by assumption. pose proof (Hs j) as Hj'. destruct (slot_at (l_base l) j) as [|e|r0]; try exact Hj'.
        cbn [slot_life] in *. now rewrite living_other.
    + intros j k0 [E|Hin]; [injection E as <- <-; eauto|eauto].
    + intros j Hin. destruct (Ha _ Hin) as [Hx Hy]. split; [|assumption].
      destruct (Nat.eq_dec j real) as [->|Hj]; [rewrite set_at_eq; lia|now rewrite set_at_neq].
    + exact Hc.
    + rewrite (zsum_set (contribution (l_refs l) (l_base l)) _ real) by
        (first [assumption|intros j Hj; apply contribution_same; [now apply set_at_neq|reflexivity]]).
      rewrite Hp. unfold contribution at 3 4. rewrite set_at_eq, Hat0. cbn [slot_entries]. unfold given_back.
      destruct (Nat.eqb_spec (l_refs l real) 0) as [E0|E0]; [lia|].
      replace (0 <? l_refs l real) with true by (symmetry; apply Nat.ltb_lt; lia). cbn [andb].
      destruct (l_refs l real - 1 =? 0); lia.
  - (* the node is dropped *)
    constructor; cbn [l_base l_node l_gone l_panicked l_aborted l_refs l_tasks l_pool].
    + exact Hb.
    + intros j. pose proof (Hs j) as Hj. rewrite Hn in Hj. destruct (slot_at (l_base l) j) as [|e|r]; cbn [slot_life slot_drops slot_task] in *.
      * lia.
      * lia.
      * destruct Hj as (H1 & H2 & H3 & H4). repeat split; lia.
    + exact Hg.
    + intros j Hin. destruct (Ha _ Hin) as [_ Hf]. congruence.
    + exact Hc.
    + rewrite Hp. symmetry. apply zsum_sub. intros i Hi. unfold contribution, given_back.
      destruct (Nat.eqb_spec (l_refs l i) 0) as [->|E]; [cbn; lia|].
      replace (0 <? l_refs l i) with true by (symmetry; apply Nat.ltb_lt; lia). cbn [andb].
      destruct (_ =? 0); lia.
Qed.

Lemma life_ok_reachable (nd : node) l : steps (life_step nd) (life_init nd) l -> life_ok nd l.
Proof. apply steps_invariant; [apply life_ok_init|apply life_ok_step]. Qed.
End Proofs.
