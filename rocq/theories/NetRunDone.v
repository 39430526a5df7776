(** Whatever a boundary may yield, it may yield it over the network. *)
From Verif Require Import Base NetModel CiuModel CiuProofs PlannerModel PlannerProofs ExecModel OrderModel OrderProofs PoolModel PoolSpec PoolProofs PoolProps
  DemuxModel DemuxSpec DemuxProofs DemuxProps NetRunModel NetRunProofs.

Lemma choose_below {A} (R : nat -> A -> Prop) n (d : A) :
  (forall i, i < n -> exists x, R i x) -> exists f, forall i, i < n -> R i (f i).
Proof.
  induction n as [|n IH]; intros H; [exists (fun _ => d); intros; lia|].
  destruct IH as [f Hf]; [intros; apply H; lia|]. destruct (H n) as [x Hx]; [lia|].
  exists (fun i => if i =? n then x else f i). intros i Hi. destruct (Nat.eqb_spec i n); [now subst|]. apply Hf. lia.
Qed.

Lemma Forall2_length' {A B} (R : A -> B -> Prop) l l' : Forall2 R l l' -> List.length l = List.length l'.
Proof. induction 1; cbn; congruence. Qed.

(** * A pool can serve calls that fit together *)
Section Pool.
Context {row stream err : Type}.
Implicit Types pl : pool row stream err.
Implicit Types rs : list (request row).

Definition fresh pl : Prop :=
  pl_answers pl = [] /\ forall t g, slot pl t = Some g -> g_result g = None.

Lemma calls_made n rs : exists pl, pool_reachable n n pl /\ fresh pl /\ map fst (pl_calls pl) = rs.
Proof.
  induction rs as [|r rs IH] using rev_ind.
  - exists (pool_new n). split; [constructor|]. split; [|reflexivity]. split; [reflexivity|].
    intros t g H. unfold slot in H. cbn in H. destruct (nth_error _ _) as [o|] eqn:E; [|discriminate].
    apply nth_error_In, repeat_spec in E. now subst.
  - destruct IH as (pl & Hr & (Ha & Hg) & Hc). exists (pool_call n pl r). split; [eapply steps_next; [exact Hr|constructor]|].
    unfold pool_call. destruct (n <=? rq_task r); [|destruct (nth_error (pl_slots pl) (rq_task r)) as [[g|]|] eqn:E]; cbn.
    + split; [split; assumption|]. rewrite map_app. cbn. now rewrite Hc.
    + split; [split; assumption|]. rewrite map_app. cbn. now rewrite Hc.
    + split; [|rewrite map_app; cbn; now rewrite Hc]. split; [assumption|].
      intros t g H. apply slot_inv in H. cbn in H. apply upd_nth_cases in H. destruct H as [[_ H]|[_ H]].
      * injection H as ->. reflexivity.
      * apply slot_intro in H. eauto.
    + split; [split; assumption|]. rewrite map_app. cbn. now rewrite Hc.
Qed.

(** Every connection of a task below [k] is up; no other is. *)
Definition up_to (ans : nat -> list stream) k pl : Prop :=
  (forall t a, In (t, a) (pl_answers pl) -> a = inl (ans t)) /\
  forall t g, slot pl t = Some g -> (t < k -> g_result g <> None) /\ (k <= t -> g_result g = None).

Lemma resolved_up_to n (ans : nat -> list stream) rs k : exists pl,
  pool_reachable n n pl /\ up_to ans k pl /\ map fst (pl_calls pl) = rs.
Proof.
  induction k as [|k (pl & Hr & (Ha & Hg) & Hc)].
  - destruct (calls_made n rs) as (pl & Hr & (Ha & Hg) & Hc). exists pl. split; [assumption|]. split; [|assumption].
    split; [rewrite Ha; intros ? ? []|]. intros t g H. split; [lia|]. intros _. eauto.
  - destruct (slot pl k) as [[q res]|] eqn:E.
    + pose proof (slot_inv _ _ _ E) as E'. pose proof (proj2 (Hg _ _ E) (Nat.le_refl _)) as Eg. cbn in Eg. subst res.
      eexists. split; [eapply steps_next; [exact Hr|apply (resolve_step n pl k q (inl (ans k)) E')]|]. split; [|exact Hc]. split; cbn.
      * intros t a Hin. apply in_app_or in Hin. destruct Hin as [Hin|[Hin|[]]]; [eauto|]. now injection Hin as <- <-.
      * intros t g H. apply slot_inv in H. cbn in H. apply upd_nth_cases in H. destruct H as [[<- H]|[Hne H]].
        -- injection H as ->. cbn. split; [congruence|lia].
        -- apply slot_intro in H. destruct (Hg _ _ H). split; intros; [apply H0; lia|apply H1; lia].
    + exists pl. split; [assumption|]. split; [|assumption]. split; [assumption|]. intros t g H. destruct (Hg _ _ H) as [A B].
      split; intros Ht; [|apply B; lia]. destruct (Nat.eq_dec t k) as [->|]; [congruence|apply A; lia].
Qed.

Lemma polled_up_to n (ans : nat -> list stream) rs k : (forall r, In r rs -> rq_task r < n) -> exists pl,
  pool_reachable n n pl /\ up_to ans n pl /\ map fst (pl_calls pl) = rs /\
  forall c r, c < k -> nth_error rs c = Some r -> exists o, outcome_of pl c r o.
Proof.
  intros Hlt. induction k as [|k (pl & Hr & (Ha & Hg) & Hc & Ho)].
  - destruct (resolved_up_to n ans rs n) as (pl & ? & ? & ?). exists pl. repeat (split; [assumption|]). intros; lia.
  - destruct (nth_error (pl_calls pl) k) as [[r [o|]]|] eqn:E.
    + exists pl. split; [assumption|].
      split; [split; assumption|]. split; [assumption|]. intros c r' Hk Hr'. destruct (Nat.eq_dec c k) as [->|]; [|apply Ho; [lia|assumption]].
      rewrite <- Hc, nth_error_map, E in Hr'. cbn in Hr'. injection Hr' as <-. exists o. exact E.
    + assert (Hrn : rq_task r < n).
      { apply Hlt. rewrite <- Hc. apply nth_error_In in E. apply (in_map fst) in E. exact E. }
      destruct (ok_pending _ _ (pool_ok_reachable _ _ _ Hr) _ _ E) as [g Eg].
      pose proof (proj1 (Hg _ _ Eg) Hrn) as Hres. destruct (g_result g) as [res|] eqn:Er; [|congruence].
      eexists. split; [eapply steps_next; [exact Hr|apply (poll_step n pl k r g res E (slot_inv _ _ _ Eg) Er)]|].
      split; [split; cbn; [assumption|]|].
      * intros t g' H. apply slot_inv in H. cbn in H. apply upd_nth_cases in H. destruct H as [[<- H]|[_ H]]; [injection H as ->; cbn; split; [congruence|lia]|].
        apply slot_intro in H. eauto.
      * cbn. split.
        -- rewrite <- Hc. clear - E. revert k E. induction (pl_calls pl) as [|x l IH]; intros [|k] E; cbn in *; try discriminate.
           ++ injection E as ->. reflexivity.
           ++ f_equal. auto.
        -- intros c r' Hk Hr'. unfold outcome_of. cbn. destruct (Nat.eq_dec c k) as [->|Hne].
           ++ rewrite <- Hc, nth_error_map, E in Hr'. cbn in Hr'. injection Hr' as <-. eexists. eapply upd_nth_same; eauto.
           ++ rewrite upd_nth_diff by congruence. apply Ho; [lia|assumption].
    + exists pl. split; [assumption|]. split; [split; assumption|]. split; [assumption|]. intros c r Hk Hr'. destruct (Nat.eq_dec c k) as [->|]; [|apply Ho; [lia|assumption]].
      rewrite <- Hc, nth_error_map, E in Hr'. discriminate.
Qed.

Lemma pool_run n (ans : nat -> list stream) rs :
  fitting rs -> (forall r, In r rs -> rq_task r < n) ->
  (forall r, In r rs -> List.length (ans (rq_task r)) = rq_end r - rq_start r) ->
  exists pl, pool_reachable n n pl /\ map fst (pl_calls pl) = rs /\
    (forall t a, In (t, a) (pl_answers pl) -> a = inl (ans t) /\ exists r, In r (pl_issued pl) /\ rq_task r = t /\ In r rs) /\
    forall r, In r rs -> exists c s, outcome_of pl c r (Got (rq_task r) (rq_target r - rq_start r) s) /\
      nth_error (ans (rq_task r)) (rq_target r - rq_start r) = Some s.
Proof.
  intros Hf Hlt Hlen. destruct (polled_up_to n ans rs (List.length rs) Hlt) as (pl & Hr & (Ha & Hg) & Hc & Ho). exists pl.
  destruct (checks_ok_reachable _ _ _ Hr) as (_ & _ & _ & Hsub).
  assert (Hans : forall t a, In (t, a) (pl_answers pl) -> a = inl (ans t) /\ exists r, In r (pl_issued pl) /\ rq_task r = t /\ In r rs).
  { intros t a H. split; [eauto|]. destruct (ok_answered _ _ (pool_ok_reachable _ _ _ Hr) _ _ H) as (g & Eg & _).
    destruct (ok_groups _ _ (pool_ok_reachable _ _ _ Hr) _ _ Eg) as (G1 & G2 & _). exists (g_request g). split; [assumption|]. split; [assumption|].
    rewrite <- Hc. auto. }
  split; [assumption|]. split; [assumption|]. split; [exact Hans|]. intros r Hin.
  destruct (In_nth_error _ _ Hin) as [c Hcr]. destruct (Ho c r) as [o Hoc]; [apply nth_error_Some; congruence|assumption|].
  destruct (C29_fitting_calls_succeed _ _ _ Hr c r o) as [(l & s & Hl & Hs & ->)|(e & He & _)]; auto.
  - now rewrite Hc.
  - intros t l Hl. destruct (Hans _ _ Hl) as (E & q & Hq & Ht & Hqin). injection E as ->. exists q. split; [assumption|]. split; [assumption|].
    subst t. auto.
  - exists c, s. split; [assumption|]. apply Ha in Hl. injection Hl as ->. assumption.
  - apply Ha in He. discriminate.
Qed.
End Pool.

(** * Connections can be read to the end *)
Lemma conn_drained {data err : Type} start budget capacity (bad : nat -> err) (sources : list (list (@item data + err))) :
  0 < budget -> 0 < capacity -> (forall S, In S sources -> error_free S) ->
  exists k, conn_reachable start budget capacity bad sources k /\ k_crashed k = false /\ (forall q, In q (k_parts k) -> p_lost q = []) /\
    forall i S, nth_error sources i = Some S -> exists p, nth_error (k_parts k) i = Some p /\ p_ended p = true /\ p_got p = S.
Proof.
  intros HB HC Hef.
  assert (R : conn_reachable start budget capacity bad sources (conn_init sources)) by constructor.
  destruct (C31_dropping_partial start budget capacity bad sources (conn_init sources) R eq_refl HC HB) as (k & Hk & H); auto.
  - intros q Hq. cbn in Hq. apply in_map_iff in Hq. destruct Hq as (S & <- & _). reflexivity.
  - intros j Sj Hj. apply Hef. eapply nth_error_In; eauto.
  - exists k.
    assert (Hr : conn_reachable start budget capacity bad sources k).
    { unfold conn_reachable. clear - Hk. induction Hk as [|a b c Hk IH Hst]; [constructor|]. eapply steps_next; [exact IH|apply Hst]. }
    assert (Hcalm : map p_live (k_parts k) = map p_live (k_parts (conn_init sources)) /\
                    map p_lost (k_parts k) = map p_lost (k_parts (conn_init sources)) /\ k_crashed k = false).
    { clear - Hk. remember (conn_init sources) as k0. assert (E : k_crashed k0 = false) by now subst.
      clear Heqk0. induction Hk as [|a b c Hk IH Hst]; [auto|]. destruct (IH E) as (I1 & I2 & I3).
      destruct Hst as [_ (-> & -> & -> & _)]. auto. }
    destruct Hcalm as (Hl & Hlo & Hcr). split; [assumption|]. split; [assumption|]. split.
    + intros q Hq. apply (in_map p_lost) in Hq. rewrite Hlo in Hq. cbn in Hq. rewrite map_map in Hq. cbn in Hq.
      apply in_map_iff in Hq. destruct Hq as (? & <- & _). reflexivity.
    + intros i S HS. pose proof (inv_len _ _ _ (inv_reachable _ _ _ _ _ _ Hr)) as HL.
      destruct (nth_error (k_parts k) i) as [p|] eqn:Hp.
      * exists p. split; [reflexivity|]. eapply H; eauto.
        apply (f_equal (fun l => nth_error l i)) in Hl. rewrite !nth_error_map, Hp in Hl. cbn in Hl.
        rewrite nth_error_map, HS in Hl. cbn in Hl. congruence.
      * apply nth_error_None in Hp. rewrite HL in Hp. assert (i < List.length sources) by (apply nth_error_Some; congruence). lia.
Qed.

(** * Putting a boundary together *)
Section Assemble.
Context {row err : Type}.
Notation message := (@item (list row) + err)%type.
Variables (budget capacity : nat) (bad : nat -> err).
Hypothesis Hbudget : 0 < budget.
Hypothesis Hcapacity : 0 < capacity.

(** One message for every row. *)
Definition enc (s : list row) : list message := map (fun x => inl (mkItem [x] 0)) s.
Lemma rows_enc s : rows_of (enc s) = s.
Proof. unfold rows_of, enc. rewrite flat_map_concat_map, map_map. induction s as [|x s IH]; cbn; [reflexivity|]. f_equal. exact IH. Qed.
Lemma enc_error_free s : error_free (enc s).
Proof. intros e H. apply in_map_iff in H. destruct H as (x & H & _). discriminate. Qed.
Lemma merge_enc (ss : list (list row)) out : merge_of ss out -> merge_of (map enc ss) (enc out).
Proof.
  induction 1 as [ss H|pre x s post out H IH].
  - constructor. apply Forall_map. eapply Forall_impl; [|exact H]. now intros a <-.
  - rewrite map_app in *. cbn. now apply merge_step.
Qed.
Lemma sent_refl b P (c : list row) : sent b P c c.
Proof. destruct b; cbn; auto. Qed.

(** The streams that the calls are to yield, and those of the other partitions of a request. *)
Notation plan_of_streams := (list (request row * list row)).
Definition stream_for (asg : plan_of_streams) (t j : nat) (c : list row) : list row :=
  match find (fun '(r, _) => (rq_task r =? t) && (rq_target r - rq_start r =? j)) asg with
  | Some (_, s) => s
  | None => c
  end.
Definition sources_for (asg : plan_of_streams) (t : nat) (canon : list (list row)) : list (list message) :=
  map (fun '(j, c) => enc (stream_for asg t j c)) (combine (seq 0 (List.length canon)) canon).

Lemma nth_combine_seq {A} (l : list A) a i : nth_error (combine (seq a (List.length l)) l) i = option_map (pair (a + i)) (nth_error l i).
Proof.
  revert a i. induction l as [|x l IH]; intros a [|i]; cbn; try reflexivity; [now rewrite Nat.add_0_r|].
  rewrite IH. replace (S a + i) with (a + S i) by lia. reflexivity.
Qed.
Lemma sources_for_nth asg t canon j c : nth_error canon j = Some c ->
  nth_error (sources_for asg t canon) j = Some (enc (stream_for asg t j c)).
Proof. intros H. unfold sources_for. rewrite nth_error_map, nth_combine_seq, H. reflexivity. Qed.

Lemma stream_for_found asg r s c : fitting (map fst asg) -> In (r, s) asg ->
  stream_for asg (rq_task r) (rq_target r - rq_start r) c = s.
Proof.
  intros (F1 & F2 & F3) Hin. unfold stream_for.
  destruct (find _ asg) as [[r' s']|] eqn:E.
  - apply find_some in E. destruct E as [Hin' E]. apply andb_true_iff in E. destruct E as [E1 E2].
    apply Nat.eqb_eq in E1, E2.
    pose proof (in_map fst _ _ Hin) as Hr. pose proof (in_map fst _ _ Hin') as Hr'. cbn in Hr, Hr'.
    destruct (F1 r' r Hr' Hr E1) as (Es & _). pose proof (F2 _ Hr). pose proof (F2 _ Hr').
    assert (Et : rq_target r' = rq_target r) by lia.
    assert (Eq : (r', s') = (r, s)).
    { clear - F3 Hin Hin' E1 Et. induction asg as [|[q u] asg IH]; [destruct Hin|]. cbn in F3. apply NoDup_cons_iff in F3. destruct F3 as [Hn F3].
      destruct Hin as [Hin|Hin], Hin' as [Hin'|Hin']; [congruence| | |auto].
      - injection Hin as -> ->. destruct Hn. apply in_map_iff. exists r'. split; [now rewrite E1, Et|]. apply (in_map fst) in Hin'. exact Hin'.
      - injection Hin' as -> ->. destruct Hn. apply in_map_iff. exists r. split; [now rewrite E1, Et|]. apply (in_map fst) in Hin. exact Hin. }
    congruence.
  - exfalso. eapply find_none in E; [|exact Hin]. cbn in E. rewrite !Nat.eqb_refl in E. discriminate.
Qed.

(** All streams of the workers that were asked are without errors. *)
Definition clean (b : bkind) (P : nat) (producers : nat -> splan row) (h : node_net row err) : Prop :=
  forall r, In r (pl_issued (nn_pool h)) -> worker_streams b P (producers (rq_task r)) r (nn_sources h (rq_task r)) /\
    forall S, In S (nn_sources h (rq_task r)) -> error_free S.

Lemma assemble b (part : partitioning row) tasks P producers ctx ps calls (asg : plan_of_streams) :
  mapM (boundary_requests b part tasks ctx) ps = Ok calls ->
  NoDup ps -> (forall p, In p ps -> p < partition_count part) ->
  map fst asg = List.concat calls ->
  (forall r s, In (r, s) asg -> exists c, pool_execute producers tasks tasks r = Ok c /\ sent b P c s) ->
  exists h : node_net row err, node_history budget capacity bad b part tasks P producers ctx ps h /\ clean b P producers h /\
    forall r s, In (r, s) asg -> call_read h r (enc s).
Proof using Hbudget Hcapacity.
  intros Hcalls Hn Hps Hasg Hyield.
  pose proof (boundary_calls_fit _ _ _ _ _ _ Hn Hps Hcalls) as Hfit. rewrite <- Hasg in Hfit.
  assert (Hreq : forall r s, In (r, s) asg -> rq_task r < tasks /\ exists canon c,
     worker_execute_task (producers (rq_task r)) (rq_head r) (rq_start r) (rq_end r) = Ok canon /\
     rq_start r <= rq_target r /\ nth_error canon (rq_target r - rq_start r) = Some c /\ sent b P c s).
  { intros r s Hin. destruct (Hyield _ _ Hin) as (c & Hc & Hsent). unfold pool_execute in Hc.
    destruct (Nat.leb_spec tasks (rq_task r)); [discriminate|]. destruct (worker_execute_task _ _ _ _) as [canon|e|e] eqn:Ew; try discriminate.
    cbn [bind] in Hc. destruct (Nat.ltb_spec (rq_target r) (rq_start r)); [discriminate|].
    destruct (nth_error canon _) as [c'|] eqn:Ec; [|discriminate]. injection Hc as ->. split; [assumption|]. exists canon, c. auto. }
  (* the streams of every task *)
  assert (Hsrc : exists src : nat -> list (list message), forall t, t < tasks -> forall r s, In (r, s) asg -> rq_task r = t ->
     worker_streams b P (producers t) r (src t) /\ List.length (src t) = rq_end r - rq_start r /\
     (forall S, In S (src t) -> error_free S) /\ nth_error (src t) (rq_target r - rq_start r) = Some (enc s)).
  { apply (choose_below (fun t S => forall r s, In (r, s) asg -> rq_task r = t ->
      worker_streams b P (producers t) r S /\ List.length S = rq_end r - rq_start r /\
      (forall X, In X S -> error_free X) /\ nth_error S (rq_target r - rq_start r) = Some (enc s)) tasks []).
    intros t Ht. destruct (find (fun '(r, _) => rq_task r =? t) asg) as [[q u]|] eqn:Ef.
    - apply find_some in Ef. destruct Ef as [Hq Eq]. apply Nat.eqb_eq in Eq. destruct (Hreq _ _ Hq) as (_ & canon & cq & Hw & _).
      exists (sources_for asg t canon). intros r s Hin Hr.
      destruct Hfit as (F1 & F2 & F3).
      destruct (F1 q r (in_map fst _ _ Hq) (in_map fst _ _ Hin) (eq_trans Eq (eq_sym Hr))) as (E1 & E2 & E3). cbn in E1, E2, E3.
      destruct (Hreq _ _ Hin) as (_ & canon' & c & Hw' & Hle & Hc & Hsent).
      assert (canon' = canon). { rewrite E1, E2, E3, Eq, <- Hr in Hw. congruence. } subst canon'.
      assert (Hlen : List.length canon = rq_end r - rq_start r).
      { unfold worker_execute_task in Hw'. destruct (insert_head _ _) as [pl|e|e]; try discriminate. cbn [bind] in Hw'.
        apply mapM_ok_inv in Hw'. apply Forall2_length' in Hw'. rewrite seq_length in Hw'. lia. }
      split; [|split; [|split]].
      + exists canon. split; [rewrite <- Hr; assumption|]. apply Forall2_nth. split.
        { unfold sources_for. rewrite map_length, combine_length, seq_length. lia. }
        intros j c1 s1 Hc1 Hs1 _. rewrite (sources_for_nth _ _ _ _ _ Hc1) in Hs1. injection Hs1 as <-. rewrite rows_enc.
        unfold stream_for. destruct (find _ asg) as [[r' s']|] eqn:Ef'; [|apply sent_refl].
        apply find_some in Ef'. destruct Ef' as [Hin' E']. apply andb_true_iff in E'. destruct E' as [Et Ej]. apply Nat.eqb_eq in Et, Ej. rewrite <- Hr in Et.
        destruct (F1 r' r (in_map fst _ _ Hin') (in_map fst _ _ Hin) Et) as (G1 & G2 & G3). cbn in G1, G2, G3.
        destruct (Hreq _ _ Hin') as (_ & canon' & c' & Hw2 & _ & Hc' & Hsent').
        rewrite G1, G2, G3, Et in Hw2. rewrite Hw' in Hw2. injection Hw2 as <-. rewrite Ej in Hc'. rewrite Hc1 in Hc'. now injection Hc' as <-.
      + unfold sources_for. rewrite map_length, combine_length, seq_length. lia.
      + intros X HX. unfold sources_for in HX. apply in_map_iff in HX. destruct HX as ([j c1] & <- & _). apply enc_error_free.
      + rewrite (sources_for_nth _ _ _ _ _ Hc), <- Hr. rewrite (stream_for_found asg r s c); [reflexivity|exact (conj F1 (conj F2 F3))|assumption].
    - exists []. intros r s Hin Hr. eapply find_none in Ef; [|exact Hin]. cbn in Ef. rewrite Hr, Nat.eqb_refl in Ef. discriminate. }
  destruct Hsrc as [src Hsrc].
  assert (Hlink : exists lk : nat -> link row err, forall t, t < tasks -> forall r s, In (r, s) asg -> rq_task r = t ->
     link_reachable budget capacity bad b P (producers t) r (src t) (lk t) /\ uncrashed (lk t) /\
     forall j S, nth_error (src t) j = Some S -> link_read (lk t) j = Some (S, true)).
  { apply (choose_below (fun t l => forall r s, In (r, s) asg -> rq_task r = t ->
      link_reachable budget capacity bad b P (producers t) r (src t) l /\ uncrashed l /\
      forall j S, nth_error (src t) j = Some S -> link_read l j = Some (S, true)) tasks (InProcess [])).
    intros t Ht. destruct (find (fun '(r, _) => rq_task r =? t) asg) as [[q u]|] eqn:Ef.
    - apply find_some in Ef. destruct Ef as [Hq Eq]. apply Nat.eqb_eq in Eq.
      destruct (Hsrc t Ht q u Hq Eq) as (_ & _ & Hef & _).
      destruct (conn_drained (rq_start q) budget capacity bad (src t) Hbudget Hcapacity Hef) as (k & K1 & K2 & K3 & K4).
      exists (OverGrpc k). intros r s Hin Hr. destruct (Hsrc t Ht r s Hin Hr) as (W & _). destruct Hfit as (F1 & _).
      destruct (F1 q r (in_map fst _ _ Hq) (in_map fst _ _ Hin) (eq_trans Eq (eq_sym Hr))) as (E1 & _). cbn in E1.
      split; [split; [exact W|now rewrite <- E1]|]. split; [split; assumption|].
      intros j S HS. destruct (K4 _ _ HS) as (p & Hp & Hend & Hgot). cbn. rewrite Hp. cbn. now rewrite Hend, Hgot.
    - exists (InProcess []). intros r s Hin Hr. eapply find_none in Ef; [|exact Hin]. cbn in Ef. rewrite Hr, Nat.eqb_refl in Ef. discriminate. }
  destruct Hlink as [lk Hlink].
  assert (Hin_asg : forall r, In r (map fst asg) -> exists s, In (r, s) asg).
  { intros r Hr. apply in_map_iff in Hr. destruct Hr as ([r' s] & <- & Hin). eauto. }
  destruct (pool_run (err := err) tasks (fun t => map (pair t) (seq 0 (List.length (src t)))) (map fst asg) Hfit) as (pl & Hr & Hc & Hans & Hout).
  - intros r Hr. destruct (Hin_asg _ Hr) as [s Hs]. now apply (Hreq r s).
  - intros r Hr. destruct (Hin_asg _ Hr) as [s Hs]. rewrite map_length, seq_length. destruct (Hreq _ _ Hs) as (Ht & _).
    now destruct (Hsrc _ Ht _ _ Hs eq_refl) as (_ & E & _).
  - exists (mkNodeNet pl src lk). split; [|split].
    + constructor; cbn.
      * assumption.
      * exists calls. split; [assumption|]. rewrite Hc, Hasg. reflexivity.
      * intros t l Hl. destruct (Hans _ _ Hl) as (El & r & Hri & Hrt & Hrin). injection El as ->. exists r.
        destruct (Hin_asg _ Hrin) as [s Hs]. destruct (Hreq _ _ Hs) as (Ht & _). subst t.
        destruct (Hsrc _ Ht _ _ Hs eq_refl) as (_ & E & _). destruct (Hlink _ Ht _ _ Hs eq_refl) as (L1 & L2 & _). auto 10.
    + intros r Hri. cbn in *. destruct (checks_ok_reachable _ _ _ Hr) as (_ & _ & _ & Hsub). pose proof (Hsub _ Hri) as Hrin. rewrite Hc in Hrin.
      destruct (Hin_asg _ Hrin) as [s Hs]. destruct (Hreq _ _ Hs) as (Ht & _). destruct (Hsrc _ Ht _ _ Hs eq_refl) as (W & _ & Hef & _). auto.
    + intros r s Hs. destruct (Hout r) as (c & st & Ho & Hst); [apply (in_map fst) in Hs; exact Hs|].
      exists c, (rq_task r), (rq_target r - rq_start r), st. split; [exact Ho|]. cbn.
      destruct (Hreq _ _ Hs) as (Ht & _). destruct (Hsrc _ Ht _ _ Hs eq_refl) as (_ & _ & _ & E).
      assert (Est : st = (rq_task r, rq_target r - rq_start r)).
      { rewrite nth_error_map in Hst. destruct (nth_error (seq _ _) _) as [j|] eqn:Ej; [|discriminate]. cbn in Hst. injection Hst as <-.
        assert (Hj : rq_target r - rq_start r < List.length (src (rq_task r))) by (apply nth_error_Some; congruence).
        rewrite (nth_error_nth' _ 0) in Ej by now rewrite seq_length. rewrite seq_nth in Ej by assumption. now injection Ej as <-. }
      subst st. cbn. now apply (Hlink _ Ht _ _ Hs eq_refl).
Qed.

Theorem network_clean b (part : partitioning row) tasks P producers n f :
  boundary_delivers b part tasks P producers n f ->
  forall i, i < n -> exists h,
    node_history budget capacity bad b part tasks P producers (mkCtx i n) (seq 0 (partition_count part)) h /\ clean b P producers h /\
    forall p, p < partition_count part -> partition_read b part tasks (mkCtx i n) h p (f i p).
Proof using Hbudget Hcapacity.
  intros H i Hi.
  assert (G : forall ps, (forall p, In p ps -> p < partition_count part) -> exists calls streams,
     mapM (boundary_requests b part tasks (mkCtx i n)) ps = Ok calls /\
     Forall2 (fun p '(reqs, ss) => List.length reqs = List.length ss /\ boundary_requests b part tasks (mkCtx i n) p = Ok reqs /\
        Forall2 (fun r s => exists c, pool_execute producers tasks tasks r = Ok c /\ sent b P c s) reqs ss /\
        merge_of ss (f i p)) ps (combine calls streams) /\ List.length calls = List.length streams).
  { induction ps as [|p ps IH]; intros Hps; [exists [], []; cbn; auto|].
    destruct IH as (calls & streams & E & F & L); [intros; apply Hps; now right|].
    destruct (H i p Hi (Hps p (or_introl eq_refl))) as (canon & ss & Hb & Hs & Hm).
    rewrite boundary_execute_requests in Hb. destruct (boundary_requests b part tasks (mkCtx i n) p) as [reqs|e|e] eqn:Er; try discriminate.
    cbn [bind] in Hb. apply mapM_ok_inv in Hb.
    assert (HH : Forall2 (fun r s => exists c, pool_execute producers tasks tasks r = Ok c /\ sent b P c s) reqs ss).
    { clear - Hb Hs. revert ss Hs. induction Hb as [|r c reqs canon Hc Hb IH]; intros ss Hs; inversion Hs; subst; constructor; eauto. }
    exists (reqs :: calls), (ss :: streams). cbn [mapM combine]. rewrite Er, E. split; [reflexivity|]. split; [|cbn; congruence].
    constructor; [|assumption]. split; [exact (Forall2_length' _ _ _ HH)|]. auto. }
  destruct (G (seq 0 (partition_count part))) as (calls & streams & E & F & L); [intros p Hp; apply in_seq in Hp; lia|].
  set (asg := List.concat (map (fun '(reqs, ss) => combine reqs ss) (combine calls streams))).
  assert (Hall : Forall (fun '(reqs, ss) => List.length reqs = List.length ss /\
     Forall2 (fun r s => exists c, pool_execute producers tasks tasks r = Ok c /\ sent b P c s) reqs ss) (combine calls streams)).
  { clear - F. induction F as [|p [reqs ss] ps l (A & _ & B & _) F IH]; constructor; auto. }
  destruct (assemble b part tasks P producers (mkCtx i n) (seq 0 (partition_count part)) calls asg E) as (h & Hh & Hclean & Hread).
  - apply seq_NoDup.
  - intros p Hp. apply in_seq in Hp. lia.
  - subst asg. clear - Hall L. revert streams L Hall. induction calls as [|reqs calls IH]; intros [|ss streams] L Hall; cbn in *; try discriminate; [reflexivity|].
    apply Forall_cons_iff in Hall. destruct Hall as [[A B] Hall]. rewrite map_app, IH by (auto; lia). f_equal. clear - A.
    revert ss A. induction reqs as [|r reqs IH]; intros [|s ss] A; cbn in *; try discriminate; [reflexivity|]. f_equal. auto.
  - intros r s Hin. subst asg. apply in_concat in Hin. destruct Hin as (l & Hl & Hin). apply in_map_iff in Hl. destruct Hl as ([reqs ss] & <- & Hl).
    rewrite Forall_forall in Hall. destruct (Hall _ Hl) as [_ B]. clear - B Hin. induction B as [|r' s' reqs ss H B IH]; [destruct Hin|].
    destruct Hin as [Hin|Hin]; [injection Hin as -> ->; assumption|auto].
  - exists h. split; [exact Hh|]. split; [exact Hclean|]. intros p Hp.
    assert (Hpn : exists reqs ss, In (reqs, ss) (combine calls streams) /\ boundary_requests b part tasks (mkCtx i n) p = Ok reqs /\
       Forall2 (fun r s => exists c, pool_execute producers tasks tasks r = Ok c /\ sent b P c s) reqs ss /\ merge_of ss (f i p)).
    { assert (Hin : In p (seq 0 (partition_count part))) by (apply in_seq; lia). clear - F Hin.
      induction F as [|q [reqs ss] ps l (_ & A & B & C) F IH]; [destruct Hin|]. destruct Hin as [->|Hin].
      - exists reqs, ss. split; [now left|]. auto.
      - destruct (IH Hin) as (r' & s' & ? & ?). exists r', s'. split; [now right|assumption]. }
    destruct Hpn as (reqs & ss & Hin & Hreq & HF & Hm). exists reqs, (map enc ss), (enc (f i p)). split; [exact Hreq|]. split; [|split; [|split]].
    + assert (Hr' : forall r s, In (r, s) (combine reqs ss) -> call_read h r (enc s)).
      { intros r s Hrs. apply Hread. subst asg. apply in_concat. exists (combine reqs ss). split; [|assumption]. apply in_map_iff. exists (reqs, ss). auto. }
      clear - HF Hr'. induction HF as [|r s reqs ss Hrs HF IH]; cbn; constructor.
      * apply Hr'. now left.
      * apply IH. intros; apply Hr'. now right.
    + now apply merge_enc.
    + apply enc_error_free.
    + symmetry. apply rows_enc.
Qed.
Theorem network_complete b (part : partitioning row) tasks P producers n f :
  boundary_delivers b part tasks P producers n f -> net_delivers budget capacity bad b part tasks P producers n f.
Proof using Hbudget Hcapacity.
  intros H i Hi. destruct (network_clean b part tasks P producers n f H i Hi) as (h & H1 & _ & H2). eauto.
Qed.
End Assemble.

(** * Whole plans *)
Section Plans.
Context {row err : Type}.
Notation tree := (tree row).
Notation table := (nat -> nat -> list row).
Variable acts : op row -> list row -> list row -> Prop.
Variables (budget capacity : nat) (bad : nat -> err).
Hypothesis Hbudget : 0 < budget.
Hypothesis Hcapacity : 0 < capacity.

Lemma boundary_iff b (part : partitioning row) tasks P producers n f :
  net_delivers budget capacity bad b part tasks P producers n f <-> boundary_delivers b part tasks P producers n f.
Proof using Hbudget Hcapacity. split; [apply network_sound|now apply network_complete]. Qed.

Lemma Forall2_apply_iff {A X} (R S : A -> X -> Prop) l xs : (forall a, In a l -> forall x, R a x <-> S a x) ->
  (Forall2 (fun T x => T x) (map R l) xs <-> Forall2 (fun T x => T x) (map S l) xs).
Proof.
  revert xs. induction l as [|a l IH]; intros xs H; [reflexivity|]. cbn. split; intros F; inversion F as [|T x Ts xs' Hx F']; subst; constructor.
  1, 3: apply H; [now left|assumption].
  all: apply IH; [intros; apply H; now right|assumption].
Qed.

Lemma plans_iff (t : tree) : forall remote n (f : table),
  delivers_networked budget capacity bad acts remote t n f <-> delivers acts remote t n f.
Proof using Hbudget Hcapacity.
  induction t as [k cs IH|w m cs IH|b part q num tasks i IH IH2] using tree_ind2; intros remote n f.
  - cbn. split; intros (fs & F & H); exists fs; (split; [|exact H]); revert F; apply Forall2_apply_iff; intros; [symmetry|]; now apply IH.
  - assert (G : forall fs, Forall2 (fun R g => R g) (map (fun '(R, k) => R k)
        (combine (map (delivers_networked budget capacity bad acts remote) cs) (map_task_counts (List.length cs) m))) fs <->
      Forall2 (fun R g => R g) (map (fun '(R, k) => R k)
        (combine (map (delivers acts remote) cs) (map_task_counts (List.length cs) m))) fs).
    { intros fs. generalize (map_task_counts (List.length cs) m). revert fs. clear - IH. induction cs as [|c cs IHc]; intros fs [|k ks]; cbn; try reflexivity.
      split; intros F; inversion F as [|T x Ts xs Hx F']; subst; constructor.
      1, 3: apply IH; [now left|assumption].
      all: apply IHc; [intros; apply IH; now right|assumption]. }
    cbn. split; intros (fs & F & H); exists fs; (split; [now apply G|exact H]).
  - assert (B : forall P producers, net_delivers budget capacity bad b part tasks P producers n f <-> boundary_delivers b part tasks P producers n f)
      by (intros; apply boundary_iff).
    destruct i as [[l|p|m|spm fetch| |j c hl hr na|o] cs|w m cs|b' part' q' num' tasks' i].
    2, 3: destruct cs as [|c [|c' cs]].
    all: split; intros (g & Hg & Hb); exists g; (split; [|now apply B]).
    all: first [exact (proj1 (IH _ _ _) Hg)|exact (proj2 (IH _ _ _) Hg)
               |exact (proj1 (IH2 _ _ _ eq_refl (or_introl eq_refl) _ _ _) Hg)|exact (proj2 (IH2 _ _ _ eq_refl (or_introl eq_refl) _ _ _) Hg)].
Qed.
End Plans.
