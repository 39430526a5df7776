(** Invariants of the work unit feeds of one task and of a query. *)
From Verif Require Import Base NetModel FeedModel FeedSpec.

Section Proofs.
Context {unit_ : Type}.
Notation task := (task unit_).
Notation key := (nat * nat)%type.

Lemma key_eqb_eq a b : key_eqb a b = true <-> a = b.
Proof.
  unfold key_eqb. destruct a, b. cbn. rewrite andb_true_iff, !Nat.eqb_eq. split; [intros [-> ->]; reflexivity|intros [= -> ->]; auto].
Qed.
Lemma key_eqb_refl a : key_eqb a a = true.
Proof. now apply key_eqb_eq. Qed.
Lemma key_eqb_neq a b : a <> b -> key_eqb a b = false.
Proof. intros H. destruct (key_eqb a b) eqn:E; [|reflexivity]. now apply key_eqb_eq in E. Qed.
Lemma existsb_key k l : existsb (key_eqb k) l = true <-> In k l.
Proof.
  rewrite existsb_exists. split; [intros (x & Hx & E); apply key_eqb_eq in E; now subst|].
  intros H. exists k. now rewrite key_eqb_refl.
Qed.
Lemma set_same {B} (f : key -> B) k v : set f k v k = v.
Proof. unfold set. now rewrite key_eqb_refl. Qed.
Lemma set_other {B} (f : key -> B) k k' v : k <> k' -> set f k v k' = f k'.
Proof. intros H. unfold set. now rewrite key_eqb_neq. Qed.
Lemma set2_same {B} (f : nat -> nat -> B) n j v : set2 f n j v n j = v.
Proof. unfold set2. now rewrite !Nat.eqb_refl. Qed.
Lemma set2_other {B} (f : nat -> nat -> B) n j v n' j' : (n, j) <> (n', j') -> set2 f n j v n' j' = f n' j'.
Proof.
  intros H. unfold set2. destruct (Nat.eqb_spec n n'), (Nat.eqb_spec j j'); cbn; subst; congruence.
Qed.

(** ** Declarations and feeds *)

Lemma declared_in ns k : In k (declared ns) <-> exists n, In n ns /\ nid n = fst k /\ snd k < nparts n.
Proof.
  unfold declared. assert (H1 : forall id ps l, In k (fold_left (fun l p => if existsb (key_eqb (id, p)) l then l else l ++ [(id, p)]) ps l) <->
    In k l \/ (id = fst k /\ In (snd k) ps)).
  { intros id. induction ps as [|p ps IH]; intros l; cbn; [intuition|]. rewrite IH.
    destruct (existsb (key_eqb (id, p)) l) eqn:E.
    - apply existsb_key in E. destruct k as [a b]. cbn. split; [intuition|]. intros [H|[-> [->|H]]]; auto.
    - rewrite in_app_iff. cbn. destruct k as [a b]. cbn. split; [intros [[H|[[= <- <-]|[]]]|H]; intuition|].
      intros [H|[-> [->|H]]]; auto. }
  assert (H : forall l, In k (fold_left add ns l) <-> In k l \/ exists n, In n ns /\ nid n = fst k /\ snd k < nparts n).
  { induction ns as [|n ns IH]; intros l; cbn; [split; [auto|]; intros [H|(n & [] & _)]; auto|]. rewrite IH. unfold add. rewrite H1, in_seq.
    split.
    - intros [[H|[H2 H3]]|(m & Hm & H)]; [auto|right; exists n; intuition|right; exists m; auto].
    - intros [H|(m & [<-|Hm] & H2 & H3)]; [auto|left; right; split; [auto|lia]|right; eauto]. }
  rewrite H. cbn. intuition.
Qed.

Lemma feed_calls_in n p j : In (p, j) (feed_calls n) <-> p < nparts n /\ j = feed_of_partition n p.
Proof.
  unfold feed_calls, feed_of_partition. set (s := nparts n * task_index (nctx n)).
  assert (H : forall a b k, In (p, j) (combine (seq a k) (seq b k)) <-> exists i, i < k /\ p = a + i /\ j = b + i).
  { intros a b k. revert a b. induction k as [|k IH]; intros a b; cbn; [split; [intros []|intros (i & H & _); lia]|].
    rewrite IH. split.
    - intros [[= <- <-]|(i & Hi & -> & ->)]; [exists 0; lia|exists (S i); lia].
    - intros ([|i] & Hi & -> & ->); [left; f_equal; lia|right; exists i; lia]. }
  rewrite H. split; [intros (i & Hi & -> & ->); lia|intros [Hp ->]; exists p; lia].
Qed.

(** ** Streams *)

Lemma units_app a b : units (a ++ b) = @units unit_ a ++ units b.
Proof. apply flat_map_app. Qed.

Definition of_feed (n : node) (j : nat) (l : list (key * unit_)) : list unit_ :=
  flat_map (fun '(k, u) => if feed_of_partition n (snd k) =? j then [u] else []) l.
Definition of_key (k : key) (l : list (key * unit_)) : list unit_ :=
  flat_map (fun '(k', u) => if key_eqb k k' then [u] else []) l.
Definition inflight (k : key) (c : list (@msg unit_)) : list unit_ :=
  flat_map (fun m => match m with Batch l => of_key k l | WorkUnitEos => [] end) c.

Lemma record_sent_spec pos n l : forall s pos' j,
  record_sent pos n s l pos' j = s pos' j ++ (if pos =? pos' then of_feed n j l else []).
Proof.
  unfold record_sent. induction l as [|[k u] l IH]; intros s pos' j; cbn [fold_left of_feed flat_map];
    [destruct (pos =? pos'); now rewrite app_nil_r|].
  rewrite IH. destruct (Nat.eqb_spec pos pos') as [<-|Hp].
  - destruct (Nat.eqb_spec (feed_of_partition n (snd k)) j) as [<-|Hj].
    + rewrite set2_same. unfold of_feed. cbn [flat_map app]. now rewrite <- app_assoc.
    + rewrite set2_other by congruence. reflexivity.
  - rewrite set2_other by congruence. reflexivity.
Qed.

Lemma of_key_feed n p l : (forall k u, In (k, u) l -> fst k = nid n) -> of_key (nid n, p) l = of_feed n (feed_of_partition n p) l.
Proof.
  intros H. apply flat_map_ext_in. intros [k u] Hk. specialize (H k u Hk). unfold key_eqb. cbn. rewrite H, Nat.eqb_refl. cbn.
  unfold feed_of_partition. destruct (Nat.eqb_spec p (snd k)) as [<-|Hn]; [now rewrite Nat.eqb_refl|].
  destruct (Nat.eqb_spec (nparts n * task_index (nctx n) + snd k) (nparts n * task_index (nctx n) + p)); [lia|reflexivity].
Qed.
Lemma of_key_other (n : node) k l : (forall k u, In (k, u) l -> fst k = nid n) -> fst k <> nid n -> of_key k l = [].
Proof.
  intros H Hk. apply flat_map_all_nil. intros [k' u] Hin. specialize (H k' u Hin). rewrite key_eqb_neq; [reflexivity|]. congruence.
Qed.

Definition clean (l : list (item unit_)) : Prop := forall e, ~ In (Bad e) l.
Lemma firstn_S_nth {A} (l : list A) i x : nth_error l i = Some x -> firstn (S i) l = firstn i l ++ [x].
Proof.
  revert l. induction i as [|i IH]; intros [|y l] H; try discriminate; cbn in H; [injection H as ->; reflexivity|].
  cbn [firstn]. cbn. f_equal. apply IH in H. exact H.
Qed.

Lemma takes_frame n calls (s : nat -> nat -> source unit_) chunk s' : takes n calls s chunk s' -> forall pos j,
  made (s' pos j) = made (s pos j) /\ ended (s' pos j) = ended (s pos j) /\ taken (s pos j) <= taken (s' pos j) /\
  (taken (s pos j) <= List.length (made (s pos j)) -> taken (s' pos j) <= List.length (made (s pos j))).
Proof.
  induction 1 as [s|s p j x l s' Hin Hx _ IH]; intros pos j'; [auto|]. specialize (IH pos j') as (H1 & H2 & H3 & H4).
  destruct (Nat.eq_dec n pos) as [<-|Hn]; [destruct (Nat.eq_dec j j') as [<-|Hj]|].
  - rewrite set2_same in *. cbn in *. split; [exact H1|]. split; [exact H2|]. split; [lia|]. intros _. apply H4.
    apply nth_error_Some. congruence.
  - rewrite set2_other in * by congruence. auto.
  - rewrite set2_other in * by congruence. auto.
Qed.

Lemma pulled_grows (s s' : source unit_) : made s' = made s -> taken s <= taken s' -> exists r, pulled s' = pulled s ++ r.
Proof.
  intros H Hle. exists (firstn (taken s' - taken s) (skipn (taken s) (made s))). unfold pulled. rewrite H.
  rewrite <- (firstn_skipn (taken s) (made s)) at 1. rewrite firstn_app.
  destruct (Nat.le_gt_cases (taken s) (List.length (made s))) as [Hl|Hl].
  - rewrite firstn_firstn, Nat.min_r by lia. f_equal. f_equal. rewrite firstn_length. lia.
  - rewrite skipn_all2 by lia. rewrite !firstn_nil, !app_nil_r. rewrite firstn_all2; [reflexivity|]. rewrite firstn_length. lia.
Qed.

Lemma takes_batch (n : node) (id pos : nat) (s : nat -> nat -> source unit_) chunk s' : takes pos (feed_calls n) s chunk s' -> forall l,
  mapM (fun '(partition, x) => match x with Unit_ u => Ok ((id, partition), u) | Bad e => Err e end) chunk = Ok (l : list (key * unit_)) ->
  (forall k u, In (k, u) l -> fst k = id) /\
  forall pos' j, units (pulled (s' pos' j)) = units (pulled (s pos' j)) ++ (if pos =? pos' then of_feed n j l else []) /\
    (clean (pulled (s pos' j)) -> clean (pulled (s' pos' j))).
Proof.
  induction 1 as [s|s p j x chunk s' Hin Hx _ IH]; intros l E.
  - injection E as <-. split; [intros k u []|]. intros pos' j. destruct (pos =? pos'); cbn; rewrite app_nil_r; auto.
  - cbn in E. destruct x as [u|e]; [|discriminate]. cbn in E. destruct (mapM _ chunk) as [l'| |] eqn:El; cbn in E; try discriminate.
    injection E as <-. destruct (IH l' eq_refl) as [IH1 IH2]. split; [intros k v [[= <- <-]|H]; [reflexivity|eauto]|].
    intros pos' j'. specialize (IH2 pos' j') as [IH2 IH3]. apply feed_calls_in in Hin as [Hp ->].
    assert (Hpull : forall v, v = set2 s pos (feed_of_partition n p) (mkSource (made (s pos (feed_of_partition n p))) (S (taken (s pos (feed_of_partition n p)))) (ended (s pos (feed_of_partition n p)))) pos' j' ->
      pulled v = pulled (s pos' j') ++ (if (pos =? pos') && (feed_of_partition n p =? j') then [Unit_ u] else [])).
    { intros v ->. destruct (Nat.eqb_spec pos pos') as [<-|]; [destruct (Nat.eqb_spec (feed_of_partition n p) j') as [<-|]|]; cbn.
      - rewrite set2_same. unfold pulled. cbn [made taken]. now rewrite (firstn_S_nth _ _ _ Hx).
      - rewrite set2_other by congruence. now rewrite app_nil_r.
      - rewrite set2_other by congruence. now rewrite app_nil_r. }
    specialize (Hpull _ eq_refl). rewrite Hpull in IH2, IH3. split.
    + rewrite IH2, units_app. unfold of_feed. cbn [flat_map snd]. destruct (pos =? pos'); cbn [andb]; [|cbn; now rewrite app_nil_r].
      destruct (feed_of_partition n p =? j'); cbn; rewrite <- ?app_assoc; reflexivity.
    + intros Hc. apply IH3. intros e He. apply in_app_iff in He as [He|He]; [exact (Hc e He)|].
      destruct ((pos =? pos') && (feed_of_partition n p =? j')); cbn in He; intuition discriminate.
Qed.

Lemma takes_error (n : node) (id pos : nat) (s : nat -> nat -> source unit_) chunk s' : takes pos (feed_calls n) s chunk s' -> forall e,
  mapM (fun '(partition, x) => match x with Unit_ u => Ok ((id, partition), u) | Bad e => Err e end) chunk = @Err (list (key * unit_)) e ->
  exists p j, In (p, j) (feed_calls n) /\ In (Bad e) (pulled (s' pos j)).
Proof.
  induction 1 as [s|s p j x chunk s' Hin Hx Ht IH]; intros e E; [discriminate|]. cbn in E. destruct x as [u|e'].
  - cbn in E. destruct (mapM _ chunk) as [l'|e'|] eqn:El; cbn in E; try discriminate. injection E as ->. exact (IH e eq_refl).
  - injection E as ->. exists p, j. split; [exact Hin|]. destruct (takes_frame _ _ _ _ _ Ht pos j) as (H1 & _ & H3 & _).
    destruct (pulled_grows _ _ H1 H3) as (r & ->). apply in_app_iff. left. rewrite set2_same. unfold pulled. cbn [made taken].
    rewrite (firstn_S_nth _ _ _ Hx). apply in_app_iff. right. now left.
Qed.

(** ** The worker's loop *)

Lemma deliver_fold rxs l : forall live q live' q', fold_left (deliver_unit rxs) l (live, q) = (live', q') -> forall k : key,
  (rxs k = Released -> q' k = q k) /\
  (rxs k <> Released -> In k live -> In k live' /\ q' k = q k ++ of_key k l).
Proof.
  induction l as [|[k' u] l IH]; intros live q live' q' E k.
  - injection E as <- <-. split; [auto|]. cbn. now rewrite app_nil_r.
  - cbn [fold_left] in E. unfold deliver_unit in E at 2. destruct (existsb (key_eqb k') live) eqn:Ex.
    + destruct (rxs k') eqn:Er; specialize (IH _ _ _ _ E k) as [IH1 IH2].
      1,2: split; [intros H; rewrite (IH1 H); apply set_other; congruence|];
           intros H Hl; destruct (IH2 H Hl) as [H1 H2]; split; [exact H1|]; rewrite H2; unfold of_key; cbn [flat_map];
           unfold set; destruct (key_eqb k' k) eqn:E1;
           [apply key_eqb_eq in E1; subst; rewrite key_eqb_refl, <- app_assoc; reflexivity
           |rewrite (key_eqb_neq k k'); [reflexivity|intros ->; rewrite key_eqb_refl in E1; discriminate]].
      split; [exact IH1|]. intros H Hl. assert (Hk : k <> k') by congruence.
      destruct (IH2 H) as [H1 H2]; [apply filter_In; split; [exact Hl|rewrite key_eqb_neq by congruence; reflexivity]|].
      split; [exact H1|]. rewrite H2. unfold of_key. cbn [flat_map]. now rewrite (key_eqb_neq k k').
    + specialize (IH _ _ _ _ E k) as [IH1 IH2]. split; [exact IH1|]. intros H Hl. destruct (IH2 H Hl) as [H1 H2]. split; [exact H1|].
      rewrite H2. unfold of_key. cbn [flat_map]. rewrite (key_eqb_neq k k'); [reflexivity|]. intros ->.
      apply existsb_key in Hl. congruence.
Qed.

(** ** The invariant of a task *)

Definition no_eos (c : list (@msg unit_)) : Prop := ~ In WorkUnitEos c.
Definition failed (t : task) : Prop := exists e, result t = Failed e.

Record inv (t : task) : Prop := {
  i_broken : broken t = true -> chan t = [] /\ senders t = None;
  i_shape : broken t = false ->
    (result t = Running /\ no_eos (chan t) /\ senders t <> None) \/
    (result t <> Running /\ senders t <> None /\ exists c, chan t = c ++ [WorkUnitEos] /\ no_eos c) \/
    (result t <> Running /\ senders t = None /\ chan t = []);
  i_live : broken t = false -> forall live, senders t = Some live ->
    forall k, In k (declared (nodes t)) -> rx t k <> Released -> In k live;
  i_got : forall pos n p, nth_error (nodes t) pos = Some n -> p < nparts n ->
    prefix (got t (nid n, p) ++ queue t (nid n, p)) (sent t pos (feed_of_partition n p)) /\
    (broken t = false -> rx t (nid n, p) <> Released \/ saw_end t (nid n, p) = true ->
       sent t pos (feed_of_partition n p) = got t (nid n, p) ++ queue t (nid n, p) ++ inflight (nid n, p) (chan t));
  i_sent : forall pos j, taken (sources t pos j) <= List.length (made (sources t pos j)) /\
    prefix (sent t pos j) (units (pulled (sources t pos j))) /\
    (~ failed t -> clean (pulled (sources t pos j))) /\
    (~ failed t -> broken t = false -> units (pulled (sources t pos j)) = sent t pos j);
  i_future : broken t = false -> forall pos n p j, future_done t pos = true -> nth_error (nodes t) pos = Some n ->
    In (p, j) (feed_calls n) -> ended (sources t pos j) = true /\ taken (sources t pos j) = List.length (made (sources t pos j));
  i_finished : result t = Finished -> forall pos, pos < List.length (nodes t) -> future_done t pos = true;
  i_end : forall k, saw_end t k = true -> queue t k = [] /\ In k (declared (nodes t)) /\
    (broken t = true \/ (result t <> Running /\ chan t = [] /\ senders t = None));
  i_rx : forall k, rx t k <> Waiting -> In k (declared (nodes t));
  i_failed : forall e, result t = Failed e -> exists pos n p j, nth_error (nodes t) pos = Some n /\ In (p, j) (feed_calls n) /\
    In (Bad e) (pulled (sources t pos j));
  i_answers : (broken t = false -> answers t <> Lost) /\ (broken t = true -> answers t <> Open_);
  i_ended : collect t = true -> answers t = Ended_ -> result t <> Running /\ chan t = [] /\
    (forall pos n p, nth_error (nodes t) pos = Some n -> p < nparts n -> rx t (nid n, p) <> Released \/ saw_end t (nid n, p) = true ->
       sent t pos (feed_of_partition n p) = got t (nid n, p) ++ queue t (nid n, p)) /\
    (~ failed t -> forall pos j, units (pulled (sources t pos j)) = sent t pos j) /\
    (result t = Finished -> forall pos n p j, nth_error (nodes t) pos = Some n -> In (p, j) (feed_calls n) ->
       ended (sources t pos j) = true /\ taken (sources t pos j) = List.length (made (sources t pos j)))
}.

Lemma start_inv m ns : inv (start m ns).
Proof.
  split; cbn; try discriminate; try congruence.
  - intros _. left. repeat split; [intros []|discriminate].
  - intros _ live [= <-] k H _. exact H.
  - intros pos n p _ _. split; [exists []; reflexivity|reflexivity].
  - intros pos j. split; [lia|]. split; [exists []; reflexivity|]. split; [intros _ e []|reflexivity].
  - split; discriminate.
Qed.

Lemma inflight_nil k : inflight k [] = [].
Proof. reflexivity. Qed.
Lemma inflight_batch k l c : inflight k (Batch l :: c) = of_key k l ++ inflight k c.
Proof. reflexivity. Qed.
Lemma inflight_eos k c : inflight k (WorkUnitEos :: c) = inflight k c.
Proof. reflexivity. Qed.
Local Arguments inflight : simpl never.
Local Arguments declared : simpl never.
Lemma inflight_app k a b : inflight k (a ++ b) = inflight k a ++ inflight k b.
Proof. apply flat_map_app. Qed.
Lemma prefix_trans {A} (a b c : list A) : prefix a b -> prefix b c -> prefix a c.
Proof. intros (r & ->) (r' & ->). exists (r ++ r'). now rewrite app_assoc. Qed.
Lemma prefix_app {A} (a b : list A) : prefix a (a ++ b).
Proof. now exists b. Qed.
Lemma prefix_refl {A} (a : list A) : prefix a a.
Proof. exists []. now rewrite app_nil_r. Qed.

Lemma with_eos_shape t : inv t -> result t = Running -> broken t = false ->
  exists c, with_eos t = c ++ [WorkUnitEos] /\ no_eos c /\ senders t <> None /\ c = chan t.
Proof.
  intros H Hr Hb. destruct (i_shape t H Hb) as [(_ & Hn & Hs)|[(Hn & _)|(Hn & _)]]; try congruence.
  exists (chan t). unfold with_eos. rewrite Hb. auto.
Qed.

(** Ending the background task in whatever way. *)
Lemma end_inv t r s' : inv t -> result t = Running -> r <> Running ->
  (forall pos j, made (s' pos j) = made (sources t pos j) /\ ended (s' pos j) = ended (sources t pos j) /\
     taken (sources t pos j) <= taken (s' pos j) /\ taken (s' pos j) <= List.length (made (s' pos j))) ->
  (r = Finished -> forall pos, pos < List.length (nodes t) -> future_done t pos = true) ->
  ((forall e, r <> Failed e) -> s' = sources t) ->
  (forall e, r = Failed e -> exists pos n p j, nth_error (nodes t) pos = Some n /\ In (p, j) (feed_calls n) /\ In (Bad e) (pulled (s' pos j))) ->
  inv (mkTask (nodes t) s' (future_done t) r (with_eos t) (broken t) (senders t) (queue t) (rx t) (got t) (saw_end t) (sent t) (collect t) (answers t)).
Proof.
  intros H Hr Hnr Hs Hfin Hsame Hfail. pose proof H as [I1 I2 I3 I4 I5 I6 I7 I8 I9 I10 I11 I12]. split; cbn.
  - intros Hb. destruct (I1 Hb) as [H1 H2]. unfold with_eos. now rewrite Hb.
  - intros Hb. right. left. destruct (with_eos_shape t H Hr Hb) as (c & Ec & Hc & Hs' & _). eauto.
  - intros Hb. exact (I3 Hb).
  - intros pos n p Hn Hp. destruct (I4 pos n p Hn Hp) as [H1 H2]. split; [exact H1|]. intros Hb Hx. rewrite (H2 Hb Hx).
    destruct (with_eos_shape t H Hr Hb) as (c & -> & _ & _ & ->). rewrite inflight_app, inflight_eos, inflight_nil. now rewrite app_nil_r.
  - intros pos j. destruct (I5 pos j) as (H1 & H2 & H3 & H4). destruct (Hs pos j) as (E1 & E2 & E3 & E4).
    split; [exact E4|]. split.
    + destruct (pulled_grows _ _ E1 E3) as (r' & ->). rewrite units_app. eapply prefix_trans; [exact H2|apply prefix_app].
    + assert (Hcase : ~ failed (mkTask (nodes t) s' (future_done t) r (with_eos t) (broken t) (senders t) (queue t) (rx t) (got t) (saw_end t) (sent t) (collect t) (answers t)) -> s' = sources t).
      { intros Hnf. apply Hsame. intros e ->. apply Hnf. now exists e. }
      assert (Hnf : ~ failed t) by (intros (e & He); congruence).
      split; [intros Hf; rewrite (Hcase Hf); auto|intros Hf Hb; rewrite (Hcase Hf); auto].
  - intros Hb pos n p j Hd Hn Hin. destruct (Hs pos j) as (E1 & E2 & E3 & E4). destruct (I6 Hb pos n p j Hd Hn Hin) as [H1 H2].
    rewrite E2, E1. rewrite E1 in E4. split; [exact H1|lia].
  - exact Hfin.
  - intros k Hk. destruct (I8 k Hk) as (H1 & H2 & [H3|(H3 & _)]); [auto|congruence].
  - exact I9.
  - exact Hfail.
  - exact I11.
  - intros Hc Ha. destruct (I12 Hc Ha) as (X & _). congruence.
Qed.

(** Replacing the sources by ones of which more was taken or made. *)
Lemma NoDup_pos ns pos pos' (n n' : node) : NoDup (map nid ns) -> nth_error ns pos = Some n -> nth_error ns pos' = Some n' ->
  nid n = nid n' -> pos = pos'.
Proof.
  intros Hd H H' E. rewrite NoDup_nth_error in Hd. apply Hd.
  - rewrite map_length. apply nth_error_Some. congruence.
  - rewrite !nth_error_map, H, H'. cbn. now rewrite E.
Qed.

Lemma tstep_inv t t' : NoDup (map nid (nodes t)) -> inv t -> tstep t t' -> inv t'.
Proof.
  intros Hd H Hstep. pose proof H as [I1 I2 I3 I4 I5 I6 I7 I8 I9 I10 I11 I12]. destruct Hstep as
    [t n j x He|t n j|t pos n chunk s' l Hr Hf Hn Ht Hne Hlen Hb|t pos n chunk s' e Hr Hf Hn Ht Hlen Hb|t pos n Hr Hn Hall|t Hr Hall
    |t Hb|t Ha Hcond|t m rest Hc|t k t' Ho|t k u q Hk Hq|t k Hk Hq Hg|t k Hk].
  - (* make *) split; cbn; auto.
    + intros pos j'. destruct (I5 pos j') as (H1 & H2 & H3 & H4).
      assert (E : let s := set2 (sources t) n j (mkSource (made (sources t n j) ++ [x]) (taken (sources t n j)) false) pos j' in
        taken s <= List.length (made s) /\ pulled s = pulled (sources t pos j')).
      { destruct (Nat.eq_dec n pos) as [<-|Hn]; [destruct (Nat.eq_dec j j') as [<-|Hj]|];
          [rewrite set2_same; cbn|rewrite set2_other by congruence; auto|rewrite set2_other by congruence; auto].
        rewrite app_length. cbn. split; [lia|]. unfold pulled. cbn. rewrite firstn_app.
        replace (taken (sources t n j) - List.length (made (sources t n j))) with 0 by lia. cbn. apply app_nil_r. }
      cbn zeta in E. destruct E as [E1 E2]. rewrite E2. auto.
    + intros Hb pos n' p j' Hf Hn Hin. destruct (I6 Hb pos n' p j' Hf Hn Hin) as [H1 H2].
      rewrite set2_other; [auto|]. intros [= -> ->]. congruence.
    + intros e Hf. destruct (I10 e Hf) as (pos & n' & p & j' & Hn & Hin & Hb). exists pos, n', p, j'. split; [exact Hn|]. split; [exact Hin|].
      destruct (Nat.eq_dec n pos) as [<-|Hn']; [destruct (Nat.eq_dec j j') as [<-|Hj]|];
        [rewrite set2_same|now rewrite set2_other by congruence|now rewrite set2_other by congruence].
      unfold pulled in *. cbn. rewrite firstn_app. apply in_app_iff. now left.
    + intros Hco Ha. destruct (I12 Hco Ha) as (J1 & J2 & J3 & J4 & J5). split; [exact J1|]. split; [exact J2|]. split; [exact J3|]. split.
      * intros Hnf pos j'. rewrite <- (J4 Hnf). f_equal. destruct (Nat.eq_dec n pos) as [<-|Hn]; [destruct (Nat.eq_dec j j') as [<-|Hj]|];
          [rewrite set2_same|now rewrite set2_other by congruence|now rewrite set2_other by congruence].
        destruct (I5 n j) as (H1 & _). unfold pulled. cbn. rewrite firstn_app.
        replace (taken (sources t n j) - List.length (made (sources t n j))) with 0 by lia. cbn. apply app_nil_r.
      * intros Hfin pos n' p j' Hn Hin. destruct (J5 Hfin pos n' p j' Hn Hin) as [H1 H2]. rewrite set2_other; [auto|]. intros [= -> ->]. congruence.
  - (* end *) split; cbn; auto.
    + intros pos j'. destruct (I5 pos j') as (H1 & H2 & H3 & H4).
      destruct (Nat.eq_dec n pos) as [<-|Hn]; [destruct (Nat.eq_dec j j') as [<-|Hj]|];
        [rewrite set2_same; unfold pulled in *; cbn; auto|rewrite set2_other by congruence; auto|rewrite set2_other by congruence; auto].
    + intros Hb pos n' p j' Hf Hn Hin. destruct (I6 Hb pos n' p j' Hf Hn Hin) as [H1 H2].
      destruct (Nat.eq_dec n pos) as [<-|Hn']; [destruct (Nat.eq_dec j j') as [<-|Hj]|];
        [rewrite set2_same; cbn; auto|rewrite set2_other by congruence; auto|rewrite set2_other by congruence; auto].
    + intros e Hf. destruct (I10 e Hf) as (pos & n' & p & j' & Hn & Hin & Hb). exists pos, n', p, j'. split; [exact Hn|]. split; [exact Hin|].
      destruct (Nat.eq_dec n pos) as [<-|Hn']; [destruct (Nat.eq_dec j j') as [<-|Hj]|];
        [rewrite set2_same; exact Hb|now rewrite set2_other by congruence|now rewrite set2_other by congruence].
    + intros Hco Ha. destruct (I12 Hco Ha) as (J1 & J2 & J3 & J4 & J5). split; [exact J1|]. split; [exact J2|]. split; [exact J3|]. split.
      * intros Hnf pos j'. rewrite <- (J4 Hnf). f_equal. destruct (Nat.eq_dec n pos) as [<-|Hn]; [destruct (Nat.eq_dec j j') as [<-|Hj]|];
          [now rewrite set2_same|now rewrite set2_other by congruence|now rewrite set2_other by congruence].
      * intros Hfin pos n' p j' Hn Hin. destruct (J5 Hfin pos n' p j' Hn Hin) as [H1 H2].
        destruct (Nat.eq_dec n pos) as [<-|Hn']; [destruct (Nat.eq_dec j j') as [<-|Hj]|];
          [rewrite set2_same; cbn; auto|rewrite set2_other by congruence; auto|rewrite set2_other by congruence; auto].
  - (* chunk *) unfold build_work_unit_batch_msg in Hb. destruct (mapM _ chunk) as [l'| |] eqn:El; cbn in Hb; try discriminate.
    injection Hb as ->. destruct (takes_batch n (nid n) pos _ _ _ Ht l El) as [Hids Hb]. pose proof (takes_frame _ _ _ _ _ Ht) as Hfr.
    assert (Hnf : ~ failed t) by (intros (e & E); congruence).
    destruct (broken t) eqn:Ebr; split; cbn; try congruence.
    + intros _. now apply I1.
    + intros pos' n' p Hn' Hp. destruct (I4 pos' n' p Hn' Hp) as [H1 _]. split; [exact H1|congruence].
    + intros pos' j. destruct (I5 pos' j) as (H1 & H2 & H3 & H4). destruct (Hfr pos' j) as (F1 & F2 & F3 & F4). destruct (Hb pos' j) as [B1 B2].
      split; [rewrite F1; auto|]. split; [|split; [auto|congruence]].
      rewrite B1. eapply prefix_trans; [exact H2|apply prefix_app].
    + intros k Hk. destruct (I8 k Hk) as (J1 & J2 & [J3|(J3 & _)]); auto; congruence.
    + exact I9.
    + intros Hco Ha. destruct (I12 Hco Ha) as (X & _). congruence.
    + intros _. left. destruct (I2 eq_refl) as [(_ & Hn1 & Hs1)|[(Hn1 & _)|(Hn1 & _)]]; try congruence.
      split; [exact Hr|]. split; [|exact Hs1]. intros Hin. apply in_app_iff in Hin as [Hin|[Hin|[]]]; [exact (Hn1 Hin)|discriminate].
    + exact I3.
    + intros pos' n' p Hn' Hp. destruct (I4 pos' n' p Hn' Hp) as [H1 H2]. rewrite record_sent_spec. split.
      * eapply prefix_trans; [exact H1|apply prefix_app].
      * intros _ Hx. rewrite (H2 eq_refl Hx). rewrite inflight_app, inflight_batch, inflight_nil. rewrite app_nil_r, <- !app_assoc. do 3 f_equal.
        destruct (Nat.eqb_spec pos pos') as [<-|Hp'].
        -- rewrite Hn in Hn'. injection Hn' as <-. symmetry. now apply of_key_feed.
        -- symmetry. apply (of_key_other n); [exact Hids|]. cbn. intros E. apply Hp'. symmetry. eapply NoDup_pos; eauto.
    + intros pos' j. destruct (I5 pos' j) as (H1 & H2 & H3 & H4). destruct (Hfr pos' j) as (F1 & F2 & F3 & F4). destruct (Hb pos' j) as [B1 B2].
      rewrite record_sent_spec. split; [rewrite F1; auto|].
      assert (E : units (pulled (s' pos' j)) = sent t pos' j ++ (if pos =? pos' then of_feed n j l else [])) by (rewrite B1, H4; auto).
      rewrite E. split; [apply prefix_refl|]. split; [auto|auto].
    + intros _ pos' n' p j Hf' Hn' Hin. destruct (I6 eq_refl pos' n' p j Hf' Hn' Hin) as [H1 H2]. destruct (Hfr pos' j) as (F1 & F2 & F3 & F4).
      destruct (I5 pos' j) as (G1 & _). specialize (F4 G1). rewrite F2, F1. split; [exact H1|lia].
    + intros k Hk. destruct (I8 k Hk) as (J1 & J2 & [J3|(J3 & _)]); congruence.
    + exact I9.
    + intros Hco Ha. destruct (I12 Hco Ha) as (X & _). congruence.
  - (* error *) pose proof (takes_frame _ _ _ _ _ Ht) as Hfr. apply end_inv; auto; try discriminate.
    + intros pos' j. destruct (Hfr pos' j) as (F1 & F2 & F3 & F4). destruct (I5 pos' j) as (G1 & _). rewrite F1. auto.
    + intros Hne. exfalso. exact (Hne e eq_refl).
    + intros e' [= <-]. unfold build_work_unit_batch_msg in Hb. destruct (mapM _ chunk) as [| e0|] eqn:El; cbn in Hb; try discriminate. injection Hb as ->.
      destruct (takes_error n (nid n) pos _ _ _ Ht e El) as (p & j & Hin & Hbad). exists pos, n, p, j. auto.
  - (* future *) split; cbn; auto.
    + intros Hb pos' n' p j Hf Hn' Hin. destruct (Nat.eqb_spec pos' pos) as [->|Hp]; [|eauto].
      rewrite Hn in Hn'. injection Hn' as <-. eauto.
    + intros Hfin. congruence.
  - (* joined *) apply end_inv; auto; try discriminate. intros pos j. destruct (I5 pos j) as (G1 & _). auto.
  - (* break *) split; cbn; auto; try discriminate.
    + intros pos n p Hn Hp. destruct (I4 pos n p Hn Hp) as [H1 _]. split; [exact H1|discriminate].
    + intros pos j. destruct (I5 pos j) as (H1 & H2 & H3 & H4). split; [exact H1|]. split; [exact H2|]. split; [exact H3|discriminate].
    + intros k Hk. destruct (I8 k Hk) as (J1 & J2 & _). auto.
    + split; [discriminate|]. intros _. now destruct (answers t).
    + intros Hco Ha. assert (Ha' : answers t = Ended_) by (destruct (answers t); congruence).
      destruct (I12 Hco Ha') as (J1 & J2 & J3 & J4 & J5). auto.
  - (* answers *) split; cbn; auto.
    + split; [discriminate|discriminate].
    + intros Hco _. destruct Hcond as [Hcond|(J1 & J2 & J3)]; [congruence|]. split; [exact J1|]. split; [exact J2|]. split; [|split].
      * intros pos n p Hn Hp Hx. destruct (I4 pos n p Hn Hp) as [_ H2]. rewrite (H2 J3 Hx), J2, inflight_nil. now rewrite app_nil_r.
      * intros Hnf pos j. destruct (I5 pos j) as (_ & _ & _ & H4). auto.
      * intros Hfin pos n p j Hn Hin. eapply I6; eauto. apply I7; [exact Hfin|]. apply nth_error_Some. congruence.
  - (* deliver *) assert (Hbr : broken t = false) by (destruct (broken t) eqn:E; [destruct (I1 eq_refl); congruence|reflexivity]).
    assert (Hnone : senders t <> None) by (destruct (I2 Hbr) as [(_ & _ & Hs)|[(_ & Hs & _)|(_ & _ & Hc')]]; [exact Hs|exact Hs|congruence]).
    assert (Hend : forall k, saw_end t k = true -> False).
    { intros k Hk. destruct (I8 k Hk) as (_ & _ & [J|(_ & J & _)]); congruence. }
    assert (Hopen : collect t = true -> answers t = Ended_ -> False).
    { intros Hco Ha. destruct (I12 Hco Ha) as (_ & J & _). congruence. }
    destruct m as [l|].
    + unfold handle. destruct (senders t) as [live|] eqn:Es; [|congruence].
      destruct (fold_left (deliver_unit (rx t)) l (live, queue t)) as [live' q'] eqn:Ef. cbn [fst snd].
      pose proof (deliver_fold _ _ _ _ _ _ Ef) as Hdf. split; cbn; auto; try congruence.
      * intros _. destruct (I2 Hbr) as [(J1 & J2 & _)|[(J1 & _ & c & J2 & J3)|(_ & _ & J)]]; [left|right; left|congruence].
        -- split; [exact J1|]. split; [|discriminate]. intros Hin. apply J2. rewrite Hc. now right.
        -- split; [exact J1|]. split; [discriminate|]. rewrite Hc in J2. destruct c as [|c0 c]; cbn in J2; [discriminate|].
           injection J2 as <- ->. exists c. split; [reflexivity|]. intros Hin. apply J3. now right.
      * intros _ live0 [= <-] k Hk Hx. exact (proj1 (proj2 (Hdf k) Hx (I3 Hbr live eq_refl k Hk Hx))).
      * intros pos n p Hn Hp. destruct (I4 pos n p Hn Hp) as [H1 H2]. destruct (rx t (nid n, p)) eqn:Erx.
        3: { split; [|intros _ [X|X]; [congruence|destruct (Hend _ X)]]. rewrite (proj1 (Hdf (nid n, p)) Erx). exact H1. }
        1,2: assert (Hx : rx t (nid n, p) <> Released) by congruence;
          assert (Hin : In (nid n, p) live) by (apply (I3 Hbr live eq_refl); [apply declared_in; exists n; split; [eapply nth_error_In; eauto|auto]|exact Hx]);
          destruct (proj2 (Hdf (nid n, p)) Hx Hin) as [_ Hq]; rewrite Hq;
          assert (E : sent t pos (feed_of_partition n p) = got t (nid n, p) ++ (queue t (nid n, p) ++ of_key (nid n, p) l) ++ inflight (nid n, p) rest)
            by (rewrite (H2 Hbr) by (left; congruence); rewrite Hc, inflight_batch; now rewrite <- !app_assoc);
          (split; [exists (inflight (nid n, p) rest); rewrite E; now rewrite <- !app_assoc|intros _ _; exact E]).
      * intros Hco Ha. destruct (Hopen Hco Ha).
    + unfold handle. cbn [fst snd]. split; cbn; auto; try congruence.
      * intros _. right. right. destruct (I2 Hbr) as [(J1 & J2 & _)|[(J1 & _ & c & J2 & J3)|(_ & _ & J)]].
        -- exfalso. apply J2. rewrite Hc. now left.
        -- split; [exact J1|]. split; [reflexivity|]. rewrite Hc in J2. destruct c as [|c0 c]; cbn in J2; [congruence|].
           injection J2 as <- _. exfalso. apply J3. now left.
        -- congruence.
      * intros pos n p Hn Hp. destruct (I4 pos n p Hn Hp) as [H1 H2]. split; [exact H1|]. intros Hb Hx. rewrite (H2 Hb Hx), Hc. reflexivity.
      * intros Hco Ha. destruct (Hopen Hco Ha).
  - (* open *) unfold open_feed in Ho. destruct (existsb (key_eqb k) (declared (nodes t))) eqn:Ed; [|discriminate].
    destruct (rx t k) eqn:Erx; try discriminate. injection Ho as <-. apply existsb_key in Ed. split; cbn; auto.
    + intros Hb live Hl k' Hk' Hx. apply (I3 Hb live Hl k' Hk'). intros E. apply Hx. rewrite set_other; [exact E|]. intros ->. congruence.
    + intros pos n p Hn Hp. destruct (I4 pos n p Hn Hp) as [H1 H2]. split; [exact H1|]. intros Hb [Hx|Hx]; [|auto]. apply (H2 Hb). left. intros E. apply Hx.
      rewrite set_other; [exact E|]. intros ->. congruence.
    + intros k' Hx. destruct (key_eqb k k') eqn:E; [apply key_eqb_eq in E; now subst|]. apply I9. rewrite set_other in Hx; [exact Hx|].
      intros ->. rewrite key_eqb_refl in E. discriminate.
    + intros Hco Ha. destruct (I12 Hco Ha) as (J1 & J2 & J3 & J4 & J5). split; [exact J1|]. split; [exact J2|]. split; [|auto].
      intros pos n p Hn Hp [Hx|Hx]; apply (J3 pos n p Hn Hp); [|auto]. left. intros E. apply Hx. rewrite set_other; [exact E|]. intros ->. congruence.
  - (* read *) split; cbn; auto.
    + intros pos n p Hn Hp. destruct (I4 pos n p Hn Hp) as [H1 H2].
      assert (E : set (got t) k (got t k ++ [u]) (nid n, p) ++ set (queue t) k q (nid n, p) = got t (nid n, p) ++ queue t (nid n, p)).
      { unfold set. destruct (key_eqb k (nid n, p)) eqn:E; [|reflexivity]. apply key_eqb_eq in E. subst k. rewrite Hq, <- app_assoc. reflexivity. }
      rewrite app_assoc, E, <- app_assoc. auto.
    + intros k' Hk'. destruct (I8 k' Hk') as (J1 & J2 & J3). split; [|auto]. rewrite set_other; [exact J1|]. intros ->. congruence.
    + intros Hco Ha. destruct (I12 Hco Ha) as (J1 & J2 & J3 & J4 & J5). split; [exact J1|]. split; [exact J2|]. split; [|auto].
      intros pos n p Hn Hp Hx. rewrite (J3 pos n p Hn Hp Hx). unfold set. destruct (key_eqb k (nid n, p)) eqn:E; [|reflexivity].
      apply key_eqb_eq in E. subst k. rewrite Hq, <- app_assoc. reflexivity.
  - (* saw end *) assert (Hset : forall k', set (saw_end t) k true k' = true -> k' = k \/ saw_end t k' = true).
    { intros k' Hk'. destruct (key_eqb k k') eqn:E; [apply key_eqb_eq in E; auto|]. right. unfold set in Hk'. now rewrite E in Hk'. }
    assert (Hrx : forall k', rx t k' <> Released \/ set (saw_end t) k true k' = true -> rx t k' <> Released \/ saw_end t k' = true).
    { intros k' [Hx|Hx]; [auto|]. destruct (Hset k' Hx) as [-> |]; [left; congruence|auto]. }
    split; cbn; auto.
    + intros pos n p Hn Hp. destruct (I4 pos n p Hn Hp) as [H1 H2]. auto.
    + intros k' Hk'. destruct (Hset k' Hk') as [-> |Hk2]; [|exact (I8 k' Hk2)].
      split; [exact Hq|]. assert (Hdec : In k (declared (nodes t))) by (apply I9; congruence).
      split; [exact Hdec|]. destruct (broken t) eqn:Ebr; [now left|right]. unfold sender_gone in Hg. destruct (senders t) as [live|] eqn:Es.
      * exfalso. assert (Hin : In k live) by (apply (I3 eq_refl live eq_refl k Hdec); congruence). apply existsb_key in Hin. rewrite Hin in Hg. discriminate.
      * destruct (I2 eq_refl) as [(_ & _ & J)|[(_ & J & _)|(J1 & _ & J2)]]; try congruence. auto.
    + intros Hco Ha. destruct (I12 Hco Ha) as (J1 & J2 & J3 & J4 & J5). auto 8.
  - (* release *) split; cbn; auto.
    + intros Hb live Hl k' Hk' Hx. apply (I3 Hb live Hl k' Hk'). intros E. apply Hx. unfold set. now destruct (key_eqb k k').
    + intros pos n p Hn Hp. destruct (I4 pos n p Hn Hp) as [H1 H2]. split; [exact H1|]. intros Hb [Hx|Hx]; [|auto]. apply (H2 Hb). left. intros E. apply Hx.
      unfold set. now destruct (key_eqb k (nid n, p)).
    + intros k' Hx. unfold set in Hx. destruct (key_eqb k k') eqn:E; [apply key_eqb_eq in E; subst; apply I9; congruence|auto].
    + intros Hco Ha. destruct (I12 Hco Ha) as (J1 & J2 & J3 & J4 & J5). split; [exact J1|]. split; [exact J2|]. split; [|auto].
      intros pos n p Hn Hp [Hx|Hx]; apply (J3 pos n p Hn Hp); [|auto]. left. intros E. apply Hx. unfold set. now destruct (key_eqb k (nid n, p)).
Qed.

Lemma tstep_nodes (t t' : task) : tstep t t' -> nodes t' = nodes t.
Proof.
  destruct 1; try reflexivity; [destruct (broken t); reflexivity|]. unfold open_feed in H.
  destruct (existsb _ _); [|discriminate]. destruct (rx t k); try discriminate. now injection H as <-.
Qed.

Lemma abort_inv (t : task) : inv t -> inv (abort t).
Proof.
  intros H. unfold abort. destruct (result t) eqn:E; auto. apply end_inv; auto; try discriminate.
  intros pos j. destruct (i_sent t H pos j) as (G1 & _). auto.
Qed.
Lemma abort_nodes (t : task) : nodes (abort t) = nodes t.
Proof. unfold abort. now destruct (result t). Qed.

(** ** What a step keeps *)

Lemma tstep_keeps (t t' : task) : tstep t t' ->
  collect t' = collect t /\ (result t <> Running -> result t' = result t) /\ (answers t <> Open_ -> answers t' = answers t) /\
  (broken t = true -> broken t' = true) /\ (forall e, result t = Failed e -> result t' = Failed e) /\
  (result t' = Aborted -> result t = Aborted).
Proof.
  destruct 1; try (destruct (broken t) eqn:Eb); try (unfold open_feed in H; destruct (existsb _ _); [|discriminate]; destruct (rx t k); try discriminate; injection H as <-);
    cbn; repeat split; intros; try congruence; destruct (answers t); congruence.
Qed.

(** ** Queries *)

Definition done (t : task) : Prop := result t = Finished /\ answers t = Ended_.
Record qinv (m : bool) (l : list (list node)) (q : query unit_) : Prop := {
  q_nodes : map nodes (tasks q) = l;
  q_collect : forall t, In t (tasks q) -> collect t = m;
  q_inv : forall t, In t (tasks q) -> own_ids t -> inv t;
  q_aborted : forall t, In t (tasks q) -> result t = Aborted -> dropped q = true;
  q_ok : outcome q = Some (Ok tt) -> forall t, In t (tasks q) -> done t;
  q_err : forall e, outcome q = Some (Err e) -> exists t, In t (tasks q) /\ (result t = Failed e \/ answers t = Lost);
  q_panic : forall e, outcome q <> Some (Panic e);
  q_ended : outcome q <> None -> forall t, In t (tasks q) -> result t <> Running /\ answers t <> Open_
}.

Lemma start_qinv m l : qinv m l (start_query m l).
Proof.
  split; cbn; try discriminate; try congruence.
  - rewrite map_map. cbn. apply map_id.
  - intros t H. apply in_map_iff in H as (ns & <- & _). reflexivity.
  - intros t H _. apply in_map_iff in H as (ns & <- & _). apply start_inv.
  - intros t H. apply in_map_iff in H as (ns & <- & _). discriminate.
Qed.

Lemma task_ended_spec (t : task) : task_ended t = true -> result t <> Running /\ answers t <> Open_.
Proof. unfold task_ended. destruct (result t), (answers t); try discriminate; intros _; split; discriminate. Qed.

Lemma qstep_inv m l q q' : qinv m l q -> qstep q q' -> qinv m l q'.
Proof.
  intros [I1 I2 I3 I4 I5 I6 I7 I8] Hs. destruct Hs as [q L t t' R Ht Hstep|q|q Hr Ho Hd Hall|q t e Hr Ho Hd Hall Hin He|q Ho].
  - assert (Hin : In t (tasks q)) by (rewrite Ht; apply in_app_iff; right; now left).
    destruct (tstep_keeps t t' Hstep) as (K1 & K2 & K3 & K4 & K5 & K6).
    assert (Hcase : forall x, In x (L ++ t' :: R) -> x = t' \/ In x (tasks q)).
    { intros x Hx. rewrite Ht. apply in_app_iff in Hx as [Hx|[<-|Hx]]; [right|auto|right]; apply in_app_iff; [now left|right; now right]. }
    split; cbn; auto.
    + rewrite <- I1, Ht, !map_app. cbn. do 2 f_equal. now apply tstep_nodes.
    + intros x Hx. destruct (Hcase x Hx) as [-> |Hx']; [rewrite K1; auto|auto].
    + intros x Hx Hown. destruct (Hcase x Hx) as [-> |Hx']; [|auto]. unfold own_ids in Hown. rewrite (tstep_nodes t t' Hstep) in Hown.
      eapply tstep_inv; eauto.
    + intros x Hx Ha. destruct (Hcase x Hx) as [-> |Hx']; [eauto|eauto].
    + intros Ho x Hx. destruct (Hcase x Hx) as [-> |Hx']; [|auto]. destruct (I5 Ho t Hin) as [D1 D2].
      split; [rewrite K2 by congruence; exact D1|rewrite K3 by congruence; exact D2].
    + intros e Ho. destruct (I6 e Ho) as (x & Hx & HF). rewrite Ht in Hx. apply in_app_iff in Hx as [Hx|[<-|Hx]].
      * exists x. split; [apply in_app_iff; now left|exact HF].
      * exists t'. split; [apply in_app_iff; right; now left|]. destruct HF as [HF|HF]; [left; auto|right; rewrite K3; congruence].
      * exists x. split; [apply in_app_iff; right; now right|exact HF].
    + intros Ho x Hx. destruct (Hcase x Hx) as [-> |Hx']; [|auto]. destruct (I8 Ho t Hin) as [D1 D2]. rewrite K2, K3 by assumption. auto.
  - split; cbn; auto.
  - split; cbn; auto; try discriminate.
    + intros t Ht Ha. rewrite (I4 t Ht Ha) in Hd. discriminate.
    + intros _ t Ht. destruct (Hall t Ht) as [H1 H2]. apply task_ended_spec in H1 as [H1 H3]. unfold task_error in H2. split.
      * destruct (result t) eqn:E; try congruence; try discriminate. rewrite (I4 t Ht E) in Hd. discriminate.
      * destruct (result t), (answers t); congruence.
    + intros _ t Ht. apply task_ended_spec. now apply Hall.
  - split; cbn; auto; try discriminate.
    + intros x Hx Ha. rewrite (I4 x Hx Ha) in Hd. discriminate.
    + intros e' [= <-]. exists t. split; [exact Hin|]. unfold task_error in He. destruct (result t), (answers t); try discriminate; injection He as <-; auto.
    + intros _ x Hx. apply task_ended_spec. now apply Hall.
  - split; cbn; try discriminate; try congruence.
    + rewrite map_map. rewrite <- I1. apply map_ext. intros t. apply abort_nodes.
    + intros t H. apply in_map_iff in H as (x & <- & Hx). unfold abort. destruct (result x) eqn:E; cbn; auto.
    + intros t H Hown. apply in_map_iff in H as (x & <- & Hx). apply abort_inv. apply I3; [exact Hx|]. unfold own_ids in Hown. now rewrite abort_nodes in Hown.
Qed.

Lemma reachable_qinv m l q : steps qstep (start_query m l) q -> qinv m l q.
Proof.
  intros H. refine (steps_invariant qstep (qinv m l) _ _ (start_qinv m l) _ H). intros a b. apply qstep_inv.
Qed.

(** ** Splitting the feeds among the tasks *)

Lemma calls_snd n : map snd (feed_calls n) = seq (nparts n * task_index (nctx n)) (nparts n).
Proof.
  unfold feed_calls. generalize (nparts n * task_index (nctx n)), 0. induction (nparts n) as [|k IH]; intros a b; cbn; [reflexivity|].
  f_equal. apply IH.
Qed.
Lemma calls_all id P T : flat_map (fun i => map snd (feed_calls (mkNode id P (mkCtx i T)))) (seq 0 T) = seq 0 (P * T).
Proof.
  assert (H : forall k, flat_map (fun i => map snd (feed_calls (mkNode id P (mkCtx i T)))) (seq 0 k) = seq 0 (P * k)).
  { induction k as [|k IH]; [now rewrite Nat.mul_0_r|]. rewrite seq_S, flat_map_app, IH. cbn [flat_map]. rewrite app_nil_r, calls_snd. cbn.
    rewrite Nat.mul_succ_r, seq_app. reflexivity. }
  apply H.
Qed.
Lemma div_mod_of P i p : p < P -> (P * i + p) / P = i /\ (P * i + p) mod P = p.
Proof.
  intros H. split.
  - rewrite Nat.add_comm, Nat.mul_comm, Nat.div_add by lia. rewrite Nat.div_small by lia. reflexivity.
  - rewrite Nat.add_comm, Nat.mul_comm, Nat.mod_add by lia. apply Nat.mod_small. lia.
Qed.

(** ** What the leaves get *)

Lemma pulled_all (s : source unit_) : taken s = List.length (made s) -> pulled s = made s.
Proof. intros H. unfold pulled. rewrite H. apply firstn_all. Qed.

Lemma got_prefix t pos n p : inv t -> nth_error (nodes t) pos = Some n -> p < nparts n ->
  prefix (got t (nid n, p)) (units (pulled (sources t pos (feed_of_partition n p)))).
Proof.
  intros H Hn Hp. destruct (i_got t H pos n p Hn Hp) as [H1 _]. destruct (i_sent t H pos (feed_of_partition n p)) as (_ & H2 & _).
  eapply prefix_trans; [|exact H2]. eapply prefix_trans; [|exact H1]. apply prefix_app.
Qed.

Lemma finished_feeds t pos n p j : inv t -> result t = Finished -> broken t = false \/ (collect t = true /\ answers t = Ended_) ->
  nth_error (nodes t) pos = Some n -> In (p, j) (feed_calls n) ->
  ended (sources t pos j) = true /\ pulled (sources t pos j) = made (sources t pos j) /\ clean (made (sources t pos j)) /\
  units (made (sources t pos j)) = sent t pos j.
Proof.
  intros H Hr Hb Hn Hin. assert (Hnf : ~ failed t) by (intros (e & E); congruence).
  destruct (i_sent t H pos j) as (_ & _ & Hc & Hu).
  assert (Hend : ended (sources t pos j) = true /\ taken (sources t pos j) = List.length (made (sources t pos j))).
  { destruct Hb as [Hb|[Hb Ha]].
    - eapply i_future; eauto. eapply i_finished; eauto. apply nth_error_Some. congruence.
    - destruct (i_ended t H Hb Ha) as (_ & _ & _ & _ & J). eauto. }
  destruct Hend as [E1 E2]. pose proof (pulled_all _ E2) as E3. split; [exact E1|]. split; [exact E3|]. rewrite <- E3 at 1 2.
  split; [now apply Hc|]. destruct Hb as [Hb|[Hb Ha]]; [auto|]. destruct (i_ended t H Hb Ha) as (_ & _ & _ & J & _). now rewrite E3, <- E3, J.
Qed.

Lemma ended_got t pos n p : inv t -> result t = Finished -> broken t = false \/ (collect t = true /\ answers t = Ended_) ->
  nth_error (nodes t) pos = Some n -> p < nparts n -> saw_end t (nid n, p) = true ->
  got t (nid n, p) = units (made (sources t pos (feed_of_partition n p))).
Proof.
  intros H Hr Hb Hn Hp He. assert (Hin : In (p, feed_of_partition n p) (feed_calls n)) by (apply feed_calls_in; auto).
  destruct (finished_feeds t pos n p _ H Hr Hb Hn Hin) as (_ & _ & _ & Hu). rewrite Hu.
  destruct (i_end t H _ He) as (Hq & _ & Hcase). destruct Hb as [Hb|[Hb Ha]].
  - destruct (i_got t H pos n p Hn Hp) as [_ H2]. rewrite (H2 Hb) by auto. destruct Hcase as [Hcase|(_ & Hc & _)]; [congruence|].
    rewrite Hq, Hc, inflight_nil. now rewrite !app_nil_r.
  - destruct (i_ended t H Hb Ha) as (_ & _ & J & _). rewrite (J pos n p Hn Hp) by auto. rewrite Hq. now rewrite app_nil_r.
Qed.
End Proofs.
