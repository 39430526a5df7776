(** Proofs for C86. *)
From Verif Require Import Base CiuModel ConsoleModel ConsoleSpec.
From Coq Require Import Lia.

Lemma key_eqb_eq a b : key_eqb a b = true <-> a = b.
Proof.
  destruct a as [[q s] n], b as [[q' s'] n']. cbn. rewrite !Bool.andb_true_iff, !Nat.eqb_eq. split.
  - intros [[-> ->] ->]. reflexivity.
  - intros [= -> -> ->]. auto.
Qed.
Lemma key_eqb_refl a : key_eqb a a = true.
Proof. now apply key_eqb_eq. Qed.
Lemma key_eqb_neq a b : a <> b -> key_eqb a b = false.
Proof. intros H. destruct (key_eqb a b) eqn:E; [apply key_eqb_eq in E; contradiction|reflexivity]. Qed.
Lemma has_in k l : has k l = true <-> In k l.
Proof.
  unfold has. rewrite existsb_exists. split.
  - intros (x & Hx & E). apply key_eqb_eq in E. now subst.
  - intros H. exists k. split; [exact H|apply key_eqb_refl].
Qed.
Lemma in_keys k l : In k (keys l) <-> exists t, In t l /\ l_key t = Some k.
Proof.
  unfold keys. rewrite in_flat_map. split; intros (t & Ht & E); exists t; (split; [exact Ht|]).
  - destruct (l_key t); [|destruct E]. destruct E as [->|[]]. reflexivity.
  - rewrite E. now left.
Qed.

Lemma seen_filter f l k : (forall x, key_eqb k (fst x) = true -> f x = true) -> seen_at (filter f l) k = seen_at l k.
Proof.
  intros H. unfold seen_at. induction l as [|x l IH]; [reflexivity|]. cbn. destruct (key_eqb k (fst x)) eqn:E.
  - rewrite (H x E). cbn. rewrite E. reflexivity.
  - destruct (f x); cbn; [rewrite E|]; exact IH.
Qed.
Lemma seen_filter_none f l k : (forall x, key_eqb k (fst x) = true -> f x = false) -> seen_at (filter f l) k = None.
Proof.
  intros H. unfold seen_at. induction l as [|x l IH]; [reflexivity|]. cbn. destruct (f x) eqn:F; [|exact IH].
  cbn. destruct (key_eqb k (fst x)) eqn:E; [rewrite (H x E) in F; discriminate|exact IH].
Qed.
Lemma seen_app l k k' t : seen_at (l ++ [(k', t)]) k = match seen_at l k with Some x => Some x | None => if key_eqb k k' then Some t else None end.
Proof.
  unfold seen_at. induction l as [|x l IH]; cbn.
  - destruct (key_eqb k k'); reflexivity.
  - destruct (key_eqb k (fst x)); [destruct x; reflexivity|exact IH].
Qed.

(** Noting the tasks of an answer. *)
Lemma note_fold now new seen k :
  seen_at (fold_left (note_seen now) new seen) k =
  match seen_at seen k with Some t => Some t | None => if has k (keys new) then Some now else None end.
Proof.
  revert seen. induction new as [|t new IH]; intro seen.
  { cbn. destruct (seen_at seen k); reflexivity. }
  cbn [fold_left]. rewrite IH. change (keys (t :: new)) with ((match l_key t with Some k => [k] | None => [] end) ++ keys new).
  unfold has. rewrite existsb_app. unfold note_seen. destruct (l_key t) as [k'|] eqn:L; cbn [existsb]; [|reflexivity].
  destruct (seen_at seen k') as [t'|] eqn:S.
  - destruct (key_eqb k k') eqn:E; [|reflexivity]. apply key_eqb_eq in E as ->. rewrite S. reflexivity.
  - rewrite seen_app. destruct (seen_at seen k); [reflexivity|]. destruct (key_eqb k k'); reflexivity.
Qed.

(** Completing the tasks that are missing. *)
Lemma complete_seen now new old done seen k : In k new ->
  seen_at (snd (fold_left (complete now new) old (done, seen))) k = seen_at seen k.
Proof.
  intros Hk. revert done seen. induction old as [|t old IH]; intros done seen; [reflexivity|]. cbn [fold_left]. cbn [complete].
  destruct (l_running t); [|apply IH]. destruct (l_key t) as [k'|]; [|apply IH]. destruct (has k' new) eqn:Hn; [apply IH|].
  rewrite IH. apply seen_filter. intros x E. apply key_eqb_eq in E. rewrite <- E. apply Bool.negb_true_iff, key_eqb_neq.
  intros ->. apply has_in in Hk. congruence.
Qed.
Lemma complete_seen_none now new old done seen k : seen_at seen k = None ->
  seen_at (snd (fold_left (complete now new) old (done, seen))) k = None.
Proof.
  revert done seen. induction old as [|t old IH]; intros done seen Hs; [exact Hs|]. cbn [fold_left]. cbn [complete].
  destruct (l_running t); [|now apply IH]. destruct (l_key t) as [k'|]; [|now apply IH]. destruct (has k' new) eqn:Hn; [now apply IH|].
  apply IH. destruct (key_eqb k k') eqn:E.
  - apply key_eqb_eq in E as ->. apply seen_filter_none. intros x E. apply key_eqb_eq in E. rewrite <- E, key_eqb_refl. reflexivity.
  - rewrite seen_filter; [exact Hs|]. intros x E'. apply key_eqb_eq in E'. rewrite <- E'. apply Bool.negb_true_iff, key_eqb_neq.
    intros ->. rewrite key_eqb_refl in E. discriminate.
Qed.
Lemma complete_done now new old done seen k d : NoDup (keys old) ->
  In (k, d) (fst (fold_left (complete now new) old (done, seen))) ->
  In (k, d) done \/ (exists t, In t old /\ l_key t = Some k /\ l_running t = true /\ ~ In k new /\
                       d = match seen_at seen k with Some t0 => now - t0 | None => 0 end).
Proof.
  revert done seen. induction old as [|t old IH]; intros done seen N H; [auto|]. cbn [fold_left] in H.
  assert (N' : NoDup (keys old)).
  { change (keys (t :: old)) with ((match l_key t with Some k => [k] | None => [] end) ++ keys old) in N.
    destruct (l_key t); [inversion N; assumption|exact N]. }
  assert (skip : forall done seen, In (k, d) (fst (fold_left (complete now new) old (done, seen))) ->
    In (k, d) done \/ (exists t', In t' (t :: old) /\ l_key t' = Some k /\ l_running t' = true /\ ~ In k new /\
                       d = match seen_at seen k with Some t0 => now - t0 | None => 0 end)).
  { intros done' seen' H'. destruct (IH done' seen' N' H') as [?|(t' & Ht' & R)]; [auto|]. right. exists t'. split; [now right|exact R]. }
  cbn [complete] in H. destruct (l_running t) eqn:Hr; [|now apply skip]. destruct (l_key t) as [k'|] eqn:Hk; [|now apply skip].
  destruct (has k' new) eqn:Hn; [now apply skip|].
  destruct (IH _ _ N' H) as [Hd|(t' & Ht' & Hk' & Hr' & Hn' & Hd)].
  - assert (Hd' : In (k, d) ((k', match seen_at seen k' with Some t => now - t | None => 0 end) :: done)).
    { rewrite <- (firstn_skipn max_completed (_ :: done)). apply in_or_app. now left. }
    destruct Hd' as [E|Hd']; [|auto]. injection E as -> <-. right. exists t. split; [now left|]. split; [exact Hk|]. split; [exact Hr|].
    split; [|reflexivity]. intros Hin. apply has_in in Hin. congruence.
  - right. exists t'. split; [now right|]. split; [exact Hk'|]. split; [exact Hr'|]. split; [exact Hn'|]. rewrite Hd.
    rewrite seen_filter; [reflexivity|]. intros x E. apply key_eqb_eq in E. rewrite <- E. apply Bool.negb_true_iff, key_eqb_neq.
    intros ->. change (keys (t :: old)) with ((match l_key t with Some k => [k] | None => [] end) ++ keys old) in N.
    rewrite Hk in N. cbn in N. inversion N as [|? ? N1 N2]; subst. apply N1. apply in_keys. eauto.
Qed.
Lemma complete_bound now new old done seen :
  List.length done <= max_completed -> List.length (fst (fold_left (complete now new) old (done, seen))) <= max_completed.
Proof.
  revert done seen. induction old as [|t old IH]; intros done seen H; [exact H|]. cbn [fold_left]. cbn [complete].
  destruct (l_running t); [|now apply IH]. destruct (l_key t) as [k'|]; [|now apply IH]. destruct (has k' new); [now apply IH|].
  apply IH. rewrite firstn_length. apply Nat.le_min_l.
Qed.
(** None of the tasks that are missing is forgotten if there are not too many. *)
Lemma complete_keeps now new old done seen t k : In t old -> l_key t = Some k -> l_running t = true -> ~ In k new ->
  List.length (filter is_running old) <= max_completed ->
  exists d, In (k, d) (fst (fold_left (complete now new) old (done, seen))).
Proof.
  intros Ht Hk Hr Hn Hl.
  enough (G : forall old done seen n, List.length (filter is_running old) + n <= max_completed ->
    (In t old \/ exists d, In (k, d) (firstn n done)) -> exists d, In (k, d) (fst (fold_left (complete now new) old (done, seen)))).
  { apply (G old done seen 0); [lia|auto]. }
  clear old done seen Ht Hl. induction old as [|t' old IH]; intros done seen n Hl H.
  - destruct H as [[]|[d Hd]]. exists d. cbn. rewrite <- (firstn_skipn n done). apply in_or_app. now left.
  - cbn [fold_left]. cbn [complete]. cbn [filter] in Hl. unfold is_running at 1 in Hl.
    destruct (l_key t') as [k'|] eqn:Hk'.
    2:{ destruct (l_running t') eqn:Hr'; apply (IH done seen n); try exact Hl; destruct H as [[->|H]|H]; auto; congruence. }
    destruct (l_running t') eqn:Hr'.
    2:{ apply (IH done seen n); [exact Hl|]. destruct H as [[->|H]|H]; auto; congruence. }
    destruct (has k' new) eqn:Hn'.
    { apply (IH done seen n); [cbn in Hl; lia|]. destruct H as [[->|H]|H]; auto. exfalso. apply Hn. apply has_in. congruence. }
    cbn [List.length] in Hl.
    assert (Hf : forall x : key * nat, firstn (S n) (firstn max_completed (x :: done)) = x :: firstn n done).
    { intro x. rewrite firstn_firstn. replace (Nat.min (S n) max_completed) with (S n) by lia. reflexivity. }
    apply (IH _ _ (S n)); [lia|]. rewrite Hf. destruct H as [[->|H]|[d Hd]]; [|now left|right; exists d; now right].
    right. assert (k' = k) as -> by congruence. eexists. left. reflexivity.
Qed.

(** * Histories *)
Lemma after_app u l e : after u (l ++ [e]) = apply_event (after u l) e.
Proof. unfold after. now rewrite fold_left_app. Qed.

Definition seen_in (u : nat) (l : list event) (k : key) (t0 : nat) (t : listed) : Prop :=
  exists l0 a0 l1, l = l0 ++ EPoll t0 (Some a0) :: l1 /\ client (after u l0) = true /\ lists k a0 /\ keeps k l1 /\
    exists t1 a1, In (EPoll t1 (Some a1)) (EPoll t0 (Some a0) :: l1) /\ In t (a_tasks a1).
Definition idle_event (e : event) : Prop := match e with EPoll _ _ => False | _ => True end.
Lemma seen_in_more u l k t0 t e : idle_event e -> seen_in u l k t0 t -> seen_in u (l ++ [e]) k t0 t.
Proof.
  intros He (l0 & a0 & l1 & -> & Hc & Hl & Hk & t1 & a1 & Hin & Ht). exists l0, a0, (l1 ++ [e]).
  split; [now rewrite <- app_assoc|]. split; [exact Hc|]. split; [exact Hl|]. split.
  - intros now r H. apply in_app_or in H as [H|[E|[]]]; [exact (Hk _ _ H)|subst e; exact (False_ind _ He)].
  - exists t1, a1. split; [|exact Ht]. rewrite app_comm_cons. apply in_or_app. now left.
Qed.
Lemma was_seen_more u l k t0 t2 e : was_seen u l k t0 t2 -> was_seen u (l ++ [e]) k t0 t2.
Proof.
  intros (l0 & a0 & l1 & a2 & l2 & -> & H). exists l0, a0, l1, a2, (l2 ++ [e]). split; [|exact H].
  now rewrite <- !app_assoc, <- !app_comm_cons, <- !app_assoc, <- !app_comm_cons.
Qed.

Record good (u : nat) (l : list event) (c : conn) : Prop := {
  g_url : url c = u;
  g_status : client c = true -> st c = Idle \/ st c = Active;
  g_off : client c = false -> st c = Connecting \/ st c = Disconnected;
  g_none : client c = false -> tasks c = [] /\ first_seen c = [];
  g_keys : forall k t0, seen_at (first_seen c) k = Some t0 -> In k (keys (tasks c));
  g_seen : forall t k, In t (tasks c) -> l_key t = Some k ->
    exists t0, seen_at (first_seen c) k = Some t0 /\ seen_in u l k t0 t;
  g_nodup : NoDup (keys (tasks c));
  g_done : forall k d, In (k, d) (completed c) -> exists t0 t2, d = t2 - t0 /\ was_seen u l k t0 t2;
  g_bound : List.length (completed c) <= max_completed;
  g_history : List.length (cpu_history c) <= history_len /\ List.length (rss_history c) <= history_len /\
    List.length (rows_history c) <= history_len
}.

Lemma push_bound l v : List.length l <= history_len -> List.length (push_history l v) <= history_len.
Proof.
  intros H. unfold push_history. rewrite app_length. cbn [List.length]. destruct (history_len <=? List.length l) eqn:E.
  - rewrite skipn_length. apply Nat.leb_le in E. unfold history_len in *. lia.
  - apply Nat.leb_gt in E. lia.
Qed.

Lemma good_new u : good u [] (new_conn u).
Proof.
  constructor; cbn; auto; try discriminate; try (intros; contradiction); try lia; constructor.
Qed.

Lemma good_step u l e : proper (l ++ [e]) -> good u l (after u l) -> good u (l ++ [e]) (after u (l ++ [e])).
Proof.
  intros P G. rewrite after_app. remember (after u l) as c eqn:Hc. destruct G as [Gu Gs Go Gn Gk Gt Gd Gc Gb Gh].
  assert (more : forall k d, In (k, d) (completed c) -> exists t0 t2, d = t2 - t0 /\ was_seen u (l ++ [e]) k t0 t2).
  { intros k d H. destruct (Gc k d H) as (t0 & t2 & Hd & W). exists t0, t2. split; [exact Hd|now apply was_seen_more]. }
  assert (same : idle_event e -> forall t k, In t (tasks c) -> l_key t = Some k ->
    exists t0, seen_at (first_seen c) k = Some t0 /\ seen_in u (l ++ [e]) k t0 t).
  { intros He t k Ht Hk. destruct (Gt t k Ht Hk) as (t0 & S & W). exists t0. split; [exact S|now apply seen_in_more]. }
  destruct e as [now ok|now r|]; cbn [apply_event].
  - destruct (should_retry now c) eqn:R.
    + unfold try_connect. destruct ok; constructor; cbn; auto; try discriminate; try (intros; contradiction); try apply NoDup_nil.
      * intros _. destruct (client c) eqn:C; [|now apply Gn]. exfalso. unfold should_retry in R.
        destruct (Gs eq_refl) as [E|E]; rewrite E in R; discriminate.
      * apply same. exact Logic.I.
    + constructor; auto. apply same. exact Logic.I.
  - unfold poll. destruct (client c) eqn:C.
    2:{ destruct (Gn eq_refl) as [T F]. constructor; auto; rewrite ?T, ?F; try (intros; contradiction); try discriminate; auto; rewrite C; discriminate. }
    destruct r as [a|].
    2:{ destruct Gh as (H1 & H2 & H3). constructor; cbn; auto; try discriminate; try (intros; contradiction); try apply NoDup_nil;
          try (apply push_bound; assumption). split; [|split]; apply push_bound; assumption. }
    destruct (fold_left (complete now (keys (a_tasks a))) (tasks c) (completed c, first_seen c)) as [done seen] eqn:Ef.
    assert (Nd : NoDup (keys (a_tasks a))) by (apply (P now a); apply in_or_app; right; now left).
    assert (Hseen : forall k, seen_at (filter (fun x => has (fst x) (keys (a_tasks a))) (fold_left (note_seen now) (a_tasks a) seen)) k =
      if has k (keys (a_tasks a)) then Some (match seen_at (first_seen c) k with Some t => t | None => now end) else None).
    { intro k. destruct (has k (keys (a_tasks a))) eqn:Hk.
      - rewrite seen_filter by (intros x E; apply key_eqb_eq in E; now rewrite <- E).
        rewrite note_fold, Hk. apply has_in in Hk.
        pose proof (complete_seen now _ (tasks c) (completed c) (first_seen c) k Hk) as S. rewrite Ef in S. cbn in S. rewrite S.
        destruct (seen_at (first_seen c) k); reflexivity.
      - apply seen_filter_none. intros x E. apply key_eqb_eq in E. now rewrite <- E. }
    assert (Hdone : forall k d, In (k, d) done -> exists t0 t2, d = t2 - t0 /\ was_seen u (l ++ [EPoll now (Some a)]) k t0 t2).
    { intros k d H. pose proof (complete_done now (keys (a_tasks a)) (tasks c) (completed c) (first_seen c) k d Gd) as D.
      rewrite Ef in D. destruct (D H) as [H'|(t & Ht & Hk & Hr & Hn & Hd)]; [now apply more|].
      destruct (Gt t k Ht Hk) as (t0 & S & l0 & a0 & l1 & El & Hcl & Hl & Hkp & t1 & a1 & Hin & Ht1).
      rewrite S in Hd. exists t0, now. split; [exact Hd|]. exists l0, a0, l1, a, []. split; [rewrite El, <- app_assoc; reflexivity|].
      split; [exact Hcl|]. split; [exact Hl|]. split; [exact Hkp|]. split; [intros (x & Hx & Kx); apply Hn, in_keys; eauto|].
      exists t1, a1. split; [exact Hin|]. exists t. auto. }
    assert (Hb : List.length done <= max_completed).
    { pose proof (complete_bound now (keys (a_tasks a)) (tasks c) (completed c) (first_seen c) Gb) as B. now rewrite Ef in B. }
    destruct Gh as (H1 & H2 & H3).
    constructor; cbn [url client st tasks completed first_seen cpu_history rss_history rows_history]; auto; try discriminate.
    + intros _. destruct (existsb is_running (a_tasks a)); auto.
    + intros k t0. rewrite Hseen. destruct (has k (keys (a_tasks a))) eqn:Hk; [|discriminate]. intros _. now apply has_in.
    + intros t k Ht Hk. rewrite Hseen.
      assert (Hin : In k (keys (a_tasks a))) by (apply in_keys; eauto). rewrite (proj2 (has_in _ _) Hin).
      destruct (seen_at (first_seen c) k) as [t0|] eqn:S.
      * exists t0. split; [reflexivity|]. pose proof (Gk k t0 S) as Hold. apply in_keys in Hold as (t' & Ht' & Hk').
        destruct (Gt t' k Ht' Hk') as (t0' & S' & l0 & a0 & l1 & El & Hcl & Hl & Hkp & t1 & a1 & Hin1 & Ht1).
        assert (t0' = t0) as -> by congruence. exists l0, a0, (l1 ++ [EPoll now (Some a)]). split; [rewrite El, <- app_assoc; reflexivity|].
        split; [exact Hcl|]. split; [exact Hl|]. split.
        -- intros n r H. apply in_app_or in H as [H|[E|[]]]; [exact (Hkp _ _ H)|]. injection E as <- <-. exists a. split; [reflexivity|].
           exists t. auto.
        -- exists now, a. split; [|exact Ht]. right. apply in_or_app. right. now left.
      * exists now. split; [reflexivity|]. exists l, a, []. split; [reflexivity|]. split; [now rewrite <- Hc|].
        split; [exists t; auto|]. split; [intros n r []|]. exists now, a. split; [now left|exact Ht].
    + intros k d H. destruct (existsb is_running (a_tasks a) && _); [destruct H|now apply Hdone].
    + destruct (existsb is_running (a_tasks a) && _); [cbn; lia|exact Hb].
    + split; [|split]; apply push_bound; assumption.
  - constructor; cbn; auto; try (intros; contradiction); try lia. apply same. exact Logic.I.
Qed.

Lemma good_after u l : proper l -> good u l (after u l).
Proof.
  induction l as [|e l IH] using rev_ind; intros P; [apply good_new|]. apply good_step; [exact P|]. apply IH.
  intros now a H. apply (P now a). apply in_or_app. now left.
Qed.

(** ** Connecting again *)
Lemma attempts_in u l :
  (forall t, last_attempt (after u l) = Some t -> exists ok, In (EConnect t ok) l) /\
  (st (after u l) = Connecting -> last_attempt (after u l) = None) /\
  (client (after u l) = false -> st (after u l) = Connecting \/ st (after u l) = Disconnected).
Proof.
  induction l as [|e l IH] using rev_ind; [cbn; repeat split; auto; discriminate|]. rewrite after_app.
  destruct IH as (I1 & I2 & I3).
  assert (K : forall t, last_attempt (after u l) = Some t -> exists ok, In (EConnect t ok) (l ++ [e])).
  { intros t H. destruct (I1 t H) as [ok Hin]. exists ok. apply in_or_app. auto. }
  destruct e as [n ok|n r|]; cbn [apply_event].
  - destruct (should_retry n (after u l)); [|auto]. unfold try_connect. destruct ok; cbn; repeat split; try discriminate; auto;
      intros t H; injection H as <-; eexists; apply in_or_app; right; now left.
  - unfold poll. destruct (client (after u l)) eqn:C; [|rewrite C; auto]. destruct r as [a|]; cbn.
    + destruct (fold_left (complete n _) _ _) as [done seen]. cbn. repeat split; try discriminate; auto.
      destruct (existsb is_running (a_tasks a)); discriminate.
    + repeat split; try discriminate; auto.
  - cbn. auto.
Qed.

Lemma retried u l now : client (after u l) = false -> (forall t ok, In (EConnect t ok) l -> t + 5 <= now) ->
  should_retry now (after u l) = true.
Proof.
  intros C H. destruct (attempts_in u l) as (I1 & I2 & I3). unfold should_retry. destruct (I3 C) as [E|E]; rewrite E.
  - now rewrite (I2 E).
  - destruct (last_attempt (after u l)) as [t|] eqn:L; [|reflexivity]. destruct (I1 t eq_refl) as [ok Hin].
    apply H in Hin. apply Nat.leb_le. lia.
Qed.

(** ** Rates *)
Lemma prev_unanswered u l l' : unanswered l' -> prev_rows (after u (l ++ l')) = prev_rows (after u l).
Proof.
  induction l' as [|e l' IH] using rev_ind; intros H; [now rewrite app_nil_r|].
  assert (H' : unanswered l') by (intros n a Hi; apply (H n a), in_or_app; auto).
  rewrite app_assoc, after_app. rewrite <- (IH H').
  destruct e as [n ok|n r|]; cbn [apply_event].
  - destruct (should_retry n _); [|reflexivity]. unfold try_connect. now destruct ok.
  - unfold poll. destruct (client _); [|reflexivity]. destruct r as [a|]; [|reflexivity].
    exfalso. apply (H n a), in_or_app. right. now left.
  - reflexivity.
Qed.

Lemma rows_of_sum a : list_sum (map l_rows (a_tasks a)) = rows_of a.
Proof. unfold rows_of. unfold list_sum. induction (a_tasks a) as [|t l IH]; cbn in *; [reflexivity|now rewrite IH]. Qed.

Lemma poll_charts now a c : client c = true ->
  prev_rows (poll now (Some a) c) = rows_of a /\ newest (rows_history (poll now (Some a) c)) (rows_of a - prev_rows c) /\
  newest (cpu_history (poll now (Some a) c)) (a_cpu a) /\ newest (rss_history (poll now (Some a) c)) (a_rss a).
Proof.
  intros C. unfold poll. rewrite C, rows_of_sum. destruct (fold_left (complete now _) _ _) as [done seen]. cbn.
  split; [reflexivity|]. unfold push_history. repeat split; eexists; reflexivity.
Qed.
