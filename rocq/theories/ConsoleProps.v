(** Property C86: the console shows what the workers answered. *)
From Verif Require Import Base CiuModel ConsoleModel ConsoleSpec ConsoleProofs.
From Coq Require Import Lia.

(** A worker is shown with the tasks of its last answer, as active if one of them is running; with none, as disconnected, after a
    poll that failed. Until the next answer this stays. *)
Theorem C86_last_answer_shown u l now a : proper l ->
  let c := after u (l ++ [EPoll now (Some a)]) in
  client (after u l) = true ->
  tasks c = a_tasks a /\ (st c = Active <-> exists k, lists_running k a) /\
  (forall l', (forall n r, ~ In (EPoll n r) l') -> tasks (after u (l ++ EPoll now (Some a) :: l')) = a_tasks a) /\
  tasks (after u (l ++ [EPoll now None])) = [] /\ st (after u (l ++ [EPoll now None])) = Disconnected.
Proof.
  intros P c Hc. subst c.
  assert (E : forall l', after u (l ++ EPoll now (Some a) :: l') = fold_left apply_event l' (poll now (Some a) (after u l))).
  { intro l'. unfold after. rewrite fold_left_app. reflexivity. }
  assert (Hp : client (poll now (Some a) (after u l)) = true /\ tasks (poll now (Some a) (after u l)) = a_tasks a /\
    st (poll now (Some a) (after u l)) = if existsb is_running (a_tasks a) then Active else Idle).
  { unfold poll. rewrite Hc. destruct (fold_left (complete now _) _ _) as [done seen]. cbn. auto. }
  destruct Hp as (Hcl & Ht & Hs). rewrite !after_app. cbn [apply_event]. split; [exact Ht|]. split; [|split].
  - rewrite Hs. destruct (existsb is_running (a_tasks a)) eqn:R.
    + split; [|reflexivity]. intros _. apply existsb_exists in R as (t & Hin & R). unfold is_running in R.
      destruct (l_key t) as [k|] eqn:K; [|discriminate]. exists k, t. auto.
    + split; [discriminate|]. intros (k & t & Hin & K & R'). exfalso.
      assert (X : existsb is_running (a_tasks a) = true); [|congruence]. apply existsb_exists. exists t. split; [exact Hin|].
      unfold is_running. now rewrite K.
  - intros l' Hl. rewrite E.
    assert (G : forall c, client c = true -> tasks c = a_tasks a -> (st c = Active \/ st c = Idle) -> tasks (fold_left apply_event l' c) = a_tasks a).
    { clear - Hl. induction l' as [|e l' IH]; intros c C T S; [exact T|]. cbn [fold_left].
      assert (Hl' : forall n r, ~ In (EPoll n r) l') by (intros n r H; exact (Hl n r (or_intror H))).
      destruct e as [n ok|n r|]; cbn [apply_event].
      - replace (should_retry n c) with false; [now apply IH|]. unfold should_retry. destruct S as [-> | ->]; reflexivity.
      - exfalso. exact (Hl n r (or_introl eq_refl)).
      - apply IH; auto. }
    apply G; auto. rewrite Hs. destruct (existsb is_running (a_tasks a)); auto.
  - unfold poll. rewrite Hc. cbn. auto.
Qed.
Print Assumptions C86_last_answer_shown.

(** A task shown as completed was listed by the worker from some poll on without a break, as running, and missing in a later
    answer on the same connection; the time shown is the one between these polls. *)
Theorem C86_completed_is_true u l k d : proper l ->
  In (k, d) (completed (after u l)) -> exists t0 t2, d = t2 - t0 /\ was_seen u l k t0 t2.
Proof. intros P. apply (g_done _ _ _ (good_after u l P)). Qed.
Print Assumptions C86_completed_is_true.

(** What is kept about a worker is bounded. *)
Theorem C86_bounded u l : proper l ->
  List.length (completed (after u l)) <= 50 /\ List.length (cpu_history (after u l)) <= 300 /\
  List.length (rss_history (after u l)) <= 300 /\ List.length (rows_history (after u l)) <= 300.
Proof.
  intros P. pose proof (good_after u l P) as G. split; [exact (g_bound _ _ _ G)|]. exact (g_history _ _ _ G).
Qed.
Print Assumptions C86_bounded.

(** A running task that is missing in the next answer is shown as completed, if no task of another query runs on the worker
    or a task of the same query is still there, and at most 50 tasks ran. *)
Theorem C86_completed_shown_partial u l now a t k : proper l ->
  client (after u l) = true -> In t (tasks (after u l)) -> l_key t = Some k -> l_running t = true -> ~ lists k a ->
  List.length (filter is_running (tasks (after u l))) <= 50 ->
  (forall k', ~ lists_running k' a) \/ (exists k', lists k' a /\ query_of k' = query_of k) ->
  exists d, In (k, d) (completed (after u (l ++ [EPoll now (Some a)]))).
Proof.
  intros P Hc Ht Hk Hr Hn Hl Hq. rewrite after_app. cbn [apply_event]. unfold poll. rewrite Hc.
  assert (Hn' : ~ In k (keys (a_tasks a))) by (intro H; apply Hn, in_keys, H).
  destruct (complete_keeps now (keys (a_tasks a)) (tasks (after u l)) (completed (after u l)) (first_seen (after u l)) t k Ht Hk Hr Hn' Hl)
    as [d Hd].
  destruct (fold_left (complete now _) _ _) as [done seen]. cbn [fst] in Hd. cbn [completed]. exists d.
  destruct (existsb is_running (a_tasks a)) eqn:R; [|exact Hd]. cbn [andb].
  destruct Hq as [Hq|(k' & Hk' & Eq)].
  - exfalso. apply existsb_exists in R as (x & Hx & R). unfold is_running in R. destruct (l_key x) as [k'|] eqn:K; [|discriminate].
    apply (Hq k'). exists x. auto.
  - replace (existsb (fun k0 => existsb (fun d0 => query_of (fst d0) =? query_of k0) done) (keys (a_tasks a))) with true; [exact Hd|].
    symmetry. apply existsb_exists. exists k'. split; [apply in_keys; exact Hk'|]. apply existsb_exists. exists (k, d).
    split; [exact Hd|]. cbn. rewrite Eq. apply Nat.eqb_refl.
Qed.
Print Assumptions C86_completed_shown_partial.

Module ConsoleEx.
Definition task (q s n rows : nat) : listed := mkListed (Some (q, s, n)) true rows.
Definition h : list event :=
  [EConnect 1 true; EPoll 2 (Some (mkAnswer [task 7 1 0 10; task 7 1 1 5] 100 3)); EClear;
   EPoll 4 (Some (mkAnswer [task 7 1 0 30] 120 4)); EPoll 9 (Some (mkAnswer [] 90 0))].
Example h_proper : proper h.
Proof.
  intros now a H. cbn in H. repeat (destruct H as [H|H]; [try discriminate; injection H as <- <-; cbn; repeat constructor; cbn; intuition discriminate|]).
  destruct H.
Qed.
Example h_shown : completed (after 0 h) = [((7, 1, 0), 7); ((7, 1, 1), 2)] /\ st (after 0 h) = Idle /\
  rows_history (after 0 h) = [15; 15; 0].
Proof. vm_compute. auto. Qed.
End ConsoleEx.

(** A worker that could not be reached is shown again as soon as it answers an attempt to connect, if the last attempt was at least
    five seconds ago. Between two attempts there are at least five seconds: an earlier one changes nothing. *)
Theorem C86_worker_comes_back u l now : client (after u l) = false -> (forall t ok, In (EConnect t ok) l -> t + 5 <= now) ->
  (client (after u (l ++ [EConnect now true])) = true /\ st (after u (l ++ [EConnect now true])) = Idle) /\
  (forall a, proper (l ++ [EConnect now true; EPoll now (Some a)]) ->
     tasks (after u (l ++ [EConnect now true; EPoll now (Some a)])) = a_tasks a) /\
  (forall soon ok, now <= soon -> soon < now + 5 ->
     after u (l ++ [EConnect now false; EConnect soon ok]) = after u (l ++ [EConnect now false])).
Proof.
  intros C H. pose proof (retried u l now C H) as R.
  assert (B : client (after u (l ++ [EConnect now true])) = true /\ st (after u (l ++ [EConnect now true])) = Idle).
  { rewrite after_app. cbn [apply_event]. rewrite R. cbn. auto. }
  split; [exact B|]. split.
  - intros a P. change [EConnect now true; EPoll now (Some a)] with ([EConnect now true] ++ [EPoll now (Some a)]) in *.
    rewrite app_assoc in *. refine (proj1 (C86_last_answer_shown u (l ++ [EConnect now true]) now a _ (proj1 B))).
    intros n x Hi. apply (P n x), in_or_app. auto.
  - intros soon ok L1 L2. change [EConnect now false; EConnect soon ok] with ([EConnect now false] ++ [EConnect soon ok]).
    rewrite app_assoc, after_app. rewrite after_app. cbn [apply_event]. rewrite R. unfold should_retry. cbn [try_connect st last_attempt].
    replace (5 <=? soon - now) with false; [reflexivity|]. symmetry. apply Nat.leb_gt. lia.
Qed.
Print Assumptions C86_worker_comes_back.

(** The rate shown for a poll is the number of rows since the worker's previous answer, whatever happened in between; for the first
    answer, the rows so far. CPU and memory are those of the answer. *)
Theorem C86_rates_are_true u l now a : client (after u l) = true ->
  let c := after u (l ++ [EPoll now (Some a)]) in
  newest (cpu_history c) (a_cpu a) /\ newest (rss_history c) (a_rss a) /\
  (unanswered l -> newest (rows_history c) (rows_of a)) /\
  (forall l0 t0 a0 l1, l = l0 ++ EPoll t0 (Some a0) :: l1 -> client (after u l0) = true -> unanswered l1 ->
     newest (rows_history c) (rows_of a - rows_of a0)).
Proof.
  intros C c. subst c. rewrite after_app. cbn [apply_event]. destruct (poll_charts now a _ C) as (_ & R & Cp & Rs).
  split; [exact Cp|]. split; [exact Rs|]. split.
  - intros H. pose proof (prev_unanswered u [] l H) as E. change ([] ++ l)%list with l in E. rewrite E in R.
    cbn in R. now rewrite Nat.sub_0_r in R.
  - intros l0 t0 a0 l1 -> C0 H. change (EPoll t0 (Some a0) :: l1) with ([EPoll t0 (Some a0)] ++ l1) in *. rewrite app_assoc in *.
    rewrite (prev_unanswered u (l0 ++ [EPoll t0 (Some a0)]) l1 H), after_app in R. cbn [apply_event] in R.
    now rewrite (proj1 (poll_charts t0 a0 _ C0)) in R.
Qed.
Print Assumptions C86_rates_are_true.

Example h_comes_back : let l := [EConnect 1 true; EPoll 2 (Some (mkAnswer [ConsoleEx.task 7 1 0 10] 100 3)); EPoll 3 None; EConnect 4 true] in
  client (after 0 l) = false /\ (forall t ok, In (EConnect t ok) l -> t + 5 <= 9) /\
  rows_history (after 0 (l ++ [EConnect 9 true; EPoll 9 (Some (mkAnswer [ConsoleEx.task 7 1 0 25] 80 2))])) = [10; 0; 15].
Proof.
  cbn -[Nat.add Nat.sub]. split; [reflexivity|]. split; [|reflexivity].
  intros t ok H. decompose [or] H; try contradiction; try discriminate; match goal with E : _ = _ |- _ => injection E as <- <- end; lia.
Qed.

(** While another query runs on the worker, the tasks of a query that ends are never shown as completed. *)
Theorem C86_completed_shown_refuted :
  exists u l now a t k, proper (l ++ [EPoll now (Some a)]) /\
    client (after u l) = true /\ In t (tasks (after u l)) /\ l_key t = Some k /\ l_running t = true /\ ~ lists k a /\
    (forall d, ~ In (k, d) (completed (after u (l ++ [EPoll now (Some a)])))).
Proof.
  exists 0, [EConnect 1 true; EPoll 2 (Some (mkAnswer [ConsoleEx.task 7 1 0 10; ConsoleEx.task 8 1 0 5] 100 3))], 3,
    (mkAnswer [ConsoleEx.task 8 1 0 9] 100 3), (ConsoleEx.task 7 1 0 10), (7, 1, 0).
  split.
  { intros now a H. cbn in H. repeat (destruct H as [H|H]; [try discriminate; injection H as <- <-; cbn; repeat constructor; cbn; intuition discriminate|]).
    destruct H. }
  split; [reflexivity|]. split; [now left|]. split; [reflexivity|]. split; [reflexivity|].
  split; [intros (t & [<-|[]] & H); discriminate|]. intros d H. vm_compute in H. exact H.
Qed.
Print Assumptions C86_completed_shown_refuted.

(** ** Keys *)
Definition any_order (order : list conn -> list nat) : Prop := forall ws, Permutation (order ws) (seq 0 (List.length ws)).

(** No key crashes the console, whatever the workers did meanwhile, and a worker that was chosen exists. *)
Theorem C86_keys_are_safe order a k : any_order order ->
  exists a', handle_key order a k = Ok a' /\
    (worker_idx a < List.length (workers a) \/ current a = Overview -> current a' = Overview \/ worker_idx a' < List.length (workers a') \/
       k = KDetail).
Proof.
  intros Ho. unfold handle_key. destruct (help a) eqn:Hh.
  { eexists. split; [reflexivity|]. cbn. tauto. }
  assert (Hr : forall i r, nth_error (order (workers a)) i = Some r -> r < List.length (workers a)).
  { intros i r H. apply nth_error_In in H. eapply Permutation_in in H; [|apply Ho]. apply in_seq in H. lia. }
  assert (W : forall k, exists a', (match current a with Overview => Ok (cluster_key order a k) | Detail => worker_key a k end) = Ok a' /\
    (worker_idx a < List.length (workers a) \/ current a = Overview -> current a' = Overview \/ worker_idx a' < List.length (workers a'))).
  { intro k'. destruct (current a) eqn:V.
    - eexists. split; [reflexivity|]. intros _. unfold cluster_key. destruct (List.length (workers a) =? 0); [auto|].
      destruct k'; cbn; rewrite ?V; auto.
      + destruct (cursor a) as [i|]; [|auto]. destruct (nth_error (order (workers a)) i) as [r|] eqn:E; [|auto]. right. cbn. eauto.
      + destruct (cursor a) as [i|]; [|auto]. destruct (nth_error (order (workers a)) i) as [r|] eqn:E; [|auto]. right. cbn. eauto.
    - unfold worker_key. destruct (List.length (workers a) <=? worker_idx a) eqn:L.
      { eexists. split; [reflexivity|]. apply Nat.leb_le in L. intros [H|H]; [lia|congruence]. }
      apply Nat.leb_gt in L. destruct (nth_error (workers a) (worker_idx a)) as [w|] eqn:N.
      2:{ apply nth_error_None in N. lia. }
      destruct k'; try (eexists; split; [reflexivity|]; intros _; cbn; auto; fail).
      + destruct (focus a); eexists; (split; [reflexivity|]); intros _; auto.
        * destruct (0 <? List.length (tasks w)); cbn; auto.
        * destruct (0 <? List.length (completed w)); cbn; auto.
      + destruct (focus a); eexists; (split; [reflexivity|]); intros _; cbn; auto.
      + eexists. split; [reflexivity|]. intros _. cbn. right. destruct (worker_idx a =? 0); lia.
      + eexists. split; [reflexivity|]. intros _. cbn. right. apply Nat.mod_upper_bound. lia.
      + eexists. split; [reflexivity|]. intros _. cbn. right. clear - L N. revert L. generalize (worker_idx a). intros i L.
        enough (G : List.length (upd (workers a) i (clear_completed w)) = List.length (workers a)) by lia.
        clear. revert i. induction (workers a) as [|x l IH]; intros [|i]; cbn; auto. }
  destruct k; try (eexists; split; [reflexivity|]; cbn; tauto);
    match goal with |- exists a', _ = Ok a' /\ (_ -> _ \/ _ \/ ?k = _) => destruct (W k) as (a' & E & H); exists a'; split; [exact E|tauto] | _ => idtac end.
Qed.
Print Assumptions C86_keys_are_safe.

(** Esc does not lead back from a worker that is gone, although it is shown: the key [1] does. *)
Theorem C86_escape_refuted : exists a, current a = Detail /\
  (forall order k, In k [KEsc; KTab; KLeft; KRight; KDown; KUp] -> handle_key order a k = Ok a) /\
  (exists a0 urls, a = discover urls a0 /\ worker_idx a0 < List.length (workers a0)).
Proof.
  set (a0 := mkApp [new_conn 1; new_conn 2] Detail (Some 1) 1 None None ActiveTasks false false false).
  exists (discover [1] a0). split; [reflexivity|]. split.
  - intros order k H. cbn in H. decompose [or] H; subst; try reflexivity; contradiction.
  - exists a0, [1]. split; [reflexivity|cbn; lia].
Qed.
Print Assumptions C86_escape_refuted.

(** The worker shown in detail is not the one that was chosen once another one before it is gone. *)
Theorem C86_chosen_worker_refuted : exists a urls w w', current a = Detail /\
  nth_error (workers a) (worker_idx a) = Some w /\ In (url w) urls /\
  nth_error (workers (discover urls a)) (worker_idx (discover urls a)) = Some w' /\ url w' <> url w.
Proof.
  exists (mkApp [new_conn 1; new_conn 2; new_conn 3] Detail (Some 1) 1 None None ActiveTasks false false false), [2; 3], (new_conn 2), (new_conn 3).
  split; [reflexivity|]. split; [reflexivity|]. split; [cbn; auto|]. split; [reflexivity|]. cbn. discriminate.
Qed.
Print Assumptions C86_chosen_worker_refuted.

(** The row chosen in the table of the workers exists after every key if it existed before, and Down, Home and End choose one that
    exists even if workers are gone. *)
Theorem C86_cursor_in_range order a k a' : handle_key order a k = Ok a' ->
  let in_range x := forall i, cursor x = Some i -> i < List.length (workers x) in
  (in_range a -> in_range a') /\
  (current a = Overview -> help a = false -> workers a <> [] -> In k [KDown; KHome; KEnd] ->
     exists i, cursor a' = Some i /\ i < List.length (workers a')) /\
  (current a = Overview -> help a = false -> forall i, cursor a = Some i -> S i < List.length (workers a) ->
     k = KDown -> cursor a' = Some (S i)) /\
  (current a = Overview -> help a = false -> workers a <> [] -> forall i, cursor a = Some (S i) -> k = KUp -> cursor a' = Some i).
Proof.
  intros E. cbv zeta. unfold handle_key in E. destruct (help a) eqn:Hh.
  { injection E as <-. cbn. split; [auto|]. repeat split; intros; discriminate. }
  assert (W : workers a <> [] -> 0 < List.length (workers a)).
  { intros H. destruct (workers a); [easy|cbn; lia]. }
  destruct (current a) eqn:V.
  - split; [|split; [|split]].
    + intros Hr i. destruct k; try (injection E as <-; cbn; apply Hr); try (injection E as <-; unfold cluster_key;
        destruct (List.length (workers a) =? 0) eqn:N; [apply Hr|]; apply Nat.eqb_neq in N; cbn -[Nat.min Nat.sub]; try apply Hr).
      * assert (X : cursor a' = cursor a /\ workers a' = workers a) by (destruct (workers a) eqn:Ws; injection E as <-; cbn; auto).
        destruct X as [-> ->]. apply Hr.
      * intro X. apply (f_equal or_0) in X. cbn [or_0] in X. lia.
      * intro X. apply (f_equal or_0) in X. cbn [or_0] in X. destruct (cursor a) as [j|]; cbn [or_0] in X; [specialize (Hr j eq_refl)|]; lia.
      * intro X. apply (f_equal or_0) in X. cbn [or_0] in X. lia.
      * intro X. apply (f_equal or_0) in X. cbn [or_0] in X. lia.
      * destruct (cursor a) as [j|] eqn:Cu; [|rewrite Cu; discriminate]. destruct (nth_error (order (workers a)) j); cbn; rewrite ?Cu; apply Hr.
      * rewrite map_length. apply Hr.
      * destruct (cursor a) as [j|] eqn:Cu; [|rewrite Cu; discriminate]. destruct (nth_error (order (workers a)) j); cbn; rewrite ?Cu; apply Hr.
    + intros _ _ Hn Hk. specialize (W Hn). cbn in Hk.
      destruct Hk as [<-|[<-|[<-|[]]]]; injection E as <-; unfold cluster_key; destruct (List.length (workers a) =? 0) eqn:N;
        try (apply Nat.eqb_eq in N; lia); cbn -[Nat.min Nat.sub]; eexists; (split; [reflexivity|lia]).
    + intros _ _ i Ci Hi ->. injection E as <-. unfold cluster_key. destruct (List.length (workers a) =? 0) eqn:N; [apply Nat.eqb_eq in N; lia|].
      cbn -[Nat.min Nat.sub]. rewrite Ci. cbn -[Nat.min Nat.sub]. f_equal. lia.
    + intros _ _ Hn i Ci ->. specialize (W Hn). injection E as <-. unfold cluster_key.
      destruct (List.length (workers a) =? 0) eqn:N; [apply Nat.eqb_eq in N; lia|]. cbn -[Nat.min Nat.sub]. rewrite Ci. cbn -[Nat.min Nat.sub]. f_equal. lia.
  - split; [|repeat split; intros; discriminate].
    intros Hr.
    assert (K : forall k, worker_key a k = Ok a' -> forall i, cursor a' = Some i -> i < List.length (workers a')).
    { clear E. intros k' E i. unfold worker_key in E. destruct (List.length (workers a) <=? worker_idx a); [injection E as <-; apply Hr|].
      destruct (nth_error (workers a) (worker_idx a)) as [w|] eqn:N.
      2:{ destruct k'; try discriminate; try (injection E as <-; apply Hr). destruct (focus a); injection E as <-; apply Hr. }
      destruct k'; try (injection E as <-; apply Hr).
      - destruct (focus a); injection E as <-; try apply Hr.
        + destruct (0 <? List.length (tasks w)); apply Hr.
        + destruct (0 <? List.length (completed w)); apply Hr.
      - destruct (focus a); injection E as <-; apply Hr.
      - injection E as <-. cbn. intro H. specialize (Hr i H).
        enough (G : List.length (upd (workers a) (worker_idx a) (clear_completed w)) = List.length (workers a)) by lia.
        clear. generalize (worker_idx a). induction (workers a) as [|x l IH]; intros [|j]; cbn; auto. }
    destruct k; try (injection E as <-; apply Hr); try (eapply K; exact E).
    assert (X : cursor a' = cursor a /\ workers a' = workers a) by (destruct (workers a) eqn:Ws; injection E as <-; cbn; auto).
    destruct X as [-> ->]. apply Hr.
Qed.
Print Assumptions C86_cursor_in_range.

Example cursor_case order : handle_key order (mkApp [new_conn 1; new_conn 2] Overview (Some 1) 0 None None ActiveTasks false false false) KDown =
  Ok (mkApp [new_conn 1; new_conn 2] Overview (Some 1) 0 None None ActiveTasks false false false).
Proof. reflexivity. Qed.

(** Clearing, by the key [r], forgets what was completed and nothing else that is shown. *)
Theorem C86_clear u l : let c := after u (l ++ [EClear]) in
  completed c = [] /\ tasks c = tasks (after u l) /\ st c = st (after u l) /\ client c = client (after u l) /\ url c = url (after u l) /\
  first_seen c = first_seen (after u l).
Proof. cbv zeta. rewrite after_app. cbn. repeat split; reflexivity. Qed.
Print Assumptions C86_clear.

(** What is shown of the workers, apart from what they completed. *)
Definition unfinished (a : app) : list (nat * status * list listed) := map (fun w => (url w, st w, tasks w)) (workers a).

Theorem C86_keys order a :
  (* any key closes the help, and does nothing else *)
  (forall k, help a = true -> exists a', handle_key order a k = Ok a' /\ help a' = false /\ workers a' = workers a /\
     current a' = current a /\ worker_idx a' = worker_idx a /\ cursor a' = cursor a /\ paused a' = paused a /\ quit a' = quit a) /\
  (help a = false ->
    (exists a', handle_key order a KQuit = Ok a' /\ quit a' = true /\ workers a' = workers a /\ current a' = current a) /\
    (exists a', handle_key order a KHelp = Ok a' /\ help a' = true /\ workers a' = workers a /\ current a' = current a) /\
    (exists a', handle_key order a KPause = Ok a' /\ paused a' = negb (paused a) /\ workers a' = workers a /\ current a' = current a) /\
    (exists a', handle_key order a KOverview = Ok a' /\ current a' = Overview /\ workers a' = workers a) /\
    (workers a <> [] -> exists a', handle_key order a KDetail = Ok a' /\ current a' = Detail /\ workers a' = workers a) /\
    (* the view of a worker that exists is left, with the same worker chosen in the table *)
    (forall k, In k [KEsc; KTab] -> current a = Detail -> worker_idx a < List.length (workers a) ->
       exists a', handle_key order a k = Ok a' /\ current a' = Overview /\ workers a' = workers a /\ cursor a' = cursor a) /\
    (* and entered for the worker of the row chosen *)
    (forall k i r, In k [KEnter; KTab] -> current a = Overview -> cursor a = Some i -> nth_error (order (workers a)) i = Some r ->
       workers a <> [] ->
       exists a', handle_key order a k = Ok a' /\ current a' = Detail /\ worker_idx a' = r /\ workers a' = workers a) /\
    (* clearing: all workers in the overview, the one that is shown otherwise *)
    (exists a', handle_key order a KReset = Ok a' /\ unfinished a' = unfinished a /\
       forall i w, nth_error (workers a') i = Some w ->
         (current a = Overview \/ worker_idx a = i -> completed w = []) /\
         (current a = Detail -> worker_idx a <> i -> nth_error (workers a) i = Some w))).
Proof.
  split.
  - intros k H. unfold handle_key. rewrite H. eexists. split; [reflexivity|]. cbn. auto 10.
  - intros H. unfold handle_key. rewrite H. repeat match goal with |- _ /\ _ => split end.
    + eexists. split; [reflexivity|]. cbn. auto.
    + eexists. split; [reflexivity|]. cbn. auto.
    + eexists. split; [reflexivity|]. cbn. auto.
    + eexists. split; [reflexivity|]. cbn. auto.
    + intros Hn. eexists. split; [reflexivity|]. destruct (workers a) eqn:E; [contradiction|]. cbn. auto.
    + intros k Hk V L. rewrite V. unfold worker_key. destruct (Nat.leb_spec (List.length (workers a)) (worker_idx a)); [lia|].
      destruct Hk as [<-|[<-|[]]]; (eexists; split; [reflexivity|]); cbn; auto.
    + intros k i r Hk V C N Hn. rewrite V. unfold cluster_key.
      destruct (Nat.eqb_spec (List.length (workers a)) 0) as [Z|Z]; [destruct (workers a); [contradiction|discriminate]|].
      destruct Hk as [<-|[<-|[]]]; rewrite C, N; (eexists; split; [reflexivity|]); cbn; auto.
    + destruct (current a) eqn:V.
      * eexists. split; [reflexivity|]. unfold cluster_key. destruct (Nat.eqb_spec (List.length (workers a)) 0) as [Z|Z].
        { split; [reflexivity|]. intros i w Hw. exfalso. destruct (workers a); [destruct i|]; discriminate. }
        split.
        { unfold unfinished. cbn. rewrite map_map. apply map_ext. intros w. reflexivity. }
        intros i w Hw. cbn in Hw. rewrite nth_error_map in Hw. destruct (nth_error (workers a) i) as [w0|]; [|discriminate].
        injection Hw as <-. split; [reflexivity|discriminate].
      * unfold worker_key. eexists. split.
        { destruct (Nat.leb_spec (List.length (workers a)) (worker_idx a)) as [L|L]; [instantiate (1 := match nth_error (workers a) (worker_idx a) with
            | Some w => set_workers a (upd (workers a) (worker_idx a) (clear_completed w)) | None => a end)|reflexivity].
          apply nth_error_None in L. rewrite L. reflexivity. }
        destruct (nth_error (workers a) (worker_idx a)) as [w0|] eqn:N.
        -- assert (X : forall (l : list conn) j x i, nth_error l j = Some x ->
             nth_error (upd l j (clear_completed x)) i = (if j =? i then Some (clear_completed x) else nth_error l i) /\
             map (fun w => (url w, st w, tasks w)) (upd l j (clear_completed x)) = map (fun w => (url w, st w, tasks w)) l).
           { clear. induction l as [|y l IH]; intros [|j] x i Hx; try discriminate.
             - injection Hx as ->. destruct i; cbn; auto.
             - destruct (IH j x (Nat.pred i) Hx) as (A & B). destruct i as [|i]; cbn in *; rewrite B; auto. }
           split; [exact (proj2 (X _ _ _ 0 N))|].
           intros i w Hw. cbn in Hw. destruct (X _ _ _ i N) as (A & _). rewrite A in Hw.
           destruct (Nat.eqb_spec (worker_idx a) i) as [E|E].
           ++ injection Hw as <-. split; [reflexivity|contradiction].
           ++ split; [intros [?|?]; [discriminate|contradiction]|auto].
        -- split; [reflexivity|]. intros i w Hw. split; [|auto].
           intros [?|E]; [discriminate|]. subst i. congruence.
Qed.
Print Assumptions C86_keys.

Example C86_keys_met order :
  let w := after 1 (ConsoleEx.h ++ [EClear]) in
  let a := mkApp [after 1 ConsoleEx.h; new_conn 2] Detail (Some 1) 0 None None ActiveTasks false false false in
  completed (after 1 ConsoleEx.h) <> [] /\ handle_key order a KReset =
    Ok (mkApp [w; new_conn 2] Detail (Some 1) 0 None None ActiveTasks false false false) /\
  handle_key order a KEsc = Ok (mkApp [after 1 ConsoleEx.h; new_conn 2] Overview (Some 1) 0 None None ActiveTasks false false false).
Proof. split; [vm_compute; discriminate|]. split; vm_compute; reflexivity. Qed.
