(** Properties C10 and C22-C26. *)
From Verif Require Import Base NetModel EventsModel EventsSpec EventsProofs.

(** * C10: combining task-count wishes *)

Theorem C10_merge_laws : forall a b c,
  merge a b = merge b a /\ merge a (merge b c) = merge (merge a b) c /\ merge a a = a.
Proof. intros a b c. split; [apply merge_comm|]. split; [apply merge_assoc|apply merge_idem]. Qed.

Print Assumptions C10_merge_laws.

(** Folding any list of annotations yields the tightest one: the least maximum if there is one, else the
    largest wish. *)
Theorem C10_merge_is_tightest : forall a l, is_tightest (a :: l) (fold_left merge l a).
Proof. exact fold_merge_tightest. Qed.

Print Assumptions C10_merge_is_tightest.

(** ... in whatever order the children come. *)
Theorem C10_order_independent : forall a l b l', Permutation (a :: l) (b :: l') ->
  fold_left merge l a = fold_left merge l' b.
Proof.
  intros a l b l' HP.
  assert (G : forall x y, is_tightest (a :: l) x -> is_tightest (b :: l') y -> x = y).
  { assert (HM : Permutation (maxima (a :: l)) (maxima (b :: l'))) by now apply Permutation_flat_map.
    assert (HW : Permutation (wishes (a :: l)) (wishes (b :: l'))) by now apply Permutation_flat_map.
    intros [n|n] [m|m]; unfold is_tightest.
    - intros (_ & H1 & H2) (_ & H3 & H4). f_equal.
      assert (m <= n) by (apply H2; eapply Permutation_in; [symmetry|]; eassumption).
      assert (n <= m) by (apply H4; eapply Permutation_in; eassumption). lia.
    - intros (H0 & _) (H1 & _). rewrite H0 in HM. apply Permutation_nil in HM. rewrite HM in H1. destruct H1.
    - intros (H1 & _) (H0 & _). rewrite H0 in HM. symmetry in HM. apply Permutation_nil in HM.
      rewrite HM in H1. destruct H1.
    - intros (H1 & H2) (H3 & H4). f_equal.
      assert (n <= m) by (apply H2; eapply Permutation_in; [symmetry|]; eassumption).
      assert (m <= n) by (apply H4; eapply Permutation_in; eassumption). lia. }
  apply G; apply fold_merge_tightest.
Qed.

Print Assumptions C10_order_independent.

(** Limiting never raises a count, never exceeds the limit, changes nothing below the limit, and does
    not turn wishes into caps or back. *)
Theorem C10_limit : forall a l,
  as_usize (limit a l) <= l /\ as_usize (limit a l) <= as_usize a /\
  (as_usize a <= l -> limit a l = a) /\
  (match a, limit a l with Desired _, Desired _ | Maximum _, Maximum _ => True | _, _ => False end) /\
  (1 <= l -> 1 <= as_usize a -> 1 <= as_usize (limit a l)).
Proof.
  intros [n|n] l; cbn [as_usize limit]; (split; [lia|]); (split; [lia|]); (split; [|split; [exact I|lia]]);
    intros H; f_equal; lia.
Qed.

Print Assumptions C10_limit.

Example C10_order_hypotheses_met :
  Permutation [Desired 4; Maximum 2; Desired 9] [Maximum 2; Desired 9; Desired 4] /\
  fold_left merge [Maximum 2; Desired 9] (Desired 4) = Maximum 2.
Proof.
  split; [|reflexivity]. change [Maximum 2; Desired 9; Desired 4] with ([Maximum 2; Desired 9] ++ [Desired 4]).
  apply Permutation_cons_append.
Qed.

(** * C22: scaling a file scan *)

(** A scan with a preset partitioning can always be scaled up; the tasks' scans read together exactly
    the original files, each advertises the same number of partitions, and there is one per task. *)
Theorem C22_preset_scan : forall (row : Type) partitioner schema (groups : list (list (list row))) P T,
  1 <= T -> 1 <= P ->
  exists d, file_scan_scale_up partitioner schema groups P true T = Ok d /\
    List.length (dle_variants d) = T /\
    (forall v, In v (dle_variants d) -> lf_parts v = dle_parts d /\ dle_parts d = P) /\
    exists rows, mapM leaf_rows (dle_variants d) = Ok rows /\
      Permutation (List.concat rows) (group_rows groups).
Proof.
  intros row partitioner schema groups P T HT HP. unfold file_scan_scale_up, rebalance_round_robin.
  destruct (deal_spec (P * T) (List.concat groups) (repeat [] (P * T)) 0) as (rb & -> & Hl & Hp & _);
    [nia|apply repeat_length|]. cbn [bind].
  destruct (deal_spec T rb (repeat [] T) 0) as (pt & -> & Hl2 & Hp2 & Hc); [lia|apply repeat_length|]. cbn [bind].
  assert (Hz : forall A n j, List.length (nth j (repeat (@nil A) n) []) = 0).
  { intros A n. induction n as [|n IH]; intros [|j]; cbn; auto. }
  assert (Hlen : forall j, j < T -> List.length (nth j pt []) = P).
  { intros j Hj. rewrite Hc, Hz, filter_length_hits, Hl, hits0 by lia. cbn [plus].
    apply (div_unique_pos _ _ _ (T - 1 - j)); lia. }
  assert (HF : Forall (fun v => lf_parts v = P /\ lf_schema v = schema) (map (scan schema) pt)).
  { apply Forall_map, Forall_forall. intros v Hv. cbn. split; [|reflexivity].
    apply (In_nth _ _ []) in Hv. destruct Hv as (j & Hj & <-). apply Hlen. lia. }
  assert (Hd : dle_try_new (scan schema groups) (map (scan schema) pt)
    = Ok (mkDle (scan schema groups) P (map (scan schema) pt))).
  { unfold dle_try_new. destruct pt as [|v0 pt']; [cbn in Hl2; lia|]. cbn [map check_variants].
    cbn [map] in HF. inversion HF as [|? ? [E1 E2] HF']; subst.
    rewrite check_variants_ok; [reflexivity|]. rewrite E2. exact HF'. }
  eexists. split; [exact Hd|]. cbn [dle_variants dle_parts].
  split; [now rewrite map_length|]. split.
  { intros v Hv. rewrite Forall_forall in HF. split; [now apply HF|reflexivity]. }
  exists (map group_rows pt). split.
  - rewrite <- (mapM_ok_intro (fun g => leaf_rows (scan schema g)) group_rows) by (intros; apply scan_rows).
    clear. induction pt as [|g pt IH]; cbn [map mapM]; [reflexivity|]. rewrite IH. reflexivity.
  - rewrite concat_group_rows. apply group_rows_perm.
    rewrite concat_repeat_nil in Hp. rewrite concat_repeat_nil in Hp2. cbn in Hp, Hp2. rewrite <- Hp. now apply concat_perm.
Qed.

Print Assumptions C22_preset_scan.

(** Otherwise the groups come from DataFusion's partitioner (or are the original ones if it declines).
    When scaling succeeds, the tasks read together exactly those groups, each once. *)
Theorem C22_scaled_scan_reads_once : forall (row : Type) partitioner schema
    (groups : list (list (list row))) P preset T d,
  file_scan_scale_up partitioner schema groups P preset T = Ok d ->
  (forall n gs, partitioner n groups = Some gs -> Permutation (group_rows gs) (group_rows groups)) ->
  List.length (dle_variants d) = T /\
  (forall v, In v (dle_variants d) -> lf_parts v = dle_parts d) /\
  exists rows, mapM leaf_rows (dle_variants d) = Ok rows /\
    Permutation (List.concat rows) (group_rows groups).
Proof.
  intros row partitioner schema groups P preset T d H Hpart. unfold file_scan_scale_up in H.
  destruct (if preset then _ else _) as [rb| |] eqn:Erb; cbn [bind] in H; try discriminate.
  assert (HR : Permutation (group_rows rb) (group_rows groups)).
  { destruct preset.
    - unfold rebalance_round_robin in Erb. destruct (Nat.eq_dec (P * T) 0) as [E|E].
      + rewrite E in Erb. cbn in Erb. destruct (List.concat groups) eqn:Eg; cbn in Erb; [|discriminate].
        injection Erb as <-. unfold group_rows. now rewrite Eg.
      + destruct (deal_spec (P * T) (List.concat groups) (repeat [] (P * T)) 0 E (repeat_length _ _))
          as (rb' & E2 & _ & Hp & _). rewrite E2 in Erb. injection Erb as ->. apply group_rows_perm.
        now rewrite concat_repeat_nil in Hp.
    - injection Erb as <-. destruct (partitioner (P * T) groups) eqn:E; [eauto|reflexivity]. }
  destruct (Nat.eq_dec T 0) as [->|HT].
  { cbn in H. destruct rb; cbn in H; discriminate. }
  destruct (deal_spec T rb (repeat [] T) 0 HT (repeat_length _ _)) as (pt & E2 & Hl2 & Hp2 & _).
  rewrite E2 in H. cbn [bind] in H. apply dle_try_new_inv in H. destruct H as (_ & _ & Ev & HF).
  rewrite Ev. split; [now rewrite map_length|]. split.
  { intros v Hv. rewrite Forall_forall in HF. now apply HF. }
  exists (map group_rows pt). split.
  - rewrite <- (mapM_ok_intro (fun g => leaf_rows (scan schema g)) group_rows) by (intros; apply scan_rows).
    clear. induction pt as [|g pt IH]; cbn [map mapM]; [reflexivity|]. rewrite IH. reflexivity.
  - rewrite <- HR, concat_group_rows. apply group_rows_perm, concat_perm.
    now rewrite concat_repeat_nil in Hp2.
Qed.

Print Assumptions C22_scaled_scan_reads_once.

(** Scaling succeeds exactly when the number of groups is a multiple of the number of tasks. *)
Theorem C22_scaling_succeeds_iff : forall (row : Type) partitioner schema
    (groups gs : list (list (list row))) P T,
  1 <= T -> gs = match partitioner (P * T) groups with Some x => x | None => groups end ->
  ((exists d, file_scan_scale_up partitioner schema groups P false T = Ok d)
   <-> Nat.divide T (List.length gs)).
Proof.
  intros row partitioner schema groups gs P T HT Egs. unfold file_scan_scale_up. rewrite <- Egs. cbn [bind].
  destruct (deal_spec T gs (repeat [] T) 0) as (pt & -> & Hl & _ & Hc); [lia|apply repeat_length|].
  cbn [bind].
  assert (Hz : forall A n j, List.length (nth j (repeat (@nil A) n) []) = 0).
  { intros A n. induction n as [|n IH]; intros [|j]; cbn; auto. }
  assert (Hh : forall j, List.length (nth j pt []) = hits 0 T (List.length gs) j).
  { intros j. rewrite Hc, Hz. reflexivity. }
  rewrite <- Nat.mod_divide by lia. rewrite <- hits_equal_divides by lia.
  destruct pt as [|v0 pt]; [cbn in Hl; lia|]. split.
  - intros [d Hd]. apply dle_try_new_inv in Hd. destruct Hd as (_ & _ & _ & HF). cbn [map] in HF.
    apply Forall_cons_iff in HF. destruct HF as [E HF']. cbn in E. intros j Hj. rewrite <- !Hh. cbn [nth].
    destruct j as [|j]; [reflexivity|]. rewrite Forall_map, Forall_forall in HF'. rewrite E.
    apply HF', nth_In. cbn in Hl. lia.
  - intros H. eexists. unfold dle_try_new. cbn [map check_variants].
    rewrite check_variants_ok; [reflexivity|]. apply Forall_map, Forall_forall. intros v Hv. cbn.
    split; [|reflexivity]. apply (In_nth _ _ []) in Hv. destruct Hv as (j & Hj & <-).
    specialize (H (S j)). rewrite <- !Hh in H. cbn [nth] in H. apply H. cbn in Hl. lia.
Qed.

Print Assumptions C22_scaling_succeeds_iff.

(** So "every task count works" is false: a scan with three groups that the partitioner leaves alone
    cannot be planned on two tasks. *)
Theorem C22_every_task_count_refuted : exists (groups : list (list (list nat))) P T,
  1 <= T /\ 1 <= P /\ P = List.length groups /\
  is_ok (file_scan_scale_up (fun _ _ => None) 0 groups P false T) = false.
Proof. exists [[[1]]; [[2]]; [[3]]], 3, 2. repeat split; lia. Qed.

Print Assumptions C22_every_task_count_refuted.

Example C22_hypotheses_met :
  exists d, file_scan_scale_up (fun _ _ => Some [[[1]; [2]]; [[3]]; []; [[4]]]) 0 [[[1]; [2]]; [[3]; [4]]] 2 false 2
            = Ok d /\ dle_parts d = 2 /\
    map leaf_rows (dle_variants d) = [Ok [1; 2]; Ok [3; 4]].
Proof. eexists. split; [reflexivity|]. split; reflexivity. Qed.

(** * C23: a file scan asks for at least one task *)

Theorem C23_positive_bytes_partial : forall sizes bpp tp,
  1 <= list_sum sizes -> 1 <= bpp -> 1 <= tp ->
  exists n, file_scan_desired sizes bpp tp = Ok (Desired n) /\ 1 <= n /\
    (n - 1) * (bpp * tp) < list_sum sizes /\ list_sum sizes <= n * (bpp * tp).
Proof.
  intros sizes bpp tp Hs Hb Ht. unfold file_scan_desired, rust_div_ceil.
  destruct bpp as [|b]; [lia|]. destruct tp as [|t]; [lia|]. cbn [bind].
  exists (div_ceil (div_ceil (list_sum sizes) (S b)) (S t)). split; [reflexivity|].
  assert (DC : forall x y, 1 <= x -> 1 <= y ->
    1 <= div_ceil x y /\ (div_ceil x y - 1) * y < x /\ x <= div_ceil x y * y).
  { intros x y Hx Hy. unfold div_ceil.
    pose proof (Nat.div_mod x y ltac:(lia)) as HD. pose proof (Nat.mod_upper_bound x y ltac:(lia)) as HM.
    destruct (Nat.eq_dec (x mod y) 0) as [E0|E0].
    - assert ((x + y - 1) / y = x / y) as -> by (apply (div_unique_pos _ _ _ (y - 1)); lia).
      destruct (x / y) eqn:Eq; [lia|]. nia.
    - assert ((x + y - 1) / y = x / y + 1) as -> by (apply (div_unique_pos _ _ _ (x mod y - 1)); lia).
      nia. }
  destruct (DC (list_sum sizes) (S b) Hs ltac:(lia)) as (D1 & D2 & D3).
  destruct (DC (div_ceil (list_sum sizes) (S b)) (S t) D1 ltac:(lia)) as (E1 & E2 & E3).
  split; [assumption|]. split; nia.
Qed.

Print Assumptions C23_positive_bytes_partial.

(** Missing: tables without any byte, and a zero [file_scan_config_bytes_per_partition]. *)
Theorem C23_empty_scan_refuted :
  (exists sizes bpp tp, 1 <= bpp /\ 1 <= tp /\ file_scan_desired sizes bpp tp = Ok (Desired 0)) /\
  (exists sizes tp m, 1 <= tp /\ 1 <= list_sum sizes /\ file_scan_desired sizes 0 tp = Panic m).
Proof.
  split; [exists [0; 0], 16, 4; repeat split; lia|].
  exists [10], 4, "attempt to divide by zero"%string. repeat split; cbn; lia.
Qed.

Print Assumptions C23_empty_scan_refuted.

Example C23_hypotheses_met : file_scan_desired [100; 0; 50] 16 4 = Ok (Desired 3).
Proof. reflexivity. Qed.

(** * C24: a scaled leaf honours the partitions it advertises *)

Theorem C24_scaled_leaf_partial : forall (row : Type) original variants (d : dle row) ctx p,
  dle_try_new original variants = Ok d ->
  task_count ctx = List.length variants -> task_index ctx < task_count ctx -> 2 <= task_count ctx ->
  p < dle_parts d ->
  exists v, nth_error variants (task_index ctx) = Some v /\ p < lf_parts v /\
    dle_execute d ctx p = lf_exec v p /\ dle_to_task_specialized d (task_index ctx) = Ok v.
Proof.
  intros row original variants d ctx p H Hc Hi H2 Hp. apply dle_try_new_inv in H.
  destruct H as (_ & _ & Ev & HF).
  destruct (nth_error variants (task_index ctx)) as [v|] eqn:E; [|apply nth_error_None in E; lia].
  exists v. split; [reflexivity|]. rewrite Forall_forall in HF.
  split; [rewrite (HF v); [assumption|eapply nth_error_In; eassumption]|].
  unfold dle_execute, dle_to_task_specialized. rewrite Ev, E.
  destruct (Nat.eqb_spec (task_count ctx) 1); [lia|]. auto.
Qed.

Print Assumptions C24_scaled_leaf_partial.

(** Missing: a single task. A leaf scaled to one task whose only variant has more partitions than the
    original advertises partitions that do not exist in the plan it executes; one whose variant has
    fewer partitions loses rows. Both come out of the file scan handler itself: the partitioner
    changes the number of groups. *)
Theorem C24_single_task_refuted :
  (exists (groups : list (list (list nat))) partitioner d p m,
     file_scan_scale_up partitioner 0 groups 2 false 1 = Ok d /\
     (forall n gs, partitioner n groups = Some gs -> Permutation (group_rows gs) (group_rows groups)) /\
     p < dle_parts d /\ dle_execute d (mkCtx 0 1) p = Panic m) /\
  (exists (groups : list (list (list nat))) partitioner d,
     file_scan_scale_up partitioner 0 groups 1 false 1 = Ok d /\
     (forall n gs, partitioner n groups = Some gs -> Permutation (group_rows gs) (group_rows groups)) /\
     mapM (dle_execute d (mkCtx 0 1)) (seq 0 (dle_parts d)) = Ok [[1]] /\ group_rows groups = [1; 2]).
Proof.
  split.
  - exists [[[1]; [2]]], (fun _ _ => Some [[[1]]; [[2]]]). eexists. exists 1, "index out of bounds"%string.
    split; [reflexivity|]. split; [|split; [cbn; lia|reflexivity]].
    intros n gs E. injection E as <-. reflexivity.
  - exists [[[1]]; [[2]]], (fun _ _ => Some [[[1]; [2]]]). eexists.
    split; [reflexivity|]. split; [|split; reflexivity].
    intros n gs E. injection E as <-. reflexivity.
Qed.

Print Assumptions C24_single_task_refuted.

Example C24_hypotheses_met :
  exists d, dle_try_new (scan 0 [[[1; 2]]]) [scan 0 [[[1]]]; scan 0 [[[2]]]] = Ok d /\
    0 < dle_parts d /\ dle_execute d (mkCtx 1 2) 0 = Ok [2].
Proof. eexists. split; [reflexivity|]. split; [cbn; lia|reflexivity]. Qed.

(** * C25: default routing *)

(** The session's routing chain without user handlers. *)
Definition default_chain (url : Type) : option (chain (route_event url -> option (Res (list url)))) :=
  register_builtin builtin_routing None.

(** With at least one worker known (and none listed twice), every stage with several tasks gets exactly
    one known worker per task, whatever the random start, and the loads of two workers differ by at
    most one. *)
Theorem C25_default_routing_balances : forall (url : Type) eqb (urls : list url) ev,
  (forall a b, eqb a b = true <-> a = b) ->
  rt_resolver ev = Ok urls -> urls <> [] -> NoDup urls -> rt_task_count ev <> 1 ->
  exists out, routed_urls (default_chain url) ev = Ok out /\
    List.length out = rt_task_count ev /\ incl out urls /\
    forall w w', In w urls -> In w' urls -> load eqb out w <= load eqb out w' + 1.
Proof.
  intros url eqb urls ev Heq Hr Hne Hnd Htc.
  destruct (random_ok urls (rt_start ev) (rt_task_count ev) Hne) as (out & E & Hl & Hn & Hin).
  exists out. split; [|split; [assumption|split; [assumption|]]].
  - unfold routed_urls, default_chain. cbn -[random_routing].
    unfold single_task_coordinator_routing, single_task_child_url_routing, random_routing.
    destruct (Nat.eqb_spec (rt_task_count ev) 1); [contradiction|]. cbn [negb]. rewrite Hr.
    destruct urls as [|u us]; [contradiction|]. rewrite E. cbn [bind]. rewrite Hl, Nat.eqb_refl. reflexivity.
  - intros w w' Hw Hw'. apply In_nth_error in Hw, Hw'. destruct Hw as [r Hw], Hw' as [r' Hw'].
    rewrite (load_hits eqb urls out (rt_start ev) (rt_task_count ev) r w) by assumption.
    rewrite (load_hits eqb urls out (rt_start ev) (rt_task_count ev) r' w') by assumption.
    assert (r < List.length urls) by (apply nth_error_Some; congruence).
    assert (r' < List.length urls) by (apply nth_error_Some; congruence).
    pose proof (hits_range (rt_start ev) (List.length urls) r (rt_task_count ev) ltac:(lia) H).
    pose proof (hits_range (rt_start ev) (List.length urls) r' (rt_task_count ev) ltac:(lia) H0).
    lia.
Qed.

Print Assumptions C25_default_routing_balances.

(** A single task goes to this process if it can act as a worker, else next to a single-task input stage,
    else to a known worker. *)
Theorem C25_single_task : forall (url : Type) (urls : list url) ev,
  rt_resolver ev = Ok urls -> urls <> [] -> rt_task_count ev = 1 ->
  exists u, routed_urls (default_chain url) ev = Ok [u] /\
    (rt_self_url ev = Some u \/
     rt_self_url ev = None /\ In [u] (rt_children ev) \/
     rt_self_url ev = None /\ (forall x, ~ In [x] (rt_children ev)) /\ In u urls).
Proof.
  intros url urls ev Hr Hne Htc. unfold routed_urls, default_chain. cbn -[random_routing].
  unfold single_task_coordinator_routing, single_task_child_url_routing, random_routing.
  rewrite Htc. cbn [Nat.eqb negb]. destruct (rt_self_url ev) as [s|] eqn:Es.
  { exists s. split; [reflexivity|auto]. }
  destruct (find _ (rt_children ev)) as [ws|] eqn:Ef.
  - apply find_some in Ef. destruct Ef as [Hin Hl]. destruct ws as [|u [|? ?]]; try discriminate.
    exists u. split; [reflexivity|auto].
  - destruct (random_ok urls (rt_start ev) 1 Hne) as (out & E & Hl & _ & Hin).
    rewrite Hr. destruct urls as [|u0 us]; [contradiction|]. rewrite E. cbn [bind].
    destruct out as [|u [|? ?]]; try discriminate. exists u. split; [reflexivity|].
    right; right. split; [reflexivity|]. split; [|apply Hin; now left].
    intros x Hx. apply (find_none _ _ Ef) in Hx. discriminate.
Qed.

Print Assumptions C25_single_task.

(** Without workers, or if resolving fails, routing several tasks fails. *)
Theorem C25_no_workers : forall (url : Type) (ev : route_event url),
  rt_task_count ev <> 1 -> rt_resolver ev = Ok [] \/ is_ok (rt_resolver ev) = false ->
  is_ok (routed_urls (default_chain url) ev) = false.
Proof.
  intros url ev Htc H. unfold routed_urls, default_chain. cbn -[random_routing].
  unfold single_task_coordinator_routing, single_task_child_url_routing, random_routing.
  destruct (Nat.eqb_spec (rt_task_count ev) 1); [contradiction|]. cbn [negb].
  destruct H as [-> | H]; [reflexivity|]. destruct (rt_resolver ev); [discriminate|reflexivity|reflexivity].
Qed.

Print Assumptions C25_no_workers.

(** Whatever user handlers answer, a stage never starts with a number of URLs other than its number of
    tasks. *)
Theorem C25_one_url_per_task : forall (url : Type) handlers (ev : route_event url) out,
  routed_urls handlers ev = Ok out -> List.length out = rt_task_count ev.
Proof.
  intros url handlers ev out. unfold routed_urls. destruct (dispatch handlers _) as [[us| |]|]; cbn; try discriminate.
  destruct (Nat.eqb_spec (List.length us) (rt_task_count ev)); cbn; [|discriminate].
  intros H. injection H as <-. assumption.
Qed.

Print Assumptions C25_one_url_per_task.

Example C25_hypotheses_met :
  let ev := mkRoute 5 (Ok [10; 20; 30]) None [[10]] 1 in
  routed_urls (default_chain nat) ev = Ok [20; 30; 10; 20; 30] /\
  routed_urls (default_chain nat) (mkRoute 1 (Ok [10; 20; 30]) None [[10; 20]; [20]] 1) = Ok [20] /\
  NoDup [10; 20; 30].
Proof.
  split; [reflexivity|]. split; [reflexivity|].
  repeat constructor; cbn; intuition discriminate.
Qed.

(** * C26: handler order *)

(** The part of the claim that holds: whatever was registered when (user handlers before or after the
    built-in ones), built-in handlers are consulted only if no user handler answers. *)
Theorem C26_user_first_partial : forall (H T : Type) (users builtins : list H) (f : H -> option T) c,
  c = register_builtin builtins (register_custom users None) \/
  c = register_custom users (register_builtin builtins None) \/
  c = Some (extend_builtin (register_custom users None) builtins) ->
  dispatch c f = dispatch_loop c f /\
  dispatch c f = match first_answer (map f users) with
                 | Some x => Some x
                 | None => first_answer (map f builtins)
                 end.
Proof.
  intros H T users builtins f c Hc. split; [apply dispatch_same|].
  rewrite dispatch_chain_of.
  assert (E : custom (chain_of c) = users /\ builtin (chain_of c) = builtins).
  { destruct Hc as [-> | [-> | ->]].
    - destruct (register_builtin_spec builtins (register_custom users None)) as [-> ->].
      destruct (register_custom_spec users None) as [-> ->]. auto.
    - destruct (register_custom_spec users (register_builtin builtins None)) as [-> ->].
      destruct (register_builtin_spec builtins None) as [-> ->]. auto.
    - cbn [chain_of]. destruct (extend_builtin_spec builtins (register_custom users None)) as [-> ->].
      destruct (register_custom_spec users None) as [-> ->]. auto. }
  destruct E as [-> ->].
  induction (map f users) as [|a l IH]; cbn; [reflexivity|]. destruct a; auto.
Qed.

Print Assumptions C26_user_first_partial.

(** The documented order among user handlers (the last registered is consulted first) is not the
    implemented one: handlers are consulted in the order they were registered. *)
Theorem C26_reverse_order_refuted :
  (forall (H T : Type) (users : list H) (f : H -> option T),
     dispatch (register_custom users None) f = first_answer (map f users)) /\
  exists (users : list nat) (f : nat -> option nat),
    dispatch (register_custom users None) f <> first_answer (rev (map f users)).
Proof.
  split.
  - intros H T users f. rewrite dispatch_chain_of. destruct (register_custom_spec users (@None (chain H))) as [-> ->].
    cbn. now rewrite app_nil_r.
  - exists [1; 2], (fun h => Some h). discriminate.
Qed.

Print Assumptions C26_reverse_order_refuted.

(** Plan rewrites on workers are applied in registration order, user rewrites first, each on the result
    of the previous one; an error stops them. *)
Theorem C26_rewrites_compose : forall (H T : Type) (users builtins : list H) (f : T -> H -> Res T) v,
  chain_try_fold f (chain_of (register_builtin builtins (register_custom users None))) v =
  fold_left (fun r h => let* v := r in f v h) (users ++ builtins) (Ok v).
Proof.
  intros H T users builtins f v. unfold chain_try_fold.
  destruct (register_builtin_spec builtins (register_custom users None)) as [-> ->].
  destruct (register_custom_spec users (@None (chain H))) as [-> ->]. cbn [chain_of chain_default custom builtin app].
  generalize (users ++ builtins). intros l. revert v. induction l as [|h l IH]; intros v; cbn; [reflexivity|].
  destruct (f v h) as [x| |]; cbn; [apply IH| |].
  - clear. induction l as [|h l IH]; cbn; auto.
  - clear. induction l as [|h l IH]; cbn; auto.
Qed.

Print Assumptions C26_rewrites_compose.

Example C26_hypotheses_met :
  dispatch (register_builtin [10; 20] (register_custom [1; 2; 3] None))
    (fun h => if h mod 2 =? 0 then Some h else None) = Some 2.
Proof. reflexivity. Qed.
