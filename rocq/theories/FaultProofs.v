(** Proofs about executions with failures. *)
From Verif Require Import Base NetModel NetSpec NetProofs CiuModel CiuSpec CiuProofs EventsModel EventsSpec EventsProofs JoinModel JoinSpec PlannerModel
  PlannerSpec PlannerProofs ExecModel ExecSpec ExecProofs ExecPasses ExecEnd OrderModel OrderProofs PoolModel PoolSpec PoolProofs PoolProps
  DemuxModel DemuxSpec DemuxProofs DemuxProps NetRunModel NetRunProofs NetRunProps FaultModel FaultSpec.

(** * Plans whose boundaries and unions read all of their inputs *)
Section WellCut.
Context {row : Type}.
Notation tree := (tree row).

Definition covers (b : bkind) (part : partitioning row) (tasks P n : nat) : Prop :=
  1 <= n /\
  match b with
  | BShuffle => 0 < partition_count part
  | BBroadcast => partition_count part = P
  | BCoalesce => partition_count part = P * Nat.max (div_ceil tasks n) 1
  end.

Fixpoint well_cut (t : tree) (n : nat) {struct t} : Prop :=
  match t with
  | Node _ cs => Forall (fun P => P) (map (fun c => well_cut c n) cs)
  | Ciu w m cs => split_children w n = Ok m /\ good_allocation w n m /\ List.length w = List.length cs /\
      Forall (fun P => P) (map (fun '(P, k) => P k) (combine (map well_cut cs) (map_task_counts (List.length cs) m)))
  | Net b part _ _ tasks plan =>
      match plan with
      | Node (KRepart _) [c] | Node (KBcast _) [c] => covers b part tasks (tparts c) n /\ well_cut c tasks
      | _ => covers b part tasks (tparts plan) n /\ well_cut plan tasks
      end
  end.

Lemma combined_nth {A} (f : A -> nat -> Prop) (cs : list A) : forall ks, List.length ks = List.length cs ->
  Forall (fun P => P) (map (fun '(P, k) => P k) (combine (map f cs) ks)) <->
  forall i c, nth_error cs i = Some c -> f c (nth i ks 0).
Proof.
  induction cs as [|c cs IH]; intros [|k ks] L; cbn in L; try discriminate; cbn.
  - split; [|constructor]. intros _ [|i] c Hc; discriminate.
  - rewrite Forall_cons_iff, (IH ks) by lia. split.
    + intros [H1 H2] [|i] c' Hc; cbn in *; [now injection Hc as <-|auto].
    + intros H. split; [now apply (H 0)|]. intros i c' Hc. exact (H (S i) c' Hc).
Qed.

Lemma well_cut_node k (cs : list tree) n : well_cut (Node k cs) n <-> forall c, In c cs -> well_cut c n.
Proof. cbn [well_cut]. rewrite Forall_map, Forall_forall. reflexivity. Qed.
Lemma well_cut_ciu w m (cs : list tree) n : well_cut (Ciu w m cs) n <->
  split_children w n = Ok m /\ good_allocation w n m /\ List.length w = List.length cs /\
  forall i c, nth_error cs i = Some c -> well_cut c (nth i (map_task_counts (List.length cs) m) 0).
Proof. cbn [well_cut]. rewrite combined_nth by apply map_task_counts_length. reflexivity. Qed.
End WellCut.

(** * The calls that reach a partition below a boundary *)
Section Calls.
Context {row : Type}.
Lemma shuffle_reaches (part : partitioning row) tasks (producers : nat -> splan row) ctx q reqs t p :
  boundary_requests BShuffle part tasks ctx q = Ok reqs -> t < tasks -> p < parts (strip_head (producers t)) ->
  exists r plan, In r reqs /\ rq_task r = t /\ insert_head (rq_head r) (producers t) = Ok plan /\ head_reads plan (rq_target r) p.
Proof.
  intros H Ht Hp. cbn [boundary_requests] in H. unfold shuffle_requests in H. cbn [sh_part] in H. apply mapM_ok_inv in H.
  assert (Hin : nth_error (seq 0 tasks) t = Some t) by (rewrite (nth_error_nth' _ 0) by (now rewrite seq_length); now rewrite seq_nth).
  apply Forall2_nth in H as [L H]. destruct (nth_error reqs t) as [r|] eqn:Er.
  2: { apply nth_error_None in Er. rewrite seq_length in L. lia. }
  specialize (H t t r Hin Er). cbn beta in H. unfold shuffle_producer_head in H. cbn [sh_part] in H.
  destruct (scale_partitioning part _) as [p'| |]; cbn [bind] in H; try discriminate. injection H as <-.
  eexists. exists (SRepart p' (strip_head (producers t))). split; [eapply nth_error_In; eauto|]. repeat split. exact Hp.
Qed.

Lemma broadcast_reaches (part : partitioning row) tasks (producers : nat -> splan row) ctx reqs t p :
  parts (strip_head (producers t)) = partition_count part -> p < partition_count part ->
  boundary_requests BBroadcast part tasks ctx p = Ok reqs -> t < tasks ->
  exists r plan, In r reqs /\ rq_task r = t /\ insert_head (rq_head r) (producers t) = Ok plan /\ head_reads plan (rq_target r) p.
Proof.
  intros HP Hp H Ht. cbn [boundary_requests] in H. injection H as <-. unfold broadcast_requests. cbn [br_parts].
  eexists. eexists. split; [apply in_map_iff; exists t; split; [reflexivity|apply in_seq; lia]|]. cbn [rq_task rq_head rq_target].
  split; [reflexivity|]. unfold broadcast_producer_head, insert_head. rewrite HP. destruct (Nat.eqb_spec (partition_count part) 0); [lia|].
  split; [reflexivity|]. cbn [head_reads]. rewrite HP, Nat.add_comm, Nat.mul_comm, Nat.mod_add by lia. now rewrite Nat.mod_small.
Qed.

Lemma coalesce_reaches (part : partitioning row) tasks P (producers : nat -> splan row) run reqs t p :
  strip_head (producers t) = SOther P run -> partition_count part = P * tasks -> t < tasks -> p < P ->
  boundary_requests BCoalesce part tasks (mkCtx 0 1) (t * P + p) = Ok reqs ->
  exists r plan, In r reqs /\ rq_task r = t /\ insert_head (rq_head r) (producers t) = Ok plan /\ head_reads plan (rq_target r) p.
Proof.
  intros Er Hc Ht Hp H. cbn [boundary_requests] in H.
  pose (co := mkCoalesce part (Remote tasks) tasks). fold co in H.
  rewrite (coalesce_request_eq P tasks 1 ltac:(lia) ltac:(lia) co eq_refl) in H.
  2: { cbn [co co_part]. rewrite Hc. unfold div_ceil. rewrite Nat.add_sub, Nat.div_1_r, Nat.max_l by lia. reflexivity. }
  2: lia.
  assert (E1 : (t * P + p) / P = t) by (rewrite Nat.div_add_l by lia; rewrite Nat.div_small by lia; lia).
  assert (E2 : (t * P + p) mod P = p) by (rewrite Nat.add_comm, Nat.mod_add by lia; now apply Nat.mod_small).
  rewrite E1, E2 in H.
  assert (Hg : group_len (task_group tasks 0 1) = tasks /\ start_task (task_group tasks 0 1) = 0).
  { unfold task_group. cbn [Nat.eqb start_task group_len]. rewrite Nat.div_1_r, Nat.mod_1_r. cbn. lia. }
  destruct Hg as [G1 G2]. rewrite G1, G2 in H. destruct (Nat.leb_spec tasks t); [lia|]. cbn [bind] in H. injection H as <-.
  eexists. exists (SOther P run). split; [now left|]. split; [reflexivity|]. split; [cbn [rq_head insert_head]; now rewrite Er|]. reflexivity.
Qed.

(** The calls of the consumer tasks reach every partition below the boundary. *)
Lemma boundary_reaches b (part : partitioning row) tasks P (producers : nat -> splan row) n t p :
  (forall t, parts (strip_head (producers t)) = P) -> 
  (b = BCoalesce -> forall t, exists run, strip_head (producers t) = SOther P run) ->
  covers b part tasks P n -> t < tasks -> p < P ->
  exists i q, i < n /\ q < partition_count part /\
    forall reqs, boundary_requests b part tasks (mkCtx i n) q = Ok reqs ->
    exists r plan, In r reqs /\ rq_task r = t /\ insert_head (rq_head r) (producers t) = Ok plan /\
      head_reads plan (rq_target r) p.
Proof.
  intros HP Hs [Hn Hc] Ht Hp. destruct b.
  - exists 0, 0. split; [lia|]. split; [exact Hc|]. intros reqs H. eapply shuffle_reaches; eauto. now rewrite HP.
  - exists 0, p. split; [lia|]. split; [lia|]. intros reqs H. eapply broadcast_reaches; eauto; [now rewrite HP|lia].
  - pose (co := mkCoalesce part (Remote tasks) tasks).
    assert (Hin : In (t, p) (all_pairs tasks P)) by (unfold all_pairs; apply in_prod; apply in_seq; lia).
    eapply Permutation_in in Hin; [|symmetry; apply (coalesce_reads_exact P tasks n ltac:(lia) ltac:(lia) co eq_refl Hc)].
    apply in_flat_map in Hin as (i & Hi & Hin). apply in_flat_map in Hin as (q & Hq & Hin). apply in_seq in Hi, Hq.
    exists i, q. split; [lia|]. split; [exact (proj2 Hq)|]. intros reqs H. cbn [boundary_requests] in H. fold co in H.
    rewrite (coalesce_request_eq P tasks n ltac:(lia) ltac:(lia) co eq_refl Hc i q ltac:(lia)) in H, Hin.
    destruct (group_len _ <=? q / P); [destruct Hin|]. destruct Hin as [[= <- <-]|[]]. cbn [bind] in H. injection H as <-.
    destruct (Hs eq_refl (start_task (task_group tasks i n) + q / P)) as (run & Er).
    eexists. exists (SOther P run). split; [now left|]. split; [reflexivity|]. split; [cbn [rq_head insert_head]; now rewrite Er|]. reflexivity.
Qed.

End Calls.

(** * A boundary that ended normally read everything *)
Section Boundary.
Context {row err : Type}.
Variables (budget capacity : nat) (bad : nat -> err).
Notation node_history := (node_history budget capacity bad).
Notation boundary_outcomes := (boundary_outcomes budget capacity bad).

(** A call whose stream ended normally reads a stream of the worker without error. *)
Lemma call_backed b (part : partitioning row) tasks P producers ctx ps h below r got plan p :
  NoDup ps -> (forall p, In p ps -> p < partition_count part) ->
  node_history b part tasks P producers ctx ps h -> backed producers below h ->
  call_read h r got -> error_free got ->
  insert_head (rq_head r) (producers (rq_task r)) = Ok plan -> head_reads plan (rq_target r) p ->
  below (rq_task r) p <> None.
Proof.
  intros Hnd Hps Hh Hb Hc He Hplan Hp.
  destruct Hc as (c & t & i & st & Ho & Hr). pose proof Hh as [Hpool (calls & Hcalls & Hperm) Hans].
  destruct (C29_right_stream _ _ _ Hpool _ _ _ _ _ Ho) as (-> & Hle & -> & l & Hl & Hst).
  destruct (Hans _ _ Hl) as (q & Hq & Ht & Hlen & -> & Hlink & Hu).
  destruct (checks_ok_reachable _ _ _ Hpool) as (_ & _ & _ & Hsub).
  pose proof (fitting_perm _ _ Hperm (boundary_calls_fit _ _ _ _ _ _ Hnd Hps Hcalls)) as (F1 & F2 & _).
  assert (Hrin : In r (map fst (pl_calls (nn_pool h)))) by (apply nth_error_In in Ho; apply (in_map fst) in Ho; exact Ho).
  destruct (F1 q r (Hsub _ Hq) Hrin Ht) as (E1 & E2 & E3).
  assert (Hj : rq_target r - rq_start r < List.length (nn_sources h (rq_task r))).
  { assert (HN : nth_error (map (Datatypes.pair (rq_task r)) (seq 0 (List.length (nn_sources h (rq_task r))))) (rq_target r - rq_start r) <> None) by congruence.
    apply nth_error_Some in HN. now rewrite map_length, seq_length in HN. }
  destruct (nth_error (nn_sources h (rq_task r)) (rq_target r - rq_start r)) as [s|] eqn:Es; [|apply nth_error_None in Es; lia].
  assert (Hcr : call_read h r got) by (exists c, (rq_task r), (rq_target r - rq_start r), st; auto).
  rewrite <- Ht. apply (Hb q Hq) with (j := rq_target r - rq_start r) (s := s) (plan := plan).
  - rewrite Ht. intros e reads El. rewrite El in Hlink. cbn in Hlink.
    assert (Est : st = (rq_task r, rq_target r - rq_start r)).
    { rewrite nth_error_map in Hst. rewrite (nth_error_nth' _ 0) in Hst by (now rewrite seq_length). rewrite seq_nth in Hst by assumption. now injection Hst as <-. }
    subst st. cbn [fst snd] in Hr. rewrite El in Hr. cbn in Hr. destruct Hlink as [_ HF]. rewrite Forall_forall in HF.
    apply nth_error_In in Hr. destruct (HF _ Hr) as [E|E]; [discriminate|]. cbn in E. subst got. destruct (He e). now left.
  - now rewrite Ht.
  - intros e Hin. destruct (C89_errors_are_seen budget capacity bad b part tasks P producers ctx ps h r got s e Hh Hcr Es Hin) as (e' & He'). exact (He e' He').
  - now rewrite Ht, E3.
  - rewrite E1. replace (rq_start r + (rq_target r - rq_start r)) with (rq_target r) by lia. exact Hp.
Qed.
(** A partition that ended normally read partitions that did. *)
Lemma outcome_reads b (part : partitioning row) tasks P producers below n o i q l :
  boundary_outcomes b part tasks P producers below n o -> i < n -> q < partition_count part -> o i q = Some l ->
  exists reqs, boundary_requests b part tasks (mkCtx i n) q = Ok reqs /\
    forall r plan p, In r reqs -> insert_head (rq_head r) (producers (rq_task r)) = Ok plan -> head_reads plan (rq_target r) p ->
      below (rq_task r) p <> None.
Proof.
  intros Ho Hi Hq El. destruct (Ho i Hi) as (h & Hh & Hb & Hread).
  destruct (Hread q l Hq El) as (reqs & gots & out & Ereq & HF & Hm & Hout & _). exists reqs. split; [exact Ereq|].
  intros r plan p Hin Hplan Hp. apply In_nth_error in Hin as (k & Hk). apply Forall2_nth in HF as [L HF].
  destruct (nth_error gots k) as [got|] eqn:Eg.
  2: { apply nth_error_None in Eg. assert (k < List.length reqs) by (apply nth_error_Some; congruence). lia. }
  eapply (call_backed b part tasks P producers (mkCtx i n) (seq 0 (partition_count part)) h below r got plan p); eauto using seq_NoDup.
  - intros x Hx. apply in_seq in Hx. lia.
  - apply (merge_error_free _ _ Hm Hout). eapply nth_error_In; eauto.
Qed.

Lemma boundary_ended b (part : partitioning row) tasks P (producers : nat -> splan row) below n o :
  (forall t, parts (strip_head (producers t)) = P) ->
  (b = BCoalesce -> forall t, exists run, strip_head (producers t) = SOther P run) ->
  covers b part tasks P n -> boundary_outcomes b part tasks P producers below n o ->
  all_ended n (partition_count part) o ->
  all_ended tasks P below /\ net_delivers budget capacity bad b part tasks P producers n (rows o).
Proof.
  intros HP Hs Hc Ho He. split.
  - intros t Ht p Hp. destruct (boundary_reaches b part tasks P producers n t p HP Hs Hc Ht Hp) as (i & q & Hi & Hq & Hr).
    destruct (o i q) as [l|] eqn:El; [|destruct (He i Hi q Hq El)].
    destruct (outcome_reads b part tasks P producers below n o i q l Ho Hi Hq El) as (reqs & Ereq & Hreads).
    destruct (Hr reqs Ereq) as (r & plan & Hin & <- & Hplan & Hp'). eauto.
  - intros i Hi. destruct (Ho i Hi) as (h & Hh & _ & Hread). exists h. split; [exact Hh|]. intros p Hp. unfold rows.
    destruct (o i p) as [l|] eqn:El; [now apply Hread|destruct (He i Hi p Hp El)].
Qed.

End Boundary.

(** * Isolated unions *)
Section Union.
Context {row : Type}.
Notation tree := (tree row).
Notation outcomes := (nat -> nat -> outcome row).

Lemma joined_none (l : list (outcome row)) : joined l <> None -> ~ In None l.
Proof.
  induction l as [|[x|] l IH]; cbn; intros H; [tauto| |congruence]. intros [E|Hin]; [discriminate|].
  apply IH; [|exact Hin]. destruct (joined l); [discriminate|exact H].
Qed.

Lemma pick_parts {A B} (ca : list (child A)) (cb : list (child B)) s :
  map ch_parts ca = map ch_parts cb -> forall p, CiuModel.pick ca s p = CiuModel.pick cb s p.
Proof.
  intros E. induction s as [|[i ctx] s IH]; intros p; cbn; [reflexivity|].
  assert (Ei : option_map ch_parts (nth_error ca i) = option_map ch_parts (nth_error cb i)) by (rewrite <- !nth_error_map; now rewrite E).
  destruct (nth_error ca i) as [x|], (nth_error cb i) as [y|]; cbn in Ei; try discriminate; [|reflexivity].
  injection Ei as ->. now rewrite IH.
Qed.

Lemma isolated_outcomes_parts (cs : list tree) (os : list outcomes) :
  map ch_parts (isolated_outcomes cs os) = map ch_parts (isolated_children cs (map rows os)).
Proof.
  revert os. induction cs as [|c cs IH]; intros [|o os]; cbn; try reflexivity. f_equal. apply IH.
Qed.

(** The stream of a partition is the child's. *)
Lemma isolated_rows P w m (cs : list tree) (os : list outcomes) ctx p l :
  ciu_execute (mkCiu P (isolated_outcomes cs os) w m) ctx p = Ok l -> joined l <> None ->
  ciu_execute (mkCiu P (isolated_children cs (map rows os)) w m) ctx p =
    Ok (match joined l with Some x => x | None => [] end).
Proof.
  unfold ciu_execute, ciu_delegate. cbn [task_idx_map ciu_children]. destruct (nth_error m (task_index ctx)) as [s|]; [|discriminate].
  rewrite (pick_parts _ _ s (isolated_outcomes_parts cs os)).
  destruct (CiuModel.pick (isolated_children cs (map rows os)) s p) as [[[[i cctx] q]|]| |]; cbn [bind]; try discriminate.
  - unfold isolated_outcomes, isolated_children. rewrite !nth_error_map.
    assert (En : nth_error (combine cs (map rows os)) i = option_map (fun '(c, g) => (c, rows g)) (nth_error (combine cs os) i)).
    { clear. revert os i. induction cs as [|c cs IH]; intros [|o os] [|i]; cbn; auto. }
    rewrite En. destruct (nth_error (combine cs os) i) as [[c g]|]; cbn; [|discriminate]. intros [= <-]. cbn.
    unfold rows. destruct (g (task_index cctx) q) as [x|]; cbn; [rewrite app_nil_r; reflexivity|congruence].
  - intros [= <-] _. reflexivity.
Qed.

Lemma outcomes_nth (cs : list tree) (os : list outcomes) i : List.length os = List.length cs -> i < List.length cs ->
  exists c g, nth_error cs i = Some c /\ nth_error os i = Some g /\
    nth_error (isolated_outcomes cs os) i = Some (mkChild (tparts c) (fun ctx p => Ok [g (task_index ctx) p])).
Proof.
  intros L Hi. destruct (nth_error cs i) as [c|] eqn:Ec; [|apply nth_error_None in Ec; lia].
  destruct (nth_error os i) as [g|] eqn:Eg; [|apply nth_error_None in Eg; lia].
  exists c, g. repeat split. unfold isolated_outcomes. now rewrite nth_error_map, (nth_error_combine _ _ i c g Ec Eg).
Qed.
Lemma outcomes_length (cs : list tree) (os : list outcomes) : List.length os = List.length cs ->
  List.length (isolated_outcomes cs os) = List.length cs.
Proof. intros L. unfold isolated_outcomes. rewrite map_length, combine_length. lia. Qed.

(** Every partition of every child is served. *)
Lemma isolated_ended n w m (cs : list tree) (os : list outcomes) (o : outcomes) :
  split_children w n = Ok m -> good_allocation w n m -> List.length w = List.length cs -> List.length os = List.length cs ->
  (forall i p, i < n -> p < tparts (Ciu w m cs) -> exists l,
      ciu_execute (mkCiu (tparts (Ciu w m cs)) (isolated_outcomes cs os) w m) (mkCtx i n) p = Ok l /\ o i p = joined l) ->
  all_ended n (tparts (Ciu w m cs)) o ->
  forall j c g, nth_error cs j = Some c -> nth_error os j = Some g ->
    all_ended (nth j (map_task_counts (List.length cs) m) 0) (tparts c) g.
Proof.
  intros Es Hg Lw L H He j c g Hc Hgj t Ht p Hp Hnone.
  assert (Hgood : forall m', split_children w n = Ok m' -> good_allocation w n m') by (intros m' E; congruence).
  assert (Hn : 0 < n) by (unfold split_children in Es; destruct (Nat.eqb_spec n 0); [discriminate|lia]).
  set (children := isolated_outcomes cs os) in *.
  assert (Lc : List.length children = List.length w) by (unfold children; rewrite outcomes_length; lia).
  destruct (ciu_new_ok children w n m Lc Hn Es Hg) as (u & Hu).
  destruct (ciu_new_inv children w n u Hu) as (_ & m' & counts & Es' & Ec & Eu).
  assert (m' = m) as -> by congruence.
  assert (Hparts : list_max counts = tparts (Ciu w m cs)).
  { cbn [tparts]. f_equal. apply mapM_ok_inv in Ec.
    assert (EP : map ch_parts children = map tparts cs).
    { unfold children. clear - L. revert os L. induction cs as [|c cs IH]; intros [|o os] L; cbn in *; try discriminate; [reflexivity|]. f_equal. apply IH. lia. }
    clear - Ec EP. induction Ec as [|s x m counts Hx Ec IH]; cbn; [reflexivity|]. rewrite IH. f_equal.
    unfold slot_partitions in Hx. destruct (mapM _ s) as [ns| |] eqn:Em; cbn [bind] in Hx; try discriminate. injection Hx as <-.
    apply mapM_ok_inv in Em. unfold slot_parts. f_equal. clear - Em EP. induction Em as [|[i ctx] y s ns Hy Em IH]; cbn; [reflexivity|].
    rewrite IH. f_equal. destruct (nth_error children i) as [x|] eqn:Ex; [|discriminate]. injection Hy as <-.
    rewrite <- EP. symmetry. apply nth_error_nth. now rewrite nth_error_map, Ex. }
  rewrite Hparts in Eu.
  set (data := fun i (ctx : TaskCtx) p => match nth_error os i with Some g => [g (task_index ctx) p] | None => [] end).
  destruct (built_rows children w n u Hu Hgood data) as (out & Hout & Hall).
  { intros i c' ctx q Hc' Hq. assert (Hi : i < List.length cs).
    { rewrite <- Lw, <- Lc. apply nth_error_Some. congruence. }
    destruct (outcomes_nth cs os i L Hi) as (c'' & g' & _ & Eg & E). fold children in E. rewrite E in Hc'. injection Hc' as <-.
    unfold data. now rewrite Eg. }
  subst u. cbn [ciu_parts task_idx_map] in *.
  assert (Hin : In None (all_child_rows children (run_count m) data)).
  { unfold all_child_rows, all_child_reads. apply in_flat_map.
    assert (Hj : j < List.length cs) by (apply nth_error_Some; congruence).
    destruct (outcomes_nth cs os j L Hj) as (c' & g' & E1 & E2 & E3). fold children in E3. rewrite Hc in E1. injection E1 as <-.
    rewrite Hgj in E2. injection E2 as <-.
    destruct (count_of_good w n m j Es Hg ltac:(lia)) as [Ek _]. rewrite Lw in Ek. rewrite Ek in Ht.
    exists (j, mkCtx t (run_count m j), p). split.
    - apply in_flat_map. exists j. split; [apply in_seq; lia|]. rewrite E3. cbn [ch_parts].
      apply in_flat_map. exists (mkCtx t (run_count m j)). split.
      + unfold all_tasks. apply in_map_iff. exists t. split; [reflexivity|apply in_seq; lia].
      + apply in_map_iff. exists p. split; [reflexivity|apply in_seq; lia].
    - unfold data. rewrite Hgj. cbn. now left. }
  rewrite <- Hall in Hin. apply in_flat_map in Hin as (i & Hi & Hin). apply in_flat_map in Hin as (q & Hq & Hin).
  apply in_seq in Hi, Hq. destruct (H i q ltac:(lia) ltac:(lia)) as (l & El & Eo).
  rewrite (Hout i q ltac:(lia) ltac:(lia)) in El. injection El as <-.
  assert (Hj : joined (out i q) <> None) by (rewrite <- Eo; apply He; lia). exact (joined_none _ Hj Hin).
Qed.
End Union.

(** * Whole plans *)
Section Plans.
Context {row err : Type}.
Notation tree := (tree row).
Notation outcomes := (nat -> nat -> outcome row).
Variable acts : op row -> list row -> list row -> Prop.
Variables (budget capacity : nat) (bad : nat -> err).
Notation runs_with_failures := (runs_with_failures budget capacity bad acts).
Notation delivers_networked := (delivers_networked budget capacity bad acts).

Theorem failure_free (t : tree) : forall remote n o, well_cut t n -> runs_with_failures remote t n o ->
  all_ended n (tparts t) o -> delivers_networked remote t n (rows o).
Proof.
  induction t as [k cs IH|w m cs IH|b part q num tasks i IH IH2] using tree_ind2; intros remote n o Hw Hr He.
  - rewrite well_cut_node in Hw. destruct Hr as (os & F & Hstrict & Hd). exists (map rows os). split; [|auto].
    apply Forall2_map_l in F. apply Forall2_nth in F as [L F]. apply Forall2_nth. rewrite !map_length. split; [exact L|].
    intros j R f HR Hf. rewrite nth_error_map in HR, Hf. destruct (nth_error cs j) as [c|] eqn:Ec; [|discriminate].
    destruct (nth_error os j) as [g|] eqn:Eg; [|discriminate]. injection HR as <-. injection Hf as <-.
    pose proof (nth_error_In _ _ Ec) as Hin. apply IH; auto; [exact (F j c g Ec Eg)|]. intros i Hi.
    pose proof (Hstrict i Hi (He i Hi)) as HS. apply Forall2_nth in HS as [_ HS]. apply (HS j); [|exact Eg]. now rewrite nth_error_map, Ec.
  - apply well_cut_ciu in Hw as (Es & Hg & Lw & Hw). destruct Hr as (os & F & Hd).
    apply (combined_Forall2 (runs_with_failures remote) (fun R g => R g) cs) in F as [L F]; [|apply map_task_counts_length].
    exists (map rows os). split.
    + apply (combined_Forall2 (delivers_networked remote) (fun R g => R g) cs); [apply map_task_counts_length|].
      rewrite map_length. split; [exact L|]. intros j c f Hc Hf. rewrite nth_error_map in Hf.
      destruct (nth_error os j) as [g|] eqn:Eg; [|discriminate]. injection Hf as <-.
      apply IH; [eapply nth_error_In; eauto|now apply Hw|now apply F|].
      eapply isolated_ended; eauto.
    + intros i p Hi Hp. destruct (Hd i p Hi Hp) as (l & El & Eo). unfold rows at 2. rewrite Eo.
      apply isolated_rows; [exact El|]. rewrite <- Eo. now apply He.
  - destruct i as [[l|p|m|spm fetch| |j c hl hr na|oo] cs|w m cs|b' part' q' num' tasks' i].
    2, 3: destruct cs as [|c [|c' cs]].
    all: destruct Hw as [Hc Hw], Hr as (g & Hg & Hb).
    all: eapply boundary_ended in Hb as [Hbelow Hnet]; [exists (rows g); split; [|exact Hnet]|intros; reflexivity|intros; eexists; reflexivity|exact Hc|exact He].
    all: first [exact (IH _ _ _ Hw Hg Hbelow)|exact (IH2 _ _ _ eq_refl (or_introl eq_refl) _ _ _ Hw Hg Hbelow)].
Qed.

(** An execution without failures is one of the executions. *)
Lemma isolated_some P w m (cs : list tree) (os : list outcomes) ctx p x :
  (forall g, In g os -> forall i p, g i p <> None) ->
  ciu_execute (mkCiu P (isolated_children cs (map rows os)) w m) ctx p = Ok x ->
  exists l, ciu_execute (mkCiu P (isolated_outcomes cs os) w m) ctx p = Ok l /\ joined l = Some x.
Proof.
  intros Hos. unfold ciu_execute, ciu_delegate. cbn [task_idx_map ciu_children]. destruct (nth_error m (task_index ctx)) as [s|]; [|discriminate].
  rewrite (pick_parts _ _ s (isolated_outcomes_parts cs os)).
  destruct (CiuModel.pick (isolated_children cs (map rows os)) s p) as [[[[i cctx] q]|]| |]; cbn [bind]; try discriminate.
  - unfold isolated_outcomes, isolated_children. rewrite !nth_error_map.
    assert (En : nth_error (combine cs (map rows os)) i = option_map (fun '(c, g) => (c, rows g)) (nth_error (combine cs os) i)).
    { clear. revert os i. induction cs as [|c cs IH]; intros [|o os] [|i]; cbn; auto. }
    rewrite En. destruct (nth_error (combine cs os) i) as [[c g]|] eqn:Eg; cbn; [|discriminate]. intros [= <-].
    eexists. split; [reflexivity|]. cbn. apply nth_error_In, in_combine_r in Eg. specialize (Hos g Eg (task_index cctx) q).
    unfold rows. destruct (g (task_index cctx) q); [|congruence]. cbn. now rewrite app_nil_r.
  - intros [= <-]. exists []. auto.
Qed.

Theorem undisturbed (t : tree) : forall remote n f, delivers_networked remote t n f ->
  runs_with_failures remote t n (fun i p => Some (f i p)).
Proof.
  assert (Hb : forall b (part : partitioning row) tasks P producers (g : nat -> nat -> list row) n f, net_delivers budget capacity bad b part tasks P producers n f ->
    boundary_outcomes budget capacity bad b part tasks P producers (fun i p => Some (g i p)) n (fun i p => Some (f i p))).
  { intros b part tasks P producers g n f H i Hi. destruct (H i Hi) as (h & Hh & Hr). exists h. split; [exact Hh|]. split; [discriminate|].
    intros p l Hp [= <-]. now apply Hr. }
  induction t as [k cs IH|w m cs IH|b part q num tasks i IH IH2] using tree_ind2; intros remote n f Hr.
  - destruct Hr as (fs & F & Hd). exists (map (fun f i p => Some (f i p)) fs). split; [|split].
    + apply Forall2_map_l in F. apply Forall2_nth in F as [L F]. apply Forall2_nth. rewrite !map_length. split; [exact L|].
      intros j R g HR Hg. rewrite nth_error_map in HR, Hg. destruct (nth_error cs j) as [c|] eqn:Ec; [|discriminate].
      destruct (nth_error fs j) as [g0|] eqn:Eg; [|discriminate]. injection HR as <-. injection Hg as <-.
      apply IH; [eapply nth_error_In; eauto|]. exact (F j c g0 Ec Eg).
    + intros i Hi _. apply Forall2_nth. apply Forall2_len in F. rewrite !map_length in *. split; [exact F|].
      intros j P g _ Hg. rewrite nth_error_map in Hg. destruct (nth_error fs j); [|discriminate]. injection Hg as <-. discriminate.
    + intros _. rewrite map_map. unfold rows. rewrite map_id. exact Hd.
  - destruct Hr as (fs & F & Hd). exists (map (fun f i p => Some (f i p)) fs). split.
    + apply (combined_Forall2 (delivers_networked remote) (fun R g => R g) cs) in F as [L F]; [|apply map_task_counts_length].
      apply (combined_Forall2 (runs_with_failures remote) (fun R g => R g) cs); [apply map_task_counts_length|].
      rewrite map_length. split; [exact L|]. intros j c g Hc Hg. rewrite nth_error_map in Hg.
      destruct (nth_error fs j) as [g0|] eqn:Eg; [|discriminate]. injection Hg as <-. apply IH; [eapply nth_error_In; eauto|now apply F].
    + intros i p Hi Hp. specialize (Hd i p Hi Hp).
      rewrite <- (map_id fs) in Hd. change (map (fun x => x) fs) with (map (fun f : nat -> nat -> list row => rows (fun i p => Some (f i p))) fs) in Hd.
      rewrite <- map_map in Hd. apply isolated_some in Hd; [|intros g Hg; apply in_map_iff in Hg as (f' & <- & _); discriminate].
      destruct Hd as (l & El & Ej). exists l. auto.
  - destruct i as [[l|p|m|spm fetch| |j c hl hr na|oo] cs|w m cs|b' part' q' num' tasks' i].
    2, 3: destruct cs as [|c [|c' cs]].
    all: destruct Hr as (g & Hg & Hn); exists (fun i p => Some (g i p)); split; [|exact (Hb _ _ _ _ _ g _ _ Hn)].
    all: first [exact (IH _ _ _ Hg)|exact (IH2 _ _ _ eq_refl (or_introl eq_refl) _ _ _ Hg)].
Qed.

(** What a plan that delivered rows has read. *)
Theorem delivered_readable (t : tree) : forall remote n f, delivers_networked remote t n f -> readable remote t n.
Proof.
  induction t as [k cs IH|w m cs IH|b part q num tasks i IH IH2] using tree_ind2; intros remote n f Hr.
  - destruct Hr as (fs & F & Hd). cbn [readable]. split.
    + destruct k as [l| | | | | |]; try exact Logic.I. cbn in Hd. destruct fs; [|destruct Hd]. intros i p Hi Hp. exists (f i p). now apply Hd.
    + apply Forall_map, Forall_forall. intros c Hin. apply In_nth_error in Hin as (j & Hj). apply Forall2_map_l in F.
      apply Forall2_nth in F as [L F]. destruct (nth_error fs j) as [g|] eqn:Eg;
        [|apply nth_error_None in Eg; assert (j < List.length cs) by (apply nth_error_Some; congruence); lia].
      eapply IH; [eapply nth_error_In; eauto|exact (F j c g Hj Eg)].
  - destruct Hr as (fs & F & Hd). cbn [readable].
    apply (combined_Forall2 (delivers_networked remote) (fun R g => R g) cs) in F as [L F]; [|apply map_task_counts_length].
    apply combined_nth; [apply map_task_counts_length|]. intros i c Hc.
    destruct (nth_error fs i) as [g|] eqn:Eg; [|apply nth_error_None in Eg; assert (i < List.length cs) by (apply nth_error_Some; congruence); lia].
    eapply IH; [eapply nth_error_In; eauto|exact (F i c g Hc Eg)].
  - destruct i as [[l|p|m|spm fetch| |j c hl hr na|oo] cs|w m cs|b' part' q' num' tasks' i].
    2, 3: destruct cs as [|c [|c' cs]].
    all: destruct Hr as (g & Hg & Hn); try exact (IH _ _ _ Hg).
    all: pose proof (IH2 _ _ _ eq_refl (or_introl eq_refl) _ _ _ Hg) as Hc; split; [exact Logic.I|repeat constructor; exact Hc].
Qed.
End Plans.
