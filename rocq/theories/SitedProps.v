(** Property C100: plans whose network boundaries were placed by the user. *)
From Verif Require Import Base NetModel NetSpec CiuModel EventsModel EventsSpec EventsProps JoinModel JoinSpec PlannerModel
  PlannerSpec PlannerProofs ExecModel ExecSpec ExecProofs ExecOps ExecEnd SitedModel SitedSpec SitedProofs.

Section Props.
Context {row : Type}.
Notation tree := (tree row).
Notation table := (nat -> nat -> list row).
Variable cfg : settings row.

(** C100. The planner's result for a plan in which everyone gets an input they can work with ([sited])
    has the rows of the plan without boundaries on one node. A client that reads a plan of one partition
    gets them. (Task counts are those of the plan; with [dynamic_task_count] such plans do not run, C61.) *)
Theorem C100_user_placed_same_rows t D r :
  sited cfg 1 t (@Permutation row) D -> has_net t = true ->
  create_distributed_plan cfg (TPlan t) = Ok r ->
  exists d, body r = Some d /\ tparts d = tparts t /\
    forall f g, runs false d 1 f -> runs false (without_boundaries t) 1 g ->
      Permutation (all_rows d 1 f) (all_rows (without_boundaries t) 1 g) /\
      (tparts t = 1 -> exists rows, client_reads r f = Ok rows /\
         Permutation rows (all_rows (without_boundaries t) 1 g)).
Proof.
  intros Hs Hnet H. cbn [create_distributed_plan] in H. unfold distribute in H. rewrite Hnet in H.
  apply bind_inv in H as (t' & Hsc & H). apply bind_inv in H as ([d id] & Hp & H). cbn [fst] in H.
  assert (Hr : ready cfg 1 t d) by (exists t', 1, id; auto).
  pose proof (sited_tparts cfg 1 t _ _ Hs d Hr) as Htp.
  assert (Hrows : forall f g, runs false d 1 f -> runs false (without_boundaries t) 1 g ->
    Permutation (all_rows d 1 f) (all_rows (without_boundaries t) 1 g)).
  { intros f g Rf Rg. rewrite (plain_rows cfg 1 t D g Hs Rg).
    exact (proj1 (sited_sound cfg 1 t _ _ Hs d false f Hr (le_n 1) (fun _ => eq_refl) Rf)). }
  exists d. destruct (negb (has_net d)).
  - injection H as <-. split; [reflexivity|]. split; [exact Htp|]. intros f g Rf Rg. split; [auto|]. intros _.
    exists (all_rows d 1 f). split; [reflexivity|auto].
  - rewrite (push_fetch_id d (sited_no_fetch cfg 1 t _ _ Hs d Hr)) in H. cbn [bind] in H. injection H as <-.
    split; [reflexivity|]. split; [exact Htp|]. intros f g Rf Rg. split; [auto|]. intros H1.
    exists (f 0 0). split; [cbn [client_reads]; rewrite Htp, H1; cbn; now rewrite app_nil_r|].
    rewrite <- (Hrows f g Rf Rg). unfold all_rows, consumer_rows. rewrite Htp, H1. cbn. now rewrite !app_nil_r.
Qed.

(** Whatever number of partitions the plan has: a client that reads all of them gets these rows or, if
    boundaries were left and there is more than one partition, an error; never others. *)
Theorem C100_rows_or_an_error t D r :
  sited cfg 1 t (@Permutation row) D -> has_net t = true ->
  create_distributed_plan cfg (TPlan t) = Ok r ->
  exists d, body r = Some d /\
    forall f g, runs false d 1 f -> runs false (without_boundaries t) 1 g ->
      (forall rows, client_reads r f = Ok rows -> Permutation rows (all_rows (without_boundaries t) 1 g)) /\
      (r = TDistributed d -> 2 <= tparts t -> exists e, client_reads r f = Err e).
Proof.
  intros Hs Hnet H. destruct (C100_user_placed_same_rows t D r Hs Hnet H) as (d & Hb & Htp & G).
  exists d. split; [exact Hb|]. intros f g Rf Rg. destruct (G f g Rf Rg) as [G1 G2]. rewrite <- Htp in *. clear G Hs Hnet H Htp.
  destruct r as [d'|d'| |]; try discriminate; injection Hb as ->.
  - split; [|discriminate]. intros rows Hrows. injection Hrows as <-. exact G1.
  - assert (Hmany : 2 <= tparts d -> exists e, client_reads (TDistributed d) f = Err e).
    { intros H2. cbn [client_reads]. destruct (tparts d) as [|[|k]]; [lia|lia|]. cbn. eauto. }
    split; [|intros _; exact Hmany]. intros rows Hrows. destruct (tparts d) as [|[|k]] eqn:Ek.
    + cbn [client_reads] in Hrows. rewrite Ek in Hrows. cbn in Hrows. injection Hrows as <-. rewrite <- G1.
      unfold all_rows, consumer_rows. rewrite Ek. reflexivity.
    + destruct (G2 eq_refl) as (rows' & E & HP). rewrite E in Hrows. injection Hrows as <-. exact HP.
    + destruct Hmany as (e & He); [lia|]. rewrite He in Hrows. discriminate.
Qed.

(** What the constructors make of plans that can be placed: a shuffle spreads the rows by their hash, for a
    consuming stage of any number of tasks; a gathering must be told the number of tasks of the
    consuming stage; a broadcast feeds the build side of a join. *)
Theorem C100_constructors_qualify :
  (forall n tasks h k c E D t, 0 < k -> 1 <= tasks -> sited cfg tasks c E D ->
     network_shuffle (Node (KRepart (HashP h k)) [c]) tasks = Ok t -> sited cfg n t E (Hashed h k)) /\
  (forall n tasks c E D t, 1 <= tasks -> sited cfg tasks c E D -> coalescable c ->
     network_coalesce c tasks n = Ok t -> sited cfg n t E Anyhow) /\
  (forall n tasks x Dx r Dr j c hl hr na spm t, 1 <= tasks ->
     sited cfg tasks x (@Permutation row) Dx -> sited cfg n r (@Permutation row) Dr ->
     spreads j = true -> collects j = true ->
     network_broadcast (Node (KBcast 1) [x]) tasks = Ok t ->
     sited cfg n (Node (KJoin j c hl hr na) [Node (KCoalesce spm None) [t]; r]) (@Permutation row) Anyhow).
Proof.
  split; [|split].
  - intros n tasks h k c E D t Hk Ht Hs H. injection H as <-. econstructor; eauto.
  - intros n tasks c E D t Ht Hs Hc H. unfold network_coalesce in H. destruct (n =? 0); [discriminate|].
    apply bind_inv in H as (p & Hp & H). injection H as <-.
    assert (Hu : tpartitioning c = UnknownP (tparts c)) by (destruct c as [[]| |]; cbn in Hc |- *; tauto || reflexivity).
    rewrite Hu in Hp. injection Hp as <-. eapply si_gather; eauto.
  - intros n tasks x Dx r Dr j c hl hr na spm t Ht Hx Hr Hsp Hj H. cbn in H. injection H as <-.
    eapply si_collect_broadcast; eauto; cbn; lia.
Qed.

(** The progressive partial reduction of the documentation (docs/source/advanced/05-custom-distributed-plans.md,
    examples/custom_distributed_partial_reduction_tree.rs), for any number [N] of leaf tasks and [M] of
    intermediate tasks: it can be built and has the groups of its input. *)
Theorem C100_partial_reduction_tree_qualifies (K S_ : Type) (keq : forall a b : K, {a = b} + {a <> b})
    (key : row -> K) (val : row -> S_) mk zero plus (state out : row -> row) r1 r2 r3 l N M :
  grouping key val mk zero plus -> site_scan cfg N (LScan l) -> 1 <= N -> 1 <= M ->
  let a := grouped_agg keq key val mk zero plus state out in
  exists nc1 nc2,
    network_coalesce (Node (KOp (OAgg APartial r1 a)) [Node (KLeaf (LScan l)) []]) N M = Ok nc1 /\
    network_coalesce (Node (KOp (OAgg APartialReduce r2 a)) [Node (KCoalesce None None) [nc1]]) M 1 = Ok nc2 /\
    let plan := Node (KOp (OAgg AFinal r3 a)) [Node (KCoalesce None None) [nc2]] in
    sited cfg 1 plan (@Permutation row) Anyhow /\ has_net plan = true /\ tparts plan = 1 /\
    Permutation (meaning plan) (agg_single a (scan_rows (LScan l))).
Proof.
  intros Hg Hl HN HM a. pose proof (same_totals_additive keq key val mk zero plus Hg) as HA.
  destruct (network_coalesce (Node (KOp (OAgg APartial r1 a)) [Node (KLeaf (LScan l)) []]) N M) as [nc1| |] eqn:E1;
    [|unfold network_coalesce in E1; destruct M; [lia|discriminate]..].
  exists nc1.
  destruct (network_coalesce (Node (KOp (OAgg APartialReduce r2 a)) [Node (KCoalesce None None) [nc1]]) M 1) as [nc2| |] eqn:E2;
    [|discriminate..].
  exists nc2. split; [reflexivity|]. split; [reflexivity|]. intros plan.
  destruct C100_constructors_qualify as (_ & Hco & _).
  assert (S1 : sited cfg M nc1 (same_totals keq key val zero plus) Anyhow).
  { refine (Hco M N _ _ Anyhow _ HN _ _ E1); [|exact Logic.I].
    eapply si_distributive with (D' := Anyhow); [apply si_leaf, Hl|reflexivity|exact HA| |exact Logic.I].
    cbn. now apply partial_distributive. }
  assert (S2 : sited cfg 1 nc2 (same_totals keq key val zero plus) Anyhow).
  { refine (Hco 1 M _ _ Anyhow _ HM _ _ E2); [|exact Logic.I].
    eapply si_distributive with (D' := Anyhow); [eapply si_coalesce, S1|reflexivity|exact HA| |exact Logic.I].
    cbn. split; [|split].
    - intros x y Hxy. apply (add_perm _ HA). now apply (group_respects keq key val mk zero plus).
    - now apply (add_perm _ HA).
    - intros x y. eapply (add_trans _ HA); [now apply group_same|].
      apply (add_app _ HA); apply (add_sym _ HA); now apply group_same. }
  split; [|split; [|split]].
  - eapply si_whole; [eapply si_coalesce, S2|reflexivity|reflexivity|apply perm_additive|].
    intros x y Hxy. cbn. apply Permutation_map. now apply (group_respects keq key val mk zero plus).
  - unfold network_coalesce in E2. cbn in E2. injection E2 as <-. reflexivity.
  - reflexivity.
  - unfold network_coalesce in E1, E2. destruct M as [|M]; [lia|]. cbn in E1. injection E1 as <-. cbn in E2. injection E2 as <-.
    cbn. rewrite !app_nil_r. apply Permutation_map. apply (group_respects keq key val mk zero plus).
    eapply (add_trans _ HA); now apply group_same.
Qed.

(** File scans split by the built-in handler can be placed, where the tasks get as many partitions as the
    scan has. *)
Theorem C100_file_scans_qualify n partitioner schema (groups : list (list (list row))) P preset :
  (forall n gs, partitioner n groups = Some gs -> Permutation (group_rows gs) (group_rows groups)) ->
  (forall s, scale_up_leaf cfg (Node (KLeaf (LScan (scan schema groups))) []) s =
    Some (match file_scan_scale_up partitioner schema groups P preset s with
          | Ok d => Ok (Node (KLeaf (LTasks d)) [])
          | Err e => Err e
          | Panic e => Panic e
          end)) ->
  (forall d, file_scan_scale_up partitioner schema groups P preset n = Ok d -> dle_parts d = List.length groups) ->
  site_scan cfg n (LScan (scan schema groups)).
Proof. apply file_scan_site. Qed.

End Props.
Print Assumptions C100_user_placed_same_rows.
Print Assumptions C100_rows_or_an_error.
Print Assumptions C100_constructors_qualify.
Print Assumptions C100_partial_reduction_tree_qualifies.
Print Assumptions C100_file_scans_qualify.

(** The example of the repository: sums by key over files, in three leaf tasks and two intermediate tasks. *)
From Verif Require Import ExecProps.
Module Ex.
Import ExecProps.Ex.
Lemma site n k : 1 <= n -> site_scan (cfg false) n (LScan (scan k (files k))).
Proof.
  intros Hn. apply (C100_file_scans_qualify (cfg false) n (fun _ _ => None) k (files k) 2 true).
  - discriminate.
  - intros s. reflexivity.
  - intros d E. destruct (C22_preset_scan row (fun _ _ => None) k (files k) 2 n) as (d' & E' & Hl & Hv & _); [lia|lia|].
    rewrite E in E'. injection E' as <-. destruct (dle_variants d) as [|v vs]; [cbn in Hl; lia|].
    exact (proj2 (Hv v (or_introl eq_refl))).
Qed.
Definition ok (r : Res (tree row)) : tree row := match r with Ok t => t | _ => Node KUnion [] end.
Definition leafs : tree row := Node (KOp (OAgg APartial AnyDistribution sum)) [file_scan 5].
Definition mids : tree row :=
  Node (KOp (OAgg APartialReduce AnyDistribution sum)) [Node (KCoalesce None None) [ok (network_coalesce leafs 3 2)]].
Definition reduction : tree row :=
  Node (KOp (OAgg AFinal SinglePartition sum)) [Node (KCoalesce None None) [ok (network_coalesce mids 2 1)]].
Definition planned : tree row :=
  match create_distributed_plan (cfg false) (TPlan reduction) with Ok (TDistributed d) => d | _ => Node KUnion [] end.
Example reduction_qualifies :
  sited (cfg false) 1 reduction (@Permutation row) Anyhow /\ has_net reduction = true /\
  create_distributed_plan (cfg false) (TPlan reduction) = Ok (TDistributed planned) /\ stage_tasks planned = [3; 2] /\
  tparts planned = 1.
Proof.
  destruct (C100_partial_reduction_tree_qualifies (cfg false) nat nat Nat.eq_dec fst snd Datatypes.pair 0 Nat.add
    (fun r => r) (fun r => r) AnyDistribution AnyDistribution SinglePartition (scan 5 (files 5)) 3 2 sums (site 3 5 ltac:(lia)))
    as (nc1 & nc2 & E1 & E2 & H & _); [lia|lia|].
  split. { cbn in E1. injection E1 as <-. cbn in E2. injection E2 as <-. exact H. }
  split; [reflexivity|]. vm_compute. repeat split.
Qed.
End Ex.

(** Handlers and plans for the refutations. Rows are numbers. *)
Module Bad.
Definition with_handler (up : leaf nat -> nat -> dle nat) : settings nat :=
  mkSettings true true false false 0 (f64_of_nat 1) 4 (Ok 3) (fun _ => Ok None)
    (fun t n => match t with Node (KLeaf (LScan l)) [] => Some (Ok (Node (KLeaf (LTasks (up l n))) [])) | _ => None end)
    (fun _ => EEqual) 77.
Definition table_scan (parts : list (list nat)) : leaf nat := scan 0 (map (fun rows => [rows]) parts).
Definition on (l : leaf nat) : tree nat := Node (KLeaf (LScan l)) [].
Definition ok (r : Res (tree nat)) : tree nat := match r with Ok t => t | _ => Node KUnion [] end.
Definition planned (cfg : settings nat) (t : tree nat) : tree nat :=
  match create_distributed_plan cfg (TPlan t) with Ok (TDistributed d) => d | _ => Node KUnion [] end.

(** A scan of one partition and its two variants, of two partitions each. *)
Definition one_part_scan : leaf nat := table_scan [[1; 2; 3; 4]].
Definition wider (l : leaf nat) (n : nat) : dle nat :=
  mkDle l 2 [table_scan [[1]; [2]]; table_scan [[3]; [4]]].
Definition gathered : tree nat := Node (KCoalesce None None) [ok (network_coalesce (on one_part_scan) 2 1)].

(** Scans whose first task reads everything. *)
Definition first_reads (l : leaf nat) (n : nat) : dle nat :=
  mkDle l (lf_parts l) (l :: repeat (mkLeaf (lf_parts l) (lf_schema l) (fun _ => Ok [])) (n - 1)).
Definition two_parts : tree nat := ok (network_coalesce (on one_part_scan) 2 1).

(** A cross join whose build side is broadcast to the two tasks of its stage. *)
Definition build_side : leaf nat := table_scan [[10]].
Definition probe_side : leaf nat := table_scan [[1; 2]].
Definition pairs : condition nat := mkCond (fun _ _ => true)
  (fun a b => match a, b with Some a, Some b => a + b | _, _ => 0 end) (fun a _ => a).
Definition cross_join (m : nat) : tree nat :=
  Node (KCoalesce None None) [ok (network_coalesce
    (Node (KJoin Cross pairs (fun _ => 0) (fun _ => 0) (fun l _ => l))
      [Node (KCoalesce None None) [ok (network_broadcast (Node (KBcast m) [on build_side]) 3)]; on probe_side]) 2 1)].
End Bad.

(** C100 fails where leaf variants have another partition count than the leaf. The documentation of
    DistributedLeafExec allows that, and the guide for custom plans says that they "may adjust their partition
    counts independently of the original plan". A gathering boundary keeps the count it was built with, and
    the partitions beyond are not read: rows are lost without an error. *)
Theorem C100_variant_partitions_refuted :
  exists (cfg : settings nat) (l : leaf nat) (v : dle nat) (nc t d : tree nat) f g,
    scale_up_leaf cfg (Node (KLeaf (LScan l)) []) 2 = Some (Ok (Node (KLeaf (LTasks v)) [])) /\
    dle_try_new l (dle_variants v) = Ok v /\ List.length (dle_variants v) = 2 /\
    (exists rows, mapM leaf_rows (dle_variants v) = Ok rows /\ List.concat rows = scan_rows (LScan l)) /\
    network_coalesce (Node (KLeaf (LScan l)) []) 2 1 = Ok nc /\ t = Node (KCoalesce None None) [nc] /\
    create_distributed_plan cfg (TPlan t) = Ok (TDistributed d) /\
    runs false d 1 f /\ runs false (without_boundaries t) 1 g /\
    all_rows (without_boundaries t) 1 g = [1; 2; 3; 4] /\ client_reads (TDistributed d) f = Ok [1; 3].
Proof.
  exists (Bad.with_handler Bad.wider), Bad.one_part_scan, (Bad.wider Bad.one_part_scan 2),
    (Bad.ok (network_coalesce (Bad.on Bad.one_part_scan) 2 1)), Bad.gathered,
    (Bad.planned (Bad.with_handler Bad.wider) Bad.gathered), (fun _ _ => [1; 3]), (fun _ _ => [1; 2; 3; 4]).
  split; [reflexivity|]. split; [reflexivity|]. split; [reflexivity|].
  split. { eexists. split; reflexivity. }
  split; [reflexivity|]. split; [reflexivity|]. split; [vm_compute; reflexivity|].
  split.
  { exists [fun _ p => if p =? 0 then [1] else [3]]. split.
    - constructor; [|constructor]. 
      exists (fun t p => nth p (nth t [[[1]; [2]]; [[3]; [4]]] []) []). split.
      + exists []. split; [constructor|]. intros i p Hi Hp. cbn in Hi, Hp. 
        destruct i as [|[|i]]; [| |lia]; (destruct p as [|[|p]]; [| |lia]); eexists; split; reflexivity.
      + intros c j Hc Hj. assert (c = 0) as -> by lia. cbn in Hj.
        destruct j as [|[|j]]; [exists [[1]]|exists [[3]]|lia]; (split; [vm_compute; reflexivity|]);
          [exact (merge_concat [[1]])|exact (merge_concat [[3]])].
    - split; [cbn; lia|]. intros i Hi. exists [1; 3]. split; reflexivity. }
  split.
  { exists [fun _ _ => [1; 2; 3; 4]]. split.
    - constructor; [|constructor]. exists []. split; [constructor|]. intros i p Hi Hp. cbn in Hp. assert (p = 0) as -> by lia. reflexivity.
    - split; [cbn; lia|]. intros i Hi. exists [1; 2; 3; 4]. split; reflexivity. }
  split; reflexivity.
Qed.
Print Assumptions C100_variant_partitions_refuted.

(** C100 fails for a plan whose root has several partitions, although a plan without boundaries may: the
    planner, which merges the partitions of the plans that it distributes itself, leaves such a plan as it
    is, and the coordinator refuses to execute the second partition. *)
Theorem C100_several_partitions_refuted :
  exists (cfg : settings nat) (t d : tree nat) f,
    sited cfg 1 t (@Permutation nat) Anyhow /\ has_net t = true /\
    create_distributed_plan cfg (TPlan t) = Ok (TDistributed d) /\ tparts d = 2 /\
    runs false d 1 f /\ Permutation (all_rows d 1 f) (meaning t) /\ meaning t = [1; 2; 3; 4] /\
    client_reads (TDistributed d) f = Err "DistributedExec must only have 1 partition".
Proof.
  exists (Bad.with_handler Bad.first_reads), Bad.two_parts, (Bad.planned (Bad.with_handler Bad.first_reads) Bad.two_parts),
    (fun _ p => if p =? 0 then [1; 2; 3; 4] else []).
  split.
  { destruct (C100_constructors_qualify (Bad.with_handler Bad.first_reads)) as (_ & H & _).
    refine (H 1 2 (Bad.on Bad.one_part_scan) _ Anyhow _ _ _ _ eq_refl); [lia| |exact Logic.I].
    apply si_leaf. apply variants_site. cbn [Bad.with_handler scale_up_leaf].
    split; [reflexivity|]. split; [reflexivity|]. split; [reflexivity|]. split.
    - intros v [<-|[<-|[]]]; reflexivity.
    - eexists. split; [vm_compute; reflexivity|]. reflexivity. }
  split; [reflexivity|]. split; [vm_compute; reflexivity|]. split; [vm_compute; reflexivity|].
  split.
  { exists (fun t _ => if t =? 0 then [1; 2; 3; 4] else []). split.
    - exists []. split; [constructor|]. intros i p Hi Hp. cbn in Hi, Hp. assert (p = 0) as -> by lia.
      destruct i as [|[|i]]; [| |lia]; eexists; split; reflexivity.
    - intros c j Hc Hj. assert (c = 0) as -> by lia. cbn in Hj.
      destruct j as [|[|j]]; [exists [[1; 2; 3; 4]]|exists [[]]|lia]; (split; [vm_compute; reflexivity|]);
        [exact (merge_concat [[1; 2; 3; 4]])|exact (merge_concat [[]])]. }
  split; [reflexivity|]. split; reflexivity.
Qed.
Print Assumptions C100_several_partitions_refuted.

(** C100 fails for a BroadcastExec that is made for the two tasks that will read it, as its documentation
    ("M is the number of consumer tasks") and its constructor suggest: the boundary multiplies the
    partitions again, and every task reads every row twice. *)
Theorem C100_broadcast_for_its_readers_refuted :
  exists (cfg : settings nat) (t d : tree nat) f g,
    t = Bad.cross_join 2 /\ create_distributed_plan cfg (TPlan t) = Ok (TDistributed d) /\
    stage_tasks d = [3; 2] /\
    runs false d 1 f /\ runs false (without_boundaries t) 1 g /\
    all_rows (without_boundaries t) 1 g = [11; 12] /\
    client_reads (TDistributed d) f = Ok [11; 12; 11; 12].
Proof.
  exists (Bad.with_handler Bad.first_reads), (Bad.cross_join 2),
    (Bad.planned (Bad.with_handler Bad.first_reads) (Bad.cross_join 2)), (fun _ _ => [11; 12; 11; 12]), (fun _ _ => [11; 12]).
  split; [reflexivity|]. split; [vm_compute; reflexivity|]. split; [vm_compute; reflexivity|].
  split.
  { exists [fun _ p => if p =? 0 then [11; 12; 11; 12] else []]. split.
    - constructor; [|constructor].
      exists (fun t _ => if t =? 0 then [11; 12; 11; 12] else []). split.
      + exists [fun _ _ => [10; 10]; fun t _ => if t =? 0 then [1; 2] else []]. split.
        * constructor; [|constructor; [|constructor]].
          { exists [fun _ _ => [10]]. split.
            - constructor; [|constructor].
              exists (fun t _ => if t =? 0 then [10] else []). split.
              + exists []. split; [constructor|]. intros i p Hi Hp. cbn in Hi, Hp. assert (p = 0) as -> by lia.
                destruct i as [|[|[|i]]]; [| | |lia]; eexists; split; reflexivity.
              + intros c j Hc Hj. cbn in Hj.
                assert (exists ss, boundary_execute BBroadcast (UnknownP 2) 3
                  (fun t => SBcast 4 (SOther 1 (fun _ => if t =? 0 then [10] else []))) (mkCtx c 2) j = Ok ss /\ ss = [[10]; []; []]) as (ss & E & ->).
                { destruct c as [|[|c]]; [| |lia]; (destruct j as [|[|j]]; [| |lia]); eexists; split; vm_compute; reflexivity. }
                exists [[10]; []; []]. split; [exact E|exact (merge_concat [[10]; []; []])].
            - split; [cbn; lia|]. intros i Hi. exists [10; 10]. split; reflexivity. }
          { exists []. split; [constructor|]. intros i p Hi Hp. cbn in Hi, Hp. assert (p = 0) as -> by lia.
            destruct i as [|[|i]]; [| |lia]; eexists; split; reflexivity. }
        * intros i Hi. split; [reflexivity|]. intros p Hp. cbn in Hp. assert (p = 0) as -> by lia.
          destruct i as [|[|i]]; [| |lia]; cbn; [|constructor]. apply Permutation_refl'. reflexivity.
      + intros c j Hc Hj. assert (c = 0) as -> by lia. cbn in Hj.
        destruct j as [|[|j]]; [exists [[11; 12; 11; 12]]|exists [[]]|lia]; (split; [vm_compute; reflexivity|]);
          [exact (merge_concat [[11; 12; 11; 12]])|exact (merge_concat [[]])].
    - split; [cbn; lia|]. intros i Hi. eexists. split; reflexivity. }
  split.
  { exists [fun _ _ => [11; 12]]. split.
    - constructor; [|constructor]. exists [fun _ _ => [10]; fun _ _ => [1; 2]]. split.
      + constructor; [|constructor; [|constructor]].
        * exists [fun _ _ => [10]]. split.
          -- constructor; [|constructor]. exists []. split; [constructor|]. intros i p Hi Hp. cbn in Hp. assert (p = 0) as -> by lia. reflexivity.
          -- split; [cbn; lia|]. intros i Hi. exists [10]. split; reflexivity.
        * exists []. split; [constructor|]. intros i p Hi Hp. cbn in Hp. assert (p = 0) as -> by lia. reflexivity.
      + intros i Hi. split; [reflexivity|]. intros p Hp. cbn. reflexivity.
    - split; [cbn; lia|]. intros i Hi. exists [11; 12]. split; reflexivity. }
  split; reflexivity.
Qed.
Print Assumptions C100_broadcast_for_its_readers_refuted.
