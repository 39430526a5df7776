(** Property C88: operators that rely on the order of their input get it in the distributed plan, and the
    distributed plan returns its rows in the order that the original plan promises. *)
From Verif Require Import Base NetModel NetSpec CiuModel EventsModel EventsSpec JoinModel JoinSpec PlannerModel
  PlannerSpec PlannerProofs ExecModel ExecSpec ExecProofs ExecPasses ExecEnd EventsProps ExecProps
  OrderModel OrderSpec OrderProofs OrderEnd.
From Coq Require Import Sorting.Sorted.

Section Props.
Context {row : Type}.
Notation tree := (tree row).
Notation table := (nat -> nat -> list row).
Variable acts : op row -> list row -> list row -> Prop.
Variable needs : op row -> option (row -> row -> Prop).

(** C88. A plan in which every operator is promised the order it needs, as DataFusion's planner makes
    them: any execution has the rows that [runs] describes, and every partition is in the promised order.
    This holds of plans with and without network boundaries, for any number of tasks. *)
Theorem C88_promised_orders_hold single (t : tree) remote n (f : table) :
  serves acts needs single t -> delivers acts remote t n f ->
  runs remote t n f /\
  forall le, promises acts single t le -> forall i p, i < n -> p < tparts t -> StronglySorted le (f i p).
Proof.
  intros Hs Hd. split; [eapply delivers_runs; eauto|]. intros le Hle. eapply promises_kept; eauto.
Qed.

Variable cfg : settings row.
Variable most : nat.
Hypothesis Hmost : max_tasks cfg = Ok most.
Hypothesis Hstatic : dynamic_task_count cfg = false.
Hypothesis Htarget : 0 < target_partitions cfg.
Hypothesis Hsane : sane_handlers cfg.
Hypothesis Hleaf : leaf_handlers cfg.

(** C88. [t] is a plan as in C48 in which every operator gets its input in the order it needs, without
    relying on repartitions to keep an order, and whose scans are split into sorted parts. Then the
    distributed plan, executed in any interleaving, returns the rows of the original plan, and returns
    them in every order that the original plan promises.

    Partial: the original plan may rely on a repartition of a single partition to keep the order of its
    input, as DataFusion's plans may. For these the claim fails, see
    [C88_order_through_a_shuffle_refuted]. *)
Theorem C88_distributed_plan_keeps_orders_partial t D r :
  typed (partial_reduce cfg) t (@Permutation row) D -> ordinary t -> fed t -> spreadable t ->
  is_round_robin t = false -> every_scan (faithful_scan cfg most) t -> fits most t ->
  serves acts needs false t -> every_scan (order_kept cfg) t ->
  create_distributed_plan cfg (TPlan t) = Ok r ->
  match r with
  | TDistributed d => forall f, delivers acts false d 1 f ->
      (forall g, delivers acts false t 1 g -> Permutation (all_rows d 1 f) (all_rows t 1 g)) /\
      (forall le, one_part t -> promises acts false t le ->
        forall p, p < tparts d -> StronglySorted le (f 0 p))
  | r => r = TPlan t
  end.
Proof using Hmost Hstatic Htarget Hsane Hleaf.
  intros Ht Ho Hf Hsp Hr Hs Hfits Hserves Hkept H.
  pose proof (C48_distributed_plan_same_rows cfg most Hmost Hstatic Htarget Hsane Hleaf t D r Ht Ho Hf Hsp Hr Hs Hfits H) as G.
  destruct r as [|d| |]; try exact G.
  destruct (distributed_serves acts needs cfg most t d D Ht Ho Hf Hr Htarget Hstatic Hmost Hsane Hleaf Hfits Hserves Hkept H)
    as [Sd Pd].
  intros f Df. split.
  - intros g Dg. apply G; [exact (delivers_runs acts needs false d Sd false 1 f Df)|exact (delivers_runs acts needs false t Hserves false 1 g Dg)].
  - intros le Hone Hle p Hp. exact (promises_kept acts false d le (Pd le Hone Hle) false 1 f Df 0 p ltac:(lia) Hp).
Qed.

(** The same for plans with operators that need their whole input, where the planner does not spread
    them (see [C48_with_single_partition_operators]). *)
Theorem C88_with_single_partition_operators_partial t p D d :
  typed (partial_reduce cfg) t (@Permutation row) D -> ordinary t -> fed t ->
  is_round_robin t = false -> every_scan (faithful_scan cfg most) t -> fits most t ->
  before_injection cfg t = Ok p -> ops_placed cfg most (in_head p) p ->
  serves acts needs false t -> every_scan (order_kept cfg) t ->
  create_distributed_plan cfg (TPlan t) = Ok (TDistributed d) ->
  forall f, delivers acts false d 1 f ->
    (forall g, delivers acts false t 1 g -> Permutation (all_rows d 1 f) (all_rows t 1 g)) /\
    (forall le, one_part t -> promises acts false t le ->
      forall p, p < tparts d -> StronglySorted le (f 0 p)).
Proof using Hmost Hstatic Htarget Hsane Hleaf.
  intros Ht Ho Hf Hr Hs Hfits Hp Hplaced Hserves Hkept H f Df.
  destruct (distributed_serves acts needs cfg most t d D Ht Ho Hf Hr Htarget Hstatic Hmost Hsane Hleaf Hfits Hserves Hkept H)
    as [Sd Pd].
  split.
  - intros g Dg. eapply (C48_with_single_partition_operators cfg most Hmost Hstatic Htarget Hsane Hleaf t p D d); eauto;
      [exact (delivers_runs acts needs false d Sd false 1 f Df)|exact (delivers_runs acts needs false t Hserves false 1 g Dg)].
  - intros le Hone Hle q Hq. exact (promises_kept acts false d le (Pd le Hone Hle) false 1 f Df 0 q ltac:(lia) Hq).
Qed.
End Props.
Print Assumptions C88_promised_orders_hold.
Print Assumptions C88_distributed_plan_keeps_orders_partial.
Print Assumptions C88_with_single_partition_operators_partial.

(** File scans are split into sorted parts by the default handler: if it leaves the split to DataFusion's
    partitioner and this makes every new group of parts of one old group, or if the files are dealt to
    the tasks from a single group. *)
Theorem C88_file_scans_qualify (row : Type) (cfg : settings row) partitioner schema
    (groups : list (list (list row))) P (preset : bool) :
  (forall s, scale_up_leaf cfg (Node (KLeaf (LScan (scan schema groups))) []) s =
    Some (match file_scan_scale_up partitioner schema groups P preset s with
          | Ok d => Ok (Node (KLeaf (LTasks d)) [])
          | Err e => Err e
          | Panic e => Panic e
          end)) ->
  (if preset then List.length groups <= 1
   else forall n gs g, partitioner n groups = Some gs -> In g gs ->
          exists g0, In g0 groups /\ subseq (List.concat g) (List.concat g0)) ->
  order_kept cfg (LScan (scan schema groups)).
Proof.
  intros Hh Hg s l' le Hsc Hl. unfold scaled in Hsc. rewrite Hh in Hsc.
  destruct (file_scan_scale_up _ _ _ _ _ _) as [d| |] eqn:E; try discriminate. injection Hsc as <-.
  assert (Hold : forall g, In g groups -> StronglySorted le (List.concat g)).
  { intros g Hin. apply In_nth_error in Hin as (p & Ep). apply (Hl false (mkCtx 0 1) p). cbn. now rewrite Ep. }
  apply split_groups in E as (rb & Erb & Eo & Hv). apply split_sorted.
  - intros p rows. rewrite Eo. apply (Hl false (mkCtx 0 1)).
  - intros v p rows Hin Ev. destruct (Hv v p rows Hin Ev) as (g & Hin' & ->). destruct preset.
    + destruct groups as [|g0 [|]]; [| |cbn in Hg; lia].
      * pose proof (deal_from _ _ _ Erb g Hin') as Hs. inversion Hs. constructor.
      * pose proof (deal_from _ _ _ Erb g Hin') as Hs. cbn in Hs. rewrite app_nil_r in Hs.
        eapply subseq_sorted; [apply subseq_concat, Hs|]. apply Hold. now left.
    + subst rb. destruct (partitioner (P * s) groups) as [gs|] eqn:Ep; [|auto].
      destruct (Hg _ _ _ Ep Hin') as (g0 & H0 & Hs). eapply subseq_sorted; eauto.
Qed.
Print Assumptions C88_file_scans_qualify.

(** ** A streaming DISTINCT *)

Module Ex.
Fixpoint adjacent (l : list nat) : list nat :=
  match l with
  | x :: (y :: _) as rest => if x =? y then adjacent rest else x :: adjacent rest
  | _ => l
  end.
(** DISTINCT that only compares neighbours and therefore needs a sorted input. *)
Definition distinct : op nat := OLocal (HashPartitioned (fun x => x)) (nodup Nat.eq_dec).
Definition sort : op nat := OSort (fun l => l) None.
Definition acts (o : op nat) (l out : list nat) : Prop :=
  match o with
  | OLocal _ _ => out = adjacent l
  | OSort _ _ => Permutation out l /\ StronglySorted le out
  | _ => out = op_fun o l
  end.
Definition needs (o : op nat) : option (nat -> nat -> Prop) :=
  match o with OLocal _ _ => Some le | _ => None end.

Lemma adjacent_in l x : In x (adjacent l) <-> In x l.
Proof.
  induction l as [|y [|z l] IH]; [reflexivity|reflexivity|]. cbn [adjacent] in *. destruct (Nat.eqb_spec y z).
  - subst. rewrite IH. cbn. tauto.
  - cbn [In] in *. rewrite IH. cbn. tauto.
Qed.
Lemma adjacent_sorted l : StronglySorted le l -> StronglySorted lt (adjacent l).
Proof.
  induction 1 as [|x l Hl IH Hx]; [constructor|]. destruct l as [|y l]; [repeat constructor|].
  cbn [adjacent] in *. destruct (Nat.eqb_spec x y); [exact IH|]. constructor; [exact IH|].
  apply StronglySorted_inv in Hl as [_ Hy]. rewrite Forall_forall in *. intros z Hz.
  assert (In z (y :: l)) as Hz' by now apply adjacent_in. pose proof (Hx y (or_introl eq_refl)).
  destruct Hz' as [<-|Hz']; [lia|]. pose proof (Hy z Hz'). lia.
Qed.
Lemma increasing_nodup l : StronglySorted lt l -> NoDup l.
Proof.
  induction 1 as [|x l Hl IH Hx]; constructor; auto. intros Hin. rewrite Forall_forall in Hx. specialize (Hx x Hin). lia.
Qed.
Lemma distinct_behaves : well_behaved acts needs distinct.
Proof.
  intros l out -> Hs. specialize (Hs le eq_refl). apply NoDup_Permutation.
  - now apply increasing_nodup, adjacent_sorted.
  - apply NoDup_nodup.
  - intros x. rewrite adjacent_in. cbn. now rewrite nodup_In.
Qed.
Lemma distinct_keeps : op_keeps acts distinct le le.
Proof.
  intros l out -> Hs. eapply sorted_weaken; [|apply adjacent_sorted, Hs]. intros; lia.
Qed.
Lemma sort_behaves : well_behaved acts needs sort.
Proof. intros l out [H _] _. cbn. exact H. Qed.
Lemma sort_sorts : op_keeps acts sort (fun _ _ => True) le.
Proof. intros l out [_ H] _. exact H. Qed.

Lemma nodup_perm (l l' : list nat) : Permutation l l' -> Permutation (nodup Nat.eq_dec l) (nodup Nat.eq_dec l').
Proof.
  intros H. apply NoDup_Permutation; try apply NoDup_nodup. intros x. rewrite !nodup_In.
  split; apply Permutation_in; [exact H|now symmetry].
Qed.
Lemma distinct_keyed : keyed (fun x => x) (nodup Nat.eq_dec) (@Permutation nat) (@Permutation nat).
Proof.
  split; [intros a b; apply nodup_perm|]. split; [reflexivity|]. intros a b Hd. induction a as [|x a IH]; [reflexivity|].
  cbn. destruct (in_dec Nat.eq_dec x (a ++ b)) as [H1|H1], (in_dec Nat.eq_dec x a) as [H2|H2].
  - apply IH. firstorder.
  - apply in_app_or in H1 as [H1|H1]; [contradiction|]. exfalso. exact (Hd x x (or_introl eq_refl) H1 eq_refl).
  - exfalso. apply H1. now apply in_or_app; left.
  - cbn. constructor. apply IH. firstorder.
Qed.

(** Two sorted files in one group; either is read by a task of its own. *)
Definition files : list (list (list nat)) := [[[0; 4]; [4; 8]]].
Definition file_scan : tree nat := Node (KLeaf (LScan (scan 5 files))) [].
Definition wanted (t : tree nat) : Res (option annotation) :=
  match t with Node (KLeaf _) _ => Ok (Some (Desired 2)) | _ => Ok None end.
Definition split (t : tree nat) (s : nat) : option (Res (tree nat)) :=
  match t with
  | Node (KLeaf (LScan l)) [] =>
      Some (match file_scan_scale_up (fun _ _ => None) (lf_schema l) files 1 true s with
            | Ok d => Ok (Node (KLeaf (LTasks d)) [])
            | Err e => Err e
            | Panic e => Panic e
            end)
  | _ => None
  end.
Definition cfg : settings nat :=
  mkSettings true true false false 0 (CiuModel.f64_div (f64_of_nat 3) (f64_of_nat 2)) 4 (Ok 2)
    wanted split (fun _ => EEqual) 77.
Lemma sane : sane_handlers cfg.
Proof.
  intros t a E. cbn [cfg desired_task_count] in E. unfold wanted in E.
  destruct t as [[]| |]; injection E; intros; subst; cbn; lia || discriminate.
Qed.
Lemma leaves : leaf_handlers cfg.
Proof.
  intros t n q E. cbn [cfg scale_up_leaf] in E. unfold split in E.
  destruct t as [[[l|]| | | | | |] []| |]; try discriminate. destruct (file_scan_scale_up _ _ _ _ _ _); try discriminate.
  injection E as <-. eauto.
Qed.
Lemma scans : faithful_scan cfg 2 (LScan (scan 5 files)).
Proof.
  apply (C48_file_scans_qualify nat cfg 2 (fun _ _ => None) 5 files 1 true).
  - discriminate.
  - intros s. reflexivity.
  - intros s d E. destruct s as [|s]; [discriminate|].
    destruct (C22_preset_scan nat (fun _ _ => None) 5 files 1 (S s)) as (d' & E' & Hl & Hv & _); [lia|lia|].
    rewrite E in E'. injection E' as <-. destruct (dle_variants d) as [|v vs]; [discriminate|].
    exact (proj2 (Hv v (or_introl eq_refl))).
Qed.
Lemma scans_keep : order_kept cfg (LScan (scan 5 files)).
Proof. apply (C88_file_scans_qualify nat cfg (fun _ _ => None) 5 files 1 true); [intros s; reflexivity|cbn; lia]. Qed.
Lemma scan_sorted : leaf_sorted (LScan (scan 5 files)) le.
Proof.
  intros remote ctx p rows E. cbn in E. destruct p as [|p]; cbn in E; [|destruct p; discriminate]. injection E as <-.
  repeat constructor; lia.
Qed.

(** SELECT DISTINCT … ORDER BY with a sort below the DISTINCT in every partition. *)
Definition sorted_query : tree nat :=
  Node (KCoalesce (Some le) None)
    [Node (KOp distinct) [Node (KOp sort) [Node (KRepart (HashP (fun x => x) 2)) [file_scan]]]].

(** All hypotheses of the theorem hold of this query, it promises its result in the order [le], and it is
    really distributed: the scan in two tasks, the sorts and the DISTINCT in two tasks. *)
Example sorted_query_admissible :
  typed (partial_reduce cfg) sorted_query (@Permutation nat) Anyhow /\ ordinary sorted_query /\ fed sorted_query /\
  spreadable sorted_query /\ is_round_robin sorted_query = false /\
  every_scan (faithful_scan cfg 2) sorted_query /\ fits 2 sorted_query /\
  serves acts needs false sorted_query /\ every_scan (order_kept cfg) sorted_query /\
  one_part sorted_query /\ promises acts false sorted_query le /\
  exists d, create_distributed_plan cfg (TPlan sorted_query) = Ok (TDistributed d) /\ stage_tasks d = [2; 2].
Proof.
  assert (Ps : promises acts false (Node (KOp sort) [Node (KRepart (HashP (fun x => x) 2)) [file_scan]]) le).
  { eapply pr_op; [apply pr_any|apply sort_sorts]. }
  split.
  { eapply ty_coalesce; [|reflexivity].
    refine (ty_keyed _ distinct _ (fun x => x) 2 _ _ Anyhow _ eq_refl perm_additive Logic.I distinct_keyed Logic.I).
    refine (ty_distributive _ sort _ _ _ (Hashed (fun x => x) 2) _ _ eq_refl perm_additive Logic.I _ _).
    - eapply ty_hash; [lia|constructor].
    - split; [intros a b H; exact H|]. split; reflexivity.
    - split; [reflexivity|]. intros l r H. exists r. split; [exact H|reflexivity]. }
  split; [cbn; repeat constructor|]. split; [cbn; repeat split; repeat constructor; discriminate|].
  split; [cbn; repeat split; repeat constructor; cbn; lia|]. split; [reflexivity|].
  split; [cbn; repeat constructor; apply scans|]. split; [vm_compute; repeat constructor|].
  split.
  { cbn [serves sorted_query map]. split; [exact Logic.I|]. constructor; [|constructor]. split.
    - split; [apply distinct_behaves|]. split; [|exact Logic.I]. intros c le' [<-|[]] [= <-]. exact Ps.
    - constructor; [|constructor]. split.
      + split; [apply sort_behaves|]. split; [discriminate|exact Logic.I].
      + repeat constructor. }
  split; [cbn; repeat constructor; apply scans_keep|]. split; [exact Logic.I|].
  split; [apply pr_merge; eapply pr_op; [exact Ps|apply distinct_keeps]|].
  eexists. split; [vm_compute; reflexivity|reflexivity].
Qed.
End Ex.

(** ** An order that does not survive a shuffle *)

Module Through.
Import Ex.
(** DISTINCT without a sort: the scan is one sorted partition, and a repartition of one partition keeps its
    order. *)
Definition query : tree nat := Node (KOp distinct) [Node (KRepart (HashP (fun x => x) 2)) [file_scan]].
Definition distributed : tree nat :=
  match create_distributed_plan cfg (TPlan query) with Ok (TDistributed d) => d | _ => Node KUnion [] end.
Definition scan_of_tasks : dle nat :=
  match distributed with
  | Node _ [Net _ _ _ _ _ (Node _ [Net _ _ _ _ _ (Node _ [Node (KLeaf (LTasks d)) _])])] => d
  | _ => mkDle (scan 0 []) 0 []
  end.
Lemma distributed_shape : distributed = Node (KCoalesce None None)
  [Net BCoalesce (UnknownP 4) 77 2 2
    (Node (KOp distinct) [Net BShuffle (HashP (fun x => x) 2) 77 1 2
       (Node (KRepart (HashP (fun x => x) 4)) [Node (KLeaf (LTasks scan_of_tasks)) []])])].
Proof. vm_compute. reflexivity. Qed.

Definition rows_or_none (r : Res (list nat)) : list nat := match r with Ok l => l | _ => [] end.
Definition read (i p : nat) : list nat :=
  match dle_to_task_specialized scan_of_tasks i with Ok v => rows_or_none (lf_exec v p) | _ => [] end.
(** The rows of the second file come first. *)
Definition received (i p : nat) : list nat := match i, p with 0, 0 => [4; 8; 0; 4] | _, _ => [] end.
Definition dedup (i p : nat) : list nat := adjacent (received i p).
Definition gathered (i p : nat) : list nat :=
  match boundary_execute BCoalesce (UnknownP 4) 2 (fun t => SOther 2 (dedup t)) (mkCtx i 1) p with
  | Ok l => List.concat l | _ => [] end.
Definition outcome (i _ : nat) : list nat := flat_map (gathered i) (seq 0 4).
Definition scanned (i p : nat) : list nat := rows_or_none (lf_exec (scan 5 files) p).
Definition spread_out (i p : nat) : list nat := rows_or_none (exec (SRepart (HashP (fun x => x) 2) (SOther 1 (scanned i))) p).
Definition single (i p : nat) : list nat := adjacent (spread_out i p).

Ltac cases_below i := repeat (destruct i as [|i]; [|try lia]).
Lemma self_sent b P (l : list (list nat)) : Forall2 (sent b P) l l.
Proof. induction l; constructor; auto. destruct b; cbn; auto. Qed.
Lemma distributed_delivers : delivers acts false distributed 1 outcome.
Proof.
  rewrite distributed_shape. exists [gathered]. split.
  - constructor; [|constructor]. exists dedup. split.
    + exists [received]. split.
      * constructor; [|constructor]. exists read. split.
        -- exists []. split; [constructor|]. intros i p Hi Hp. change (leaf_parts (LTasks scan_of_tasks)) with 1 in Hp.
           cases_below i; cases_below p; vm_compute; eexists; split; reflexivity.
        -- intros i p Hi Hp. change (partition_count (HashP (fun x : nat => x) 2)) with 2 in Hp.
           cases_below i; cases_below p; (eexists; eexists; split; [vm_compute; reflexivity|split; [apply self_sent|]]).
           ++ apply (merge_step [[0; 4]] 4 [8] []), (merge_step [[0; 4]] 8 [] []), (merge_step [] 0 [4] [[]]), (merge_step [] 4 [] [[]]).
              repeat constructor.
           ++ repeat constructor.
           ++ repeat constructor.
           ++ repeat constructor.
      * intros i p Hi Hp. reflexivity.
    + intros i p Hi Hp. change (partition_count (@UnknownP nat 4)) with 4 in Hp.
      cases_below i; cases_below p; (eexists; eexists; split; [vm_compute; reflexivity|split; [apply self_sent|apply merge_concat]]).
  - split; [vm_compute; lia|]. intros i Hi. cases_below i. eexists. split; [apply merge_concat|]. split; [exact Logic.I|].
    reflexivity.
Qed.
Lemma single_delivers : delivers acts false query 1 single.
Proof.
  exists [spread_out]. split.
  - constructor; [|constructor]. exists [scanned]. split.
    + constructor; [|constructor]. exists []. split; [constructor|]. intros i p Hi Hp.
      change (leaf_parts (LScan (scan 5 files))) with 1 in Hp. cases_below i; cases_below p; reflexivity.
    + intros i p Hi Hp. change (partition_count (HashP (fun x : nat => x) 2)) with 2 in Hp.
      cases_below i; cases_below p; vm_compute; eexists; split; try split; reflexivity || apply Permutation_refl.
  - intros i p Hi Hp. reflexivity.
Qed.
End Through.

(** C88 for plans that rely on a repartition of a single partition to keep its order, as DataFusion's plans
    do: the repartition becomes a shuffle from several tasks, which interleaves their rows. Here a DISTINCT
    that was given a sorted input, and therefore returns every value once, returns a value twice. *)
Theorem C88_order_through_a_shuffle_refuted :
  exists acts needs (cfg : settings nat) t d f g,
    max_tasks cfg = Ok 2 /\ dynamic_task_count cfg = false /\ 0 < target_partitions cfg /\
    sane_handlers cfg /\ leaf_handlers cfg /\
    typed (partial_reduce cfg) t (@Permutation nat) Anyhow /\ ordinary t /\ fed t /\ spreadable t /\
    is_round_robin t = false /\ every_scan (faithful_scan cfg 2) t /\ fits 2 t /\
    serves acts needs true t /\ every_scan (order_kept cfg) t /\
    create_distributed_plan cfg (TPlan t) = Ok (TDistributed d) /\
    delivers acts false d 1 f /\ delivers acts false t 1 g /\
    NoDup (all_rows t 1 g) /\ ~ NoDup (all_rows d 1 f) /\
    ~ Permutation (all_rows d 1 f) (all_rows t 1 g).
Proof.
  exists Ex.acts, Ex.needs, Ex.cfg, Through.query, Through.distributed, Through.outcome, Through.single.
  split; [reflexivity|]. split; [reflexivity|]. split; [cbn; lia|]. split; [apply Ex.sane|]. split; [apply Ex.leaves|].
  split.
  { refine (ty_keyed _ Ex.distinct _ (fun x => x) 2 _ _ Anyhow _ eq_refl perm_additive Logic.I Ex.distinct_keyed Logic.I).
    eapply ty_hash; [lia|constructor]. }
  split; [cbn; repeat constructor|]. split; [cbn; repeat split; repeat constructor; discriminate|].
  split; [cbn; repeat split; repeat constructor; cbn; lia|]. split; [reflexivity|].
  split; [cbn; repeat constructor; apply Ex.scans|]. split; [vm_compute; repeat constructor|].
  split.
  { cbn [serves Through.query map]. split; [|repeat constructor]. split; [apply Ex.distinct_behaves|]. split; [|exact Logic.I].
    intros c le' [<-|[]] [= <-]. apply pr_repart; [reflexivity|cbn; lia|]. apply pr_leaf, Ex.scan_sorted. }
  split; [cbn; repeat constructor; apply Ex.scans_keep|]. split; [vm_compute; reflexivity|].
  split; [apply Through.distributed_delivers|]. split; [apply Through.single_delivers|].
  assert (H1 : NoDup (all_rows Through.query 1 Through.single)).
  { vm_compute. repeat (constructor; [cbn; lia|]). constructor. }
  assert (H2 : ~ NoDup (all_rows Through.distributed 1 Through.outcome)).
  { vm_compute. intros H. inversion H as [|? ? Hn _]. apply Hn. cbn. lia. }
  split; [exact H1|]. split; [exact H2|]. intros HP. apply H2. eapply Permutation_NoDup; [symmetry; exact HP|exact H1].
Qed.
Print Assumptions C88_order_through_a_shuffle_refuted.

(** ** A sorted scan with a partitioning of its own *)

Module Dealt.
(** Two sorted groups of files. *)
Definition files : list (list (list nat)) := [[[5]; [6]; [7]; [8]]; [[1]]].
Definition split (t : tree nat) (s : nat) : option (Res (tree nat)) :=
  match t with
  | Node (KLeaf (LScan l)) [] =>
      Some (match file_scan_scale_up (fun _ _ => None) (lf_schema l) files 2 true s with
            | Ok d => Ok (Node (KLeaf (LTasks d)) [])
            | Err e => Err e
            | Panic e => Panic e
            end)
  | _ => None
  end.
Definition cfg : settings nat :=
  mkSettings true true false false 0 (CiuModel.f64_div (f64_of_nat 3) (f64_of_nat 2)) 4 (Ok 2)
    Ex.wanted split (fun _ => EEqual) 77.
Lemma sane : sane_handlers cfg.
Proof.
  intros t a E. cbn [cfg desired_task_count] in E. unfold Ex.wanted in E.
  destruct t as [[]| |]; injection E; intros; subst; cbn; lia || discriminate.
Qed.
Lemma leaves : leaf_handlers cfg.
Proof.
  intros t n q E. cbn [cfg scale_up_leaf] in E. unfold split in E.
  destruct t as [[[l|]| | | | | |] []| |]; try discriminate. destruct (file_scan_scale_up _ _ _ _ _ _); try discriminate.
  injection E as <-. eauto.
Qed.
Lemma scans : faithful_scan cfg 2 (LScan (scan 5 files)).
Proof.
  apply (C48_file_scans_qualify nat cfg 2 (fun _ _ => None) 5 files 2 true).
  - discriminate.
  - intros s. reflexivity.
  - intros s d E. destruct s as [|s]; [discriminate|].
    destruct (C22_preset_scan nat (fun _ _ => None) 5 files 2 (S s)) as (d' & E' & Hl & Hv & _); [lia|lia|].
    rewrite E in E'. injection E' as <-. destruct (dle_variants d) as [|v vs]; [discriminate|].
    exact (proj2 (Hv v (or_introl eq_refl))).
Qed.
Lemma scan_sorted : leaf_sorted (LScan (scan 5 files)) le.
Proof.
  intros remote ctx p rows E. cbn in E. destruct p as [|[|p]]; cbn in E; [| |destruct p; discriminate]; injection E as <-;
    repeat constructor; lia.
Qed.
(** SELECT … ORDER BY: DataFusion merges the sorted partitions. *)
Definition query : tree nat := Node (KCoalesce (Some le) None) [Node (KLeaf (LScan (scan 5 files))) []].
Definition acts (o : op nat) (l out : list nat) : Prop := out = op_fun o l.
Definition needs (o : op nat) : option (nat -> nat -> Prop) := None.
Definition distributed : tree nat :=
  match create_distributed_plan cfg (TPlan query) with Ok (TDistributed d) => d | _ => Node KUnion [] end.
Definition scan_of_tasks : dle nat :=
  match distributed with
  | Node _ [Net _ _ _ _ _ (Node (KLeaf (LTasks d)) _)] => d
  | _ => mkDle (scan 0 []) 0 []
  end.
Lemma distributed_shape : distributed = Node (KCoalesce (Some le) None)
  [Net BCoalesce (UnknownP 4) 77 1 2 (Node (KLeaf (LTasks scan_of_tasks)) [])].
Proof. vm_compute. reflexivity. Qed.
Definition read (i p : nat) : list nat :=
  match dle_to_task_specialized scan_of_tasks i with Ok v => Through.rows_or_none (lf_exec v p) | _ => [] end.
Definition gathered (i p : nat) : list nat :=
  match boundary_execute BCoalesce (UnknownP 4) 2 (fun t => SOther 2 (read t)) (mkCtx i 1) p with
  | Ok l => List.concat l | _ => [] end.
Definition outcome (i _ : nat) : list nat := [5; 1; 6; 7; 8].
Ltac cases_below i := repeat (destruct i as [|i]; [|try lia]).
Lemma distributed_delivers : delivers acts false distributed 1 outcome.
Proof.
  rewrite distributed_shape. exists [gathered]. split.
  - constructor; [|constructor]. exists read. split.
    + exists []. split; [constructor|]. intros i p Hi Hp. change (leaf_parts (LTasks scan_of_tasks)) with 2 in Hp.
      cases_below i; cases_below p; vm_compute; eexists; split; reflexivity.
    + intros i p Hi Hp. change (partition_count (@UnknownP nat 4)) with 4 in Hp.
      cases_below i; cases_below p; (eexists; eexists; split; [vm_compute; reflexivity|split; [apply Through.self_sent|apply merge_concat]]).
  - split; [vm_compute; lia|]. intros i Hi. cases_below i. exists [5; 1; 6; 7; 8]. split.
    + change (merge_of [[5; 1]; [7]; [6]; [8]] [5; 1; 6; 7; 8]).
      apply (merge_step [] 5 [1] [[7]; [6]; [8]]), (merge_step [] 1 [] [[7]; [6]; [8]]), (merge_step [[]; [7]] 6 [] [[8]]),
        (merge_step [[]] 7 [] [[]; [8]]), (merge_step [[]; []; []] 8 [] []). repeat constructor.
    + split; [|reflexivity]. intros H. specialize (H 0). exfalso.
      assert (Hs : StronglySorted le (gathered 0 0)) by (apply H; vm_compute; lia). vm_compute in Hs.
      inversion Hs as [|? ? _ Hf]. inversion Hf. lia.
Qed.
End Dealt.

(** C88 without the condition on the scans: the default handler deals the files of a scan that has a partitioning
    of its own to new groups without regard to the order within the groups. A query that merges sorted partitions
    returns its rows unsorted. *)
Theorem C88_dealt_files_refuted :
  exists acts needs (cfg : settings nat) t (le : nat -> nat -> Prop) d f,
    max_tasks cfg = Ok 2 /\ dynamic_task_count cfg = false /\ 0 < target_partitions cfg /\
    sane_handlers cfg /\ leaf_handlers cfg /\
    typed (partial_reduce cfg) t (@Permutation nat) Anyhow /\ ordinary t /\ fed t /\ spreadable t /\
    is_round_robin t = false /\ every_scan (faithful_scan cfg 2) t /\ fits 2 t /\
    serves acts needs false t /\ one_part t /\ promises acts false t le /\
    create_distributed_plan cfg (TPlan t) = Ok (TDistributed d) /\
    delivers acts false d 1 f /\ 0 < tparts d /\ ~ StronglySorted le (f 0 0).
Proof.
  exists Dealt.acts, Dealt.needs, Dealt.cfg, Dealt.query, le, Dealt.distributed, Dealt.outcome.
  split; [reflexivity|]. split; [reflexivity|]. split; [cbn; lia|]. split; [apply Dealt.sane|]. split; [apply Dealt.leaves|].
  split; [eapply ty_coalesce; [constructor|reflexivity]|].
  split; [cbn; repeat constructor|]. split; [cbn; repeat split; repeat constructor; discriminate|].
  split; [cbn; repeat split; repeat constructor; cbn; lia|]. split; [reflexivity|].
  split; [cbn; repeat constructor; apply Dealt.scans|]. split; [vm_compute; repeat constructor|].
  split; [cbn; repeat constructor|]. split; [exact Logic.I|]. split; [apply pr_merge, pr_leaf, Dealt.scan_sorted|].
  split; [vm_compute; reflexivity|]. split; [apply Dealt.distributed_delivers|]. split; [vm_compute; lia|].
  intros Hs. unfold Dealt.outcome in Hs. inversion Hs as [|? ? _ Hf]. inversion Hf. lia.
Qed.
Print Assumptions C88_dealt_files_refuted.
