(** Property C48: the distributed plan returns the rows of the original plan. *)
From Verif Require Import Base NetModel NetSpec CiuModel EventsModel EventsSpec JoinModel JoinSpec JoinProofs PlannerModel
  PlannerSpec PlannerProofs ExecModel ExecSpec ExecProofs ExecPasses ExecEnd ExecOps.

Section Props.
Context {row : Type}.
Notation tree := (tree row).
Notation table := (nat -> nat -> list row).
Variable cfg : settings row.
Variable most : nat.
Hypothesis Hmost : max_tasks cfg = Ok most.
Hypothesis Hstatic : dynamic_task_count cfg = false.
Hypothesis Htarget : 0 < target_partitions cfg.
Hypothesis Hsane : sane_handlers cfg.
Hypothesis Hleaf : leaf_handlers cfg.

(** C48. [t] is a plan of DataFusion's operators in which everyone gets an input they can work with
    ([typed], [fed]) and whose operators can be spread over tasks; scaling a scan keeps its rows. Any
    execution of the plan that the planner returns for it has the rows of any execution of [t]. *)
Theorem C48_distributed_plan_same_rows t D r :
  typed (partial_reduce cfg) t (@Permutation row) D -> ordinary t -> fed t -> spreadable t ->
  is_round_robin t = false -> every_scan (faithful_scan cfg most) t -> fits most t ->
  create_distributed_plan cfg (TPlan t) = Ok r ->
  match r with
  | TDistributed d => forall f g, runs false d 1 f -> runs false t 1 g ->
      Permutation (all_rows d 1 f) (all_rows t 1 g)
  | r => r = TPlan t
  end.
Proof using Hmost Hstatic Htarget Hsane Hleaf.
  intros Ht Ho Hf Hsp Hr Hs Hfits H.
  destruct (distribute_inv cfg most t _ (ordinary_no_net t Ho) Hstatic Hfits H)
    as (p & q & a & d0 & id & Hp & Hq & Hd0 & Np & Fp & Hres).
  destruct Hres as [[_ ->]|(_ & d & _ & ->)]; [reflexivity|]. intros f g Rd Rt.
  rewrite (single_rows (partial_reduce cfg) t D g Ht Ho Hf Rt).
  eapply (distributed_rows cfg most t p D d f); eauto. eapply spreadable_placed; eauto.
Qed.

(** The same with operators that need their whole input, where the planner does not spread them: in the
    head stage or in a stage that is limited to one task. (That the planner may spread them elsewhere is
    [C54_single_partition_operators_refuted].) *)
Theorem C48_with_single_partition_operators t p D d :
  typed (partial_reduce cfg) t (@Permutation row) D -> ordinary t -> fed t ->
  is_round_robin t = false -> every_scan (faithful_scan cfg most) t -> fits most t ->
  before_injection cfg t = Ok p -> ops_placed cfg most (in_head p) p ->
  create_distributed_plan cfg (TPlan t) = Ok (TDistributed d) ->
  forall f g, runs false d 1 f -> runs false t 1 g -> Permutation (all_rows d 1 f) (all_rows t 1 g).
Proof using Hmost Hstatic Htarget Hsane Hleaf.
  intros Ht Ho Hf Hr Hs Hfits Hp Hplaced H f g Rd Rt.
  rewrite (single_rows (partial_reduce cfg) t D g Ht Ho Hf Rt).
  eapply (distributed_rows cfg most t p D d f); eauto.
Qed.

End Props.
Print Assumptions C48_distributed_plan_same_rows.
Print Assumptions C48_with_single_partition_operators.

(** What the conditions mean for the operators of the claim. *)

(** Filters, projections and unnestings work on any split of their input. *)
Theorem C48_rowwise_operators_qualify (row : Type) :
  (forall f : row -> bool, distributive (filter f) (@Permutation row) (@Permutation row)) /\
  (forall f : row -> row, distributive (map f) (@Permutation row) (@Permutation row)) /\
  (forall f : row -> list row, distributive (flat_map f) (@Permutation row) (@Permutation row)).
Proof. split; [apply filter_distributive|]. split; [apply projection_distributive|apply flat_map_distributive]. Qed.
Print Assumptions C48_rowwise_operators_qualify.

(** Aggregates whose states form a commutative monoid: a plan "partial aggregation, hash repartition on
    the key, final aggregation" over an admissible input is admissible, with or without partial-reduce
    aggregates; its meaning is the single aggregation of the input. *)
Theorem C48_grouped_aggregates_qualify (row K M : Type) (keq : forall a b : K, {a = b} + {a <> b})
    (key : row -> K) (val : row -> M) mk zero plus (state out : row -> row) (hash : K -> nat) pr n t D req req' :
  grouping key val mk zero plus -> 0 < n -> typed pr t (@Permutation row) D ->
  let a := grouped_agg keq key val mk zero plus state out in
  let plan := Node (KOp (OAgg AFinal req' a))
    [Node (KRepart (HashP (fun r => hash (key r)) n)) [Node (KOp (OAgg APartial req a)) [t]]] in
  typed pr plan (@Permutation row) Anyhow /\ meaning plan = map out (group keq key val mk zero plus
     (group keq key val mk zero plus (map state (meaning t)))) /\
  Permutation (meaning plan) (agg_single a (meaning t)).
Proof.
  intros Hg Hn Ht a plan. pose proof (same_totals_additive keq key val mk zero plus Hg) as HA.
  assert (Hm : meaning plan = map out (group keq key val mk zero plus
     (group keq key val mk zero plus (map state (meaning t))))).
  { cbn. now rewrite app_nil_r. }
  split; [|split; [exact Hm|]].
  - eapply ty_keyed with (E := same_totals keq key val zero plus); [|reflexivity|apply perm_additive|exact Logic.I| |exact Logic.I].
    + eapply ty_hash; [exact Hn|]. eapply ty_distributive with (D' := Anyhow); [exact Ht|reflexivity|exact HA| | |exact Logic.I].
      * cbn. intros _ l. now apply (group_same keq key val mk zero plus).
      * cbn. now apply partial_distributive.
    + cbn. now apply final_keyed.
  - rewrite Hm. cbn. apply Permutation_map. apply (group_respects keq key val mk zero plus). now apply group_same.
Qed.
Print Assumptions C48_grouped_aggregates_qualify.

(** File scans split by the built-in handler keep their rows, if the tasks get as many partitions as the
    scan has. *)
Theorem C48_file_scans_qualify (row : Type) (cfg : settings row) most partitioner schema
    (groups : list (list (list row))) P preset :
  (forall n gs, partitioner n groups = Some gs -> Permutation (group_rows gs) (group_rows groups)) ->
  (forall s, scale_up_leaf cfg (Node (KLeaf (LScan (scan schema groups))) []) s =
    Some (match file_scan_scale_up partitioner schema groups P preset s with
          | Ok d => Ok (Node (KLeaf (LTasks d)) [])
          | Err e => Err e
          | Panic e => Panic e
          end)) ->
  (forall s d, file_scan_scale_up partitioner schema groups P preset s = Ok d -> dle_parts d = List.length groups) ->
  faithful_scan cfg most (LScan (scan schema groups)).
Proof. intros H1 H2 H3. apply split_scan_faithful. eapply file_scan_split; eauto. Qed.
Print Assumptions C48_file_scans_qualify.

(** An example: rows are pairs of a key and a number, [SELECT * FROM a JOIN (SELECT key, sum(n) FROM b
    GROUP BY key) USING (key)] over files, with a broadcast build side. *)
From Verif Require Import EventsProps.
Module Ex.
Definition row := (nat * nat)%type.
Definition files (k : nat) : list (list (list row)) := [[[(0, k); (1, k)]]; [[(2, k)]; [(0, k + 1)]]].
Definition file_scan (k : nat) : tree row := Node (KLeaf (LScan (scan k (files k)))) [].
Definition wanted (t : tree row) : Res (option annotation) :=
  match t with Node (KLeaf _) _ => Ok (Some (Desired 3)) | _ => Ok None end.
Definition split (t : tree row) (s : nat) : option (Res (tree row)) :=
  match t with
  | Node (KLeaf (LScan l)) [] =>
      Some (match file_scan_scale_up (fun _ _ => None) (lf_schema l) (files (lf_schema l)) 2 true s with
            | Ok d => Ok (Node (KLeaf (LTasks d)) [])
            | Err e => Err e
            | Panic e => Panic e
            end)
  | _ => None
  end.
Definition cfg (reduce : bool) : settings row :=
  mkSettings true true reduce false 0 (CiuModel.f64_div (f64_of_nat 3) (f64_of_nat 2)) 4 (Ok 3)
    wanted split (fun _ => EEqual) 77.
Definition cond : condition row :=
  mkCond (fun a b => Nat.eqb (fst a) (fst b))
    (fun a b => match a, b with Some a, Some b => (fst a, snd a + snd b) | _, _ => (0, 0) end) (fun a _ => a).
Definition sum : agg row := grouped_agg Nat.eq_dec fst snd Datatypes.pair 0 Nat.add (fun r => r) (fun r => r).
Definition totals (t : tree row) : tree row :=
  Node (KOp (OAgg AFinal (HashPartitioned fst) sum))
    [Node (KRepart (HashP fst 4)) [Node (KOp (OAgg APartial AnyDistribution sum)) [t]]].
Definition query : tree row :=
  Node (KJoin (HashJoin true false Inner) cond fst fst (fun l _ => l))
    [Node (KCoalesce None None) [file_scan 5]; totals (Node KUnion [file_scan 7; file_scan 8])].

Lemma sane b : sane_handlers (cfg b).
Proof.
  intros t a E. cbn [cfg desired_task_count] in E. unfold wanted in E.
  destruct t as [[]| |]; injection E; intros; subst; cbn; lia || discriminate.
Qed.
Lemma leaves b : leaf_handlers (cfg b).
Proof.
  intros t n q E. cbn [cfg scale_up_leaf] in E. unfold split in E.
  destruct t as [[[l|]| | | | | |] []| |]; try discriminate. destruct (file_scan_scale_up _ _ _ _ _ _); try discriminate.
  injection E as <-. eauto.
Qed.
Lemma scans b k : faithful_scan (cfg b) 3 (LScan (scan k (files k))).
Proof.
  apply (C48_file_scans_qualify row (cfg b) 3 (fun _ _ => None) k (files k) 2 true).
  - discriminate.
  - intros s. reflexivity.
  - intros s d E. destruct s as [|s]; [discriminate|].
    destruct (C22_preset_scan row (fun _ _ => None) k (files k) 2 (S s)) as (d' & E' & Hl & Hv & _); [lia|lia|].
    rewrite E in E'. injection E' as <-. destruct (dle_variants d) as [|v vs]; [discriminate|].
    exact (proj2 (Hv v (or_introl eq_refl))).
Qed.

Lemma sums : grouping (row := row) fst snd Datatypes.pair 0 Nat.add.
Proof. split; intros; cbn; auto; lia. Qed.

Lemma typed_query b : typed b query (@Permutation row) Anyhow.
Proof.
  eapply (ty_collect b (HashJoin true false Inner) cond fst fst _ _ _ _ Anyhow Anyhow Anyhow).
  - eapply ty_coalesce; [constructor|reflexivity].
  - refine (proj1 (C48_grouped_aggregates_qualify row nat nat Nat.eq_dec fst snd Datatypes.pair 0 Nat.add (fun r => r) (fun r => r)
      (fun k => k) b 4 (Node KUnion [file_scan 7; file_scan 8]) Anyhow AnyDistribution (HashPartitioned fst) sums _ _)); [lia|].
    apply ty_union; [discriminate|apply perm_additive|]. intros c [<-|[<-|[]]]; constructor.
  - now left.
  - reflexivity.
  - intros x y E. now apply Nat.eqb_eq in E.
  - intros L L' R R' HL _. exact HL.
  - exact Logic.I.
Qed.

Definition distributed (b : bool) : tree row :=
  match create_distributed_plan (cfg b) (TPlan query) with Ok (TDistributed d) => d | _ => Node KUnion [] end.

(** All hypotheses of the theorem hold, and the plan is really distributed: a broadcast from three tasks
    and a shuffle from three tasks, with the probe stage and its final aggregation in three tasks. *)
Example query_admissible b :
  typed b query (@Permutation row) Anyhow /\ ordinary query /\ fed query /\ spreadable query /\
  is_round_robin query = false /\ every_scan (faithful_scan (cfg b) 3) query /\ fits 3 query /\
  max_tasks (cfg b) = Ok 3 /\
  create_distributed_plan (cfg b) (TPlan query) = Ok (TDistributed (distributed b)) /\
  stage_tasks (distributed b) = [3; 3; 3].
Proof.
  split; [apply typed_query|].
  split; [cbn; repeat constructor|]. split; [cbn; repeat split; repeat constructor; discriminate|].
  split; [cbn; repeat split; repeat constructor; cbn; lia|]. split; [reflexivity|].
  split; [cbn; repeat constructor; apply scans|]. split; [vm_compute; repeat constructor|].
  destruct b; vm_compute; repeat split.
Qed.
End Ex.
