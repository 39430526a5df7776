(** Properties of task counts chosen while the query runs: C46, C60-C63, and C15 and C52 for them. *)
From Coq Require Import NArith.
From Verif Require Import Base NetModel NetSpec CiuModel EventsModel EventsSpec JoinModel JoinSpec JoinProofs PlannerModel
  PlannerSpec PlannerProofs ExecModel ExecSpec ExecProofs ExecPasses ExecEnd ExecOps DynModel DynSpec DynProofs DynShown DynAsk.
Open Scope nat_scope.

(** C46. The number computed from the observed cost: at least one, at most the maximum, *)
Theorem C46_task_count_in_range bytes cpu partitions most n :
  1 <= most -> compute_based_task_count bytes cpu partitions most = Ok n -> 1 <= n <= most.
Proof. apply compute_range. Qed.
Print Assumptions C46_task_count_in_range.

(** it exists for every plan with a partition, *)
Theorem C46_task_count_exists bytes cpu partitions most :
  0 < partitions -> exists n, compute_based_task_count bytes cpu partitions most = Ok n.
Proof.
  intros Hp. unfold compute_based_task_count, usize_div_ceil.
  destruct (N.eqb_spec (N.max bytes 1) 0); [lia|]. cbn [bind]. destruct (N.eqb_spec (N.of_nat partitions) 0); [lia|]. cbn [bind]. eauto.
Qed.
Print Assumptions C46_task_count_exists.

(** its tasks have partitions enough to get no more than the configured bytes each, if the maximum allows
    it, and one task fewer would not have them. *)
Theorem C46_task_count_enough bytes cpu partitions most n :
  (0 < bytes)%N -> compute_based_task_count bytes cpu partitions most = Ok n ->
  (n < most -> (cpu <= N.of_nat n * N.of_nat partitions * bytes)%N) /\
  (1 < n -> (N.of_nat (n - 1) * N.of_nat partitions * bytes < cpu)%N).
Proof.
  intros Hb H. unfold compute_based_task_count in H.
  destruct (usize_div_ceil cpu _) as [a| |] eqn:Ea; cbn [bind] in H; try discriminate.
  destruct (usize_div_ceil a _) as [b| |] eqn:Eb; cbn [bind] in H; try discriminate. injection H as <-.
  apply div_ceil_spec in Ea as (_ & A1 & A2). apply div_ceil_spec in Eb as (B0 & B1 & B2).
  rewrite N.max_l in A1, A2 by lia. split; intros Hn.
  - assert (b <= N.of_nat (N.to_nat (N.min (N.max b 1) (N.of_nat most))))%N by lia. nia.
  - assert (N.of_nat (N.to_nat (N.min (N.max b 1) (N.of_nat most)) - 1) <= b - 1)%N by lia.
    assert (Hb0 : (b <> 0)%N) by lia. specialize (B2 Hb0). assert (Ha0 : (a <> 0)%N) by (intros ->; now apply N.nlt_0_r in B2). specialize (A2 Ha0).
    set (n := N.of_nat (N.to_nat _ - 1)) in *. set (p := N.of_nat partitions) in *. clearbody n p.
    assert (n * p <= (b - 1) * p)%N by (apply N.mul_le_mono_r; lia).
    assert (n * p * bytes <= (a - 1) * bytes)%N by (apply N.mul_le_mono_r; lia). lia.
Qed.
Print Assumptions C46_task_count_enough.

(** 10 partitions of at most 1000 bytes for 45000 bytes: five tasks; unknown cost: one task. *)
Example count_examples :
  compute_based_task_count 1000 45000 10 8 = Ok 5 /\ compute_based_task_count 1000 45000 10 3 = Ok 3 /\
  compute_based_task_count 0 0 10 3 = Ok 1 /\
  compute_based_task_count 1000 45000 0 3 = Panic "attempt to divide by zero".
Proof. vm_compute. auto. Qed.

Section Props.
Context {row : Type}.
Notation tree := (tree row).
Notation table := (nat -> nat -> list row).
Variable cfg : settings row.
Variable bytes : N.
Variable most : nat.
Hypothesis Hmost : max_tasks cfg = Ok most.
Hypothesis Hdyn : dynamic_task_count cfg = true.
Hypothesis Hsane : sane_handlers cfg.
Hypothesis Hleaf : leaf_handlers cfg.
Hypothesis Hignore : ignores_boundaries cfg.

Lemma distribute_dynamic (t p : tree) : has_net t = false -> fits most t ->
  create_distributed_plan cfg (TPlan t) = Ok (TDistributed p) ->
  before_injection cfg t = Ok p /\ has_net p = false /\ fits most p.
Proof using Hdyn.
  intros Hn Hf H. cbn [create_distributed_plan] in H. unfold distribute in H. rewrite Hn in H.
  destruct (before_injection cfg t) as [p'| |] eqn:Ep; cbn [bind] in H; try discriminate. rewrite Hdyn in H.
  injection H as ->. destruct (before_facts cfg t p Hn Ep) as [Np Wp]. split; [reflexivity|]. split; [exact Np|].
  eapply fits_mono; eauto.
Qed.

(** Whatever is observed: boundaries are at the cuts of the plan, every stage and every child of a union
    has at least one task, at most the configured maximum and at most every hard maximum announced in it. *)
Theorem C46_every_stage_within_limits obs p q a :
  has_net p = false -> fits most p -> dynamic_inject cfg bytes obs p = Ok (q, a) ->
  planned_root cfg (within_limits cfg most) p (as_usize a) q.
Proof using Hmost Hsane Hignore. apply dynamic_planned; assumption. Qed.

(** The plan that runs, as numbers. *)
Theorem C46_running_plan_within_limits t p :
  has_net t = false -> fits most t -> create_distributed_plan cfg (TPlan t) = Ok (TDistributed p) ->
  forall obs num d, dynamic_plan cfg bytes obs num p = Ok d -> Forall (fun tasks => 1 <= tasks <= most) (stage_tasks d).
Proof using Hmost Hdyn Hsane Hleaf Hignore.
  intros Hn Hf H obs num d Hd. destruct (distribute_dynamic t p Hn Hf H) as (_ & Np & Fp).
  destruct (dynamic_deployed cfg bytes most Hmost Hdyn Hsane Hleaf Hignore obs num p d Np Fp Hd) as (s & _ & Hdc).
  exact (dchild_tasks cfg most Hleaf p _ _ _ Hdc).
Qed.

(** C15 for them: joins that must run in one task do. *)
Theorem C15_single_task_joins_dynamic t p :
  has_net t = false -> fits most t -> create_distributed_plan cfg (TPlan t) = Ok (TDistributed p) ->
  forall obs num d, dynamic_plan cfg bytes obs num p = Ok d -> everywhere (joins_alone cfg) d 1.
Proof using Hmost Hdyn Hsane Hleaf Hignore.
  intros Hn Hf H obs num d Hd. destruct (distribute_dynamic t p Hn Hf H) as (_ & Np & Fp).
  destruct (dynamic_deployed cfg bytes most Hmost Hdyn Hsane Hleaf Hignore obs num p d Np Fp Hd) as (s & _ & Hdc).
  eapply everywhere_impl; [|exact (dchild_alone cfg most Hleaf p _ _ Hdc)]. intros n x [Hx _]. exact Hx.
Qed.

(** C52 for them; missing from the claim is the same as in [C52_coalescing_in_one_task_partial]. *)
Theorem C52_coalescing_in_one_task_dynamic_partial t p :
  has_net t = false -> fits most t -> create_distributed_plan cfg (TPlan t) = Ok (TDistributed p) ->
  forall obs num d, dynamic_plan cfg bytes obs num p = Ok d -> everywhere folds_alone d 1.
Proof using Hmost Hdyn Hsane Hleaf Hignore.
  intros Hn Hf H obs num d Hd. destruct (distribute_dynamic t p Hn Hf H) as (_ & Np & Fp).
  destruct (dynamic_deployed cfg bytes most Hmost Hdyn Hsane Hleaf Hignore obs num p d Np Fp Hd) as (s & _ & Hdc).
  eapply everywhere_impl; [|exact (dchild_alone cfg most Hleaf p _ _ Hdc)]. intros n x [_ Hx]. exact Hx.
Qed.

(** C60. Whatever the costs observed in the stages, the plan that runs has the rows of the original plan.
    The conditions are those of [C48_distributed_plan_same_rows]. *)
Theorem C60_same_rows_for_all_observations t p D :
  0 < target_partitions cfg ->
  typed false t (@Permutation row) D -> ordinary t -> fed t -> spreadable t ->
  is_round_robin t = false -> every_scan (faithful_scan cfg most) t -> fits most t ->
  create_distributed_plan cfg (TPlan t) = Ok (TDistributed p) ->
  forall obs num d, dynamic_plan cfg bytes obs num p = Ok d ->
  forall f g, runs false d 1 f -> runs false t 1 g -> Permutation (all_rows d 1 f) (all_rows t 1 g).
Proof using Hmost Hdyn Hsane Hleaf Hignore.
  intros Htp Ht Ho Hf Hsp Hr Hs Hfits H obs num d Hd f g Rd Rt.
  destruct (distribute_dynamic t p (ordinary_no_net t Ho) Hfits H) as (Hp & Np & Fp).
  rewrite (single_rows false t D g Ht Ho Hf Rt).
  destruct (before_keeps cfg false Htp (faithful_scan cfg most) t p D Ht Ho Hf Hr Hp) as ((D' & T) & M & F2 & S).
  destruct (dynamic_deployed cfg bytes most Hmost Hdyn Hsane Hleaf Hignore obs num p d Np Fp Hd) as (s & HW & HD).
  rewrite <- M. apply (root_rows cfg most false p D' s d f T HW HD); auto. apply placed_of; [exact F2|].
  exact (spreadable_placed cfg most false t p D Htp Ht Ho Hf Hr Hsp Hp).
Qed.

(** C61. A plan in which the user put boundaries of stages with several tasks does not run, whatever is
    observed: every attempt ends in an error. *)
Theorem C61_user_placed_boundaries_do_not_run obs num (t p : tree) :
  has_net t = true -> create_distributed_plan cfg (TPlan t) = Ok (TDistributed p) ->
  Exists (fun s => 1 < snd s) (stages p) -> forall d, dynamic_plan cfg bytes obs num p <> Ok d.
Proof using Hignore. intros Hn H. apply (user_placed_refused cfg bytes Hignore obs num t p Hn H). Qed.

(** C62. With task counts chosen when the plan is made, what scale-up handlers would answer for network
    boundaries does not matter: they are asked about leaves only. *)
Theorem C62_handlers_asked_about_leaves_only (cfg' : settings row) (g : tree -> nat -> option (Res tree)) t :
  dynamic_task_count cfg' = false -> (forall t n, is_net t = false -> g t n = scale_up_leaf cfg' t n) ->
  create_distributed_plan (with_scale_up cfg' g) (TPlan t) = create_distributed_plan cfg' (TPlan t).
Proof using. intros Hd Hg. now apply asked_leaves_only. Qed.

(** C63. The plan that is shown is the plan that runs, and every stage appears in it, if the stages have
    different numbers. (The recursion of the model needs fuel; any large amount has the same result.) *)
Theorem C63_shown_plan_is_running_plan obs num t p q a d :
  has_net t = false -> fits most t -> create_distributed_plan cfg (TPlan t) = Ok (TDistributed p) ->
  dynamic_inject cfg bytes obs p = Ok (q, a) -> dynamic_plan cfg bytes obs num p = Ok d ->
  let head := number cfg num [] q in
  NoDup (stage_nums head) ->
  exists enough, forall fuel, enough <= fuel ->
    reconstruct fuel (remote head) 1 (stage_map head) = Ok (d, []).
Proof using Hmost Hdyn Hsane Hleaf Hignore.
  intros Hn Hf H Hi Hd head Hnd.
  assert (Hc : connect head 1 = Ok d).
  { unfold dynamic_plan in Hd. rewrite Hi in Hd. cbn [bind fst] in Hd. destruct (local_stages q); cbn [bind] in Hd; try discriminate. exact Hd. }
  assert (Ht : Forall (le 1) (stage_tasks head)).
  { rewrite <- (connect_tasks head 1 d Hc). eapply Forall_impl; [|eapply C46_running_plan_within_limits; eauto]. cbn. lia. }
  destruct (shown_is_connected head 1 d (stage_map head) Hc Hnd Ht) as (F & HF).
  - now rewrite stage_map_keys.
  - apply incl_refl.
  - exists F. intros fuel HFuel. rewrite (HF fuel HFuel). do 2 f_equal.
    destruct (drop (stage_nums head) (stage_map head)) as [|e l] eqn:E; [reflexivity|].
    assert (Hin : In e (drop (stage_nums head) (stage_map head))) by (rewrite E; now left).
    apply drop_in in Hin as [Hin Hno]. destruct Hno. rewrite <- stage_map_keys. now apply in_map.
Qed.

End Props.
Print Assumptions C46_every_stage_within_limits.
Print Assumptions C46_running_plan_within_limits.
Print Assumptions C15_single_task_joins_dynamic.
Print Assumptions C52_coalescing_in_one_task_dynamic_partial.
Print Assumptions C60_same_rows_for_all_observations.
Print Assumptions C61_user_placed_boundaries_do_not_run.
Print Assumptions C62_handlers_asked_about_leaves_only.
Print Assumptions C63_shown_plan_is_running_plan.

(** The query of ExecProps, with task counts chosen while it runs. *)
From Verif Require Import ExecProps.
Module Ex.
Import ExecProps.Ex.
Definition one (t : tree row) : Res (option annotation) :=
  match t with Node (KLeaf _) _ => Ok (Some (Desired 1)) | _ => Ok None end.
Definition dyn : settings row :=
  mkSettings true true false true 0 (CiuModel.f64_div (f64_of_nat 3) (f64_of_nat 2)) 4 (Ok 3)
    one split (fun _ => EEqual) 77.
(** 90 bytes in every stage but one, of whose cost nothing is known. *)
Definition obs (at_ : list nat) : observation :=
  mkObs (Ok (match at_ with [_] => None | _ => Some 90%N end)) (Ok tt).
(** Different numbers for different positions. *)
Definition num (at_ : list nat) : nat := fold_left (fun acc i => 5 * acc + i + 1) at_ 0.
Definition base : tree row :=
  match create_distributed_plan dyn (TPlan query) with Ok (TDistributed d) => d | _ => Node KUnion [] end.
Definition running : tree row :=
  match dynamic_plan dyn 10 obs num base with Ok d => d | _ => Node KUnion [] end.
Definition injected : tree row :=
  match dynamic_inject dyn 10 obs base with Ok (q, _) => q | _ => Node KUnion [] end.

Lemma scans_dyn k : faithful_scan dyn 3 (LScan (scan k (files k))).
Proof.
  apply (C48_file_scans_qualify row dyn 3 (fun _ _ => None) k (files k) 2 true).
  - discriminate.
  - intros s. reflexivity.
  - intros s d E. destruct s as [|s]; [discriminate|].
    destruct (EventsProps.C22_preset_scan row (fun _ _ => None) k (files k) 2 (S s)) as (d' & E' & Hl & Hv & _); [lia|lia|].
    rewrite E in E'. injection E' as <-. destruct (dle_variants d) as [|v vs]; [discriminate|].
    exact (proj2 (Hv v (or_introl eq_refl))).
Qed.

Example query_runs :
  (max_tasks dyn = Ok 3 /\ dynamic_task_count dyn = true /\ sane_handlers dyn /\ leaf_handlers dyn /\ ignores_boundaries dyn) /\
  (typed false query (@Permutation row) Anyhow /\ ordinary query /\ fed query /\ spreadable query /\
   is_round_robin query = false /\ every_scan (faithful_scan dyn 3) query /\ fits 3 query) /\
  create_distributed_plan dyn (TPlan query) = Ok (TDistributed base) /\
  dynamic_inject dyn 10 obs base = Ok (injected, Maximum 1) /\
  dynamic_plan dyn 10 obs num base = Ok running /\
  stage_tasks running = [3; 3; 1] /\
  NoDup (stage_nums (number dyn num [] injected)) /\
  reconstruct 30 (remote (number dyn num [] injected)) 1 (stage_map (number dyn num [] injected)) = Ok (running, []).
Proof.
  split; [|split].
  - split; [reflexivity|]. split; [reflexivity|]. split; [|split; [|intros b part q num tasks i count; reflexivity]].
    { intros t a E. cbn [dyn desired_task_count] in E. unfold one in E.
      destruct t as [[]| |]; injection E; intros; subst; cbn; lia || discriminate. }
    intros t n q E. apply (leaves false t n q). exact E.
  - destruct (query_admissible false) as (A & B & C & D & E & _ & F & _).
    repeat (split; [assumption|]). split; [|exact F]. cbn; repeat constructor; apply scans_dyn.
  - vm_compute. repeat (split; [reflexivity|]). split; [repeat (constructor; [cbn; intuition discriminate|]); constructor|reflexivity].
Qed.

(** C61: a user-placed gathering of the output of three tasks. It can be planned, and with task counts
    chosen when the plan is made it has its stage; with [dynamic_task_count] it never runs. *)
Definition user_placed : tree row :=
  Node (KCoalesce None None) [Net BCoalesce (UnknownP 6) 0 0 3 (file_scan 5)].
Definition planned_user_placed : tree row :=
  match create_distributed_plan dyn (TPlan user_placed) with Ok (TDistributed d) => d | _ => Node KUnion [] end.

(** C62: handlers that also replace boundaries, by an empty scan. *)
Definition eager (t : tree row) (n : nat) : option (Res (tree row)) :=
  match t with
  | Net _ _ _ _ _ _ => Some (Ok (Node (KLeaf (LScan (scan 9 [[]]))) []))
  | _ => split t n
  end.
Definition disturbed : tree row :=
  match dynamic_plan (with_scale_up dyn eager) 10 obs num base with Ok d => d | _ => Node KUnion [] end.
End Ex.

(** C61. The claim that a plan with boundaries placed by the user runs, for a planner that accepts it. *)
Theorem C61_user_placed_boundaries_refuted :
  exists (row : Type) (cfg : settings row) (t p : tree row),
    create_distributed_plan cfg (TPlan t) = Ok (TDistributed p) /\ stage_tasks p = [3] /\
    forall bytes obs num d, dynamic_plan cfg bytes obs num p <> Ok d.
Proof.
  exists (nat * nat)%type, Ex.dyn, Ex.user_placed, Ex.planned_user_placed.
  assert (E : create_distributed_plan Ex.dyn (TPlan Ex.user_placed) = Ok (TDistributed Ex.planned_user_placed)) by (vm_compute; reflexivity).
  split; [exact E|]. split; [vm_compute; reflexivity|]. intros bytes obs num.
  refine (C61_user_placed_boundaries_do_not_run Ex.dyn bytes _ obs num Ex.user_placed _ eq_refl E _).
  - intros b part q n tasks i count. reflexivity.
  - vm_compute. repeat constructor.
Qed.
Print Assumptions C61_user_placed_boundaries_refuted.

(** C62. The claim for task counts chosen while the query runs: handlers that differ in what they answer
    for boundaries make different plans (here: without the build side and without the totals). *)
Theorem C62_handlers_asked_about_leaves_only_refuted :
  exists (row : Type) (cfg : settings row) g (t p : tree row) bytes obs num d d',
    dynamic_task_count cfg = true /\ (forall t n, is_net t = false -> g t n = scale_up_leaf cfg t n) /\
    create_distributed_plan cfg (TPlan t) = Ok (TDistributed p) /\
    create_distributed_plan (with_scale_up cfg g) (TPlan t) = Ok (TDistributed p) /\
    dynamic_plan cfg bytes obs num p = Ok d /\ dynamic_plan (with_scale_up cfg g) bytes obs num p = Ok d' /\
    stage_tasks d = [3; 3; 1] /\ stage_tasks d' = [].
Proof.
  exists (nat * nat)%type, Ex.dyn, Ex.eager, ExecProps.Ex.query, Ex.base, 10%N, Ex.obs, Ex.num, Ex.running, Ex.disturbed.
  split; [reflexivity|]. split; [now intros []|]. vm_compute. auto 10.
Qed.
Print Assumptions C62_handlers_asked_about_leaves_only_refuted.
