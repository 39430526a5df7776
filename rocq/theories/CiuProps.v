(** Property theorems for distributed unions: C07, C08. *)
From Verif Require Import Base NetModel CiuModel CiuSpec CiuProofs CiuFloat.
From Coq Require Import ZArith SpecFloat.

(** * C07 *)

(** The weights the planner can produce: doubles of machine integers, no zero caps; a slot count and
    child count whose product stays away from the precision of a double. *)
Definition planner_weights (weights : list ChildWeight) (budget : nat) : Prop :=
  weights <> [] /\ 0 < budget /\
  Forall (fun c => integer_weight c /\ cw_max c <> Some 0) weights /\
  (Z.of_nat budget * (2 * Z.of_nat (List.length weights) + 3) < 2 ^ 53)%Z.

Lemma planner_weights_good weights budget : planner_weights weights budget ->
  exists result, split_children weights budget = Ok result /\ good_allocation weights budget result.
Proof.
  intros (Hne & Hb & Hall & Hs). apply split_children_good; auto.
  - apply forallb_forall. rewrite Forall_forall in Hall. intros c Hc.
    apply integer_weight_valid; apply Hall; assumption.
  - apply integer_floors_fit; auto. eapply Forall_impl; [|exact Hall]. intros c [H _]; exact H.
Qed.

(** C07. Every child runs in n >= 1 tasks, at most its cap, each task index 0..n-1 in exactly one of the
    [budget] slots; no slot runs a child twice; a slot stays idle only when all children are at their
    cap; and the function neither fails nor panics. *)
Theorem C07_union_allocation weights budget : planner_weights weights budget ->
  exists result, split_children weights budget = Ok result /\ good_allocation weights budget result.
Proof. exact (planner_weights_good weights budget). Qed.
Print Assumptions C07_union_allocation.

(** C07 for arbitrary weights, assuming only that the rounded floors do not exceed the budget. *)
Theorem C07_union_allocation_any_weight weights budget :
  0 < budget -> weights <> [] -> forallb valid_weight weights = true -> floors_fit weights budget ->
  exists result, split_children weights budget = Ok result /\ good_allocation weights budget result.
Proof. exact (split_children_good weights budget). Qed.
Print Assumptions C07_union_allocation_any_weight.

(** Bad requests are refused with an error, never with a panic. *)
Theorem C07_bad_requests weights budget :
  budget = 0 \/ weights = [] \/ forallb valid_weight weights = false ->
  exists e, split_children weights budget = Err e.
Proof.
  intros H. unfold split_children. destruct (Nat.eqb_spec budget 0); [eauto|].
  destruct (Nat.eqb_spec (List.length weights) 0); [eauto|].
  destruct H as [?|[-> | ->]]; [contradiction|contradiction|]. cbn. eauto.
Qed.
Print Assumptions C07_bad_requests.

(** C07 is false for arbitrary finite weights: budget * weight overflows to infinity, the share is
    infinite and the layout loop runs out of the slot vector. *)
Definition huge : f64 := f64_of_Z (10 ^ 308).

Theorem C07_huge_weight_refuted :
  exists weights, forallb valid_weight weights = true /\ 
    split_children weights 20 = Panic "index out of bounds".
Proof.
  exists [mkWeight huge (Some 30); mkWeight (f64_of_nat 1) None]. split; vm_compute; reflexivity.
Qed.
Print Assumptions C07_huge_weight_refuted.

(** * C08 *)

Section C08.
Context {row : Type}.
Variables (children : list (child row)) (weights : list ChildWeight) (budget : nat).

(** C08. The union can be built, and executing all its partitions in all its tasks executes every
    partition of every child in every task context of that child exactly once; every execution that is
    not such a partition is an empty stream; hence all rows of all children, once. *)
Theorem C08_union_reads_once :
  planner_weights weights budget -> List.length children = List.length weights ->
  exists u, ciu_new children weights budget = Ok u /\
  exists cnt : nat -> nat,
    (forall i w, nth_error weights i = Some w ->
       1 <= cnt i <= budget /\ forall m, cw_max w = Some m -> cnt i <= m) /\
    child_task_counts u = map cnt (seq 0 (List.length children)) /\
    exists what : nat -> nat -> option (nat * TaskCtx * nat),
      (forall t p, t < budget -> ciu_delegate u (mkCtx t budget) p = Ok (what t p)) /\
      Permutation
        (flat_map (fun t => flat_map (fun p => match what t p with Some r => [r] | None => [] end)
                     (seq 0 (ciu_parts u))) (seq 0 budget))
        (all_child_reads children cnt).
Proof using.
  intros Hp Hl. pose proof Hp as (Hne & Hb & _).
  destruct (planner_weights_good weights budget Hp) as (m & Es & Hg).
  assert (Hgood : forall m', split_children weights budget = Ok m' -> good_allocation weights budget m')
    by (intros m' E; congruence).
  destruct (ciu_new_ok children weights budget m Hl Hb Es Hg) as (u & Hu).
  exists u. split; [exact Hu|]. exists (run_count (task_idx_map u)). split; [|split].
  - destruct (ciu_new_inv _ _ _ _ Hu) as (_ & m' & ? & Es' & _ & ->). cbn [task_idx_map].
    intros i w Hw. destruct (ga_exact _ _ _ (Hgood m' Es') i w Hw) as (n & Hn & Hm & Hr).
    unfold run_count. rewrite Hr, all_tasks_length. auto.
  - exact (built_child_task_counts children weights budget u Hu Hgood).
  - exists (fun t p => match ciu_delegate u (mkCtx t budget) p with Ok o => o | _ => None end). split.
    + intros t p Ht. destruct (delegate_ok children weights budget u Hu Hgood t p Ht) as (o & -> & _). reflexivity.
    + rewrite <- (built_reads children weights budget u Hu Hgood). apply Permutation_refl'.
      apply flat_map_ext_in. intros t Ht. apply flat_map_ext_in. intros p _.
      destruct (ciu_delegate u (mkCtx t budget) p); reflexivity.
Qed.

Theorem C08_union_rows (data : nat -> TaskCtx -> nat -> list row) :
  planner_weights weights budget -> List.length children = List.length weights ->
  (forall i c ctx p, nth_error children i = Some c -> p < ch_parts c -> ch_run c ctx p = Ok (data i ctx p)) ->
  exists u cnt out, ciu_new children weights budget = Ok u /\
    (forall i, i < List.length children -> 1 <= cnt i <= budget) /\
    (forall t p, t < budget -> p < ciu_parts u -> ciu_execute u (mkCtx t budget) p = Ok (out t p)) /\
    Permutation (flat_map (fun t => flat_map (out t) (seq 0 (ciu_parts u))) (seq 0 budget))
                (all_child_rows children cnt data).
Proof using.
  intros Hp Hl Hrun. pose proof Hp as (Hne & Hb & _).
  destruct (planner_weights_good weights budget Hp) as (m & Es & Hg).
  assert (Hgood : forall m', split_children weights budget = Ok m' -> good_allocation weights budget m')
    by (intros m' E; congruence).
  destruct (ciu_new_ok children weights budget m Hl Hb Es Hg) as (u & Hu).
  destruct (built_rows children weights budget u Hu Hgood data Hrun) as (out & H1 & H2).
  exists u, (run_count (task_idx_map u)), out. split; [exact Hu|]. split; [|split; assumption].
  intros i Hi. destruct (nth_error children i) as [c|] eqn:Ec; [|apply nth_error_None in Ec; lia].
  destruct (built_runs children weights budget u Hu Hgood i c Ec) as (n & Hn & <- & _). exact Hn.
Qed.

(** Replacing the children keeps the assignment of children to tasks. *)
Theorem C08_with_new_children children' u :
  planner_weights weights budget ->
  ciu_new children weights budget = Ok u -> List.length children' = List.length children ->
  exists u', ciu_with_new_children u children' = Ok u' /\ task_idx_map u' = task_idx_map u /\
             child_task_counts u' = child_task_counts u /\ ciu_children u' = children'.
Proof using.
  intros Hp Hu Hl. pose proof Hp as (Hne & Hb & _).
  destruct (planner_weights_good weights budget Hp) as (m & Es & Hg).
  assert (Hgood : forall m', split_children weights budget = Ok m' -> good_allocation weights budget m')
    by (intros m' E; congruence).
  destruct (built_with_new_children children weights budget u children' Hu Hgood Hl Hb) as (u' & H1 & H2 & H3).
  exists u'. split; [exact H1|]. split; [exact H3|]. split; [|exact (built_children _ _ _ _ H2)].
  rewrite (built_child_task_counts _ _ _ _ Hu Hgood), (built_child_task_counts _ _ _ _ H2 Hgood), H3, Hl.
  reflexivity.
Qed.

End C08.
Print Assumptions C08_union_reads_once.
Print Assumptions C08_union_rows.
Print Assumptions C08_with_new_children.

(** * Non-vacuity *)

Lemma desired_integer n : (Z.of_nat n < 2 ^ 64)%Z -> integer_weight (desired (f64_of_nat n)).
Proof. intros H. exists n. auto. Qed.
Lemma maximum_integer n : (Z.of_nat n < 2 ^ 64)%Z -> integer_weight (maximum n).
Proof. intros H. exists n. auto. Qed.

(** Four children, one capped and one with weight 0, over 5 tasks. *)
Example C07_hypotheses_met :
  planner_weights [desired (f64_of_nat 1); desired (f64_of_nat 7); maximum 1; desired (f64_of_nat 0)] 5 /\
  split_children [desired (f64_of_nat 1); desired (f64_of_nat 7); maximum 1; desired (f64_of_nat 0)] 5 =
    Ok [[(0, mkCtx 0 1); (2, mkCtx 0 1)]; [(1, mkCtx 0 4); (3, mkCtx 0 1)]; [(1, mkCtx 1 4)];
        [(1, mkCtx 2 4)]; [(1, mkCtx 3 4)]].
Proof.
  split.
  - split; [discriminate|]. split; [lia|]. split; [|reflexivity].
    repeat (apply Forall_cons; [split; [apply desired_integer || apply maximum_integer; reflexivity|discriminate]|]).
    constructor.
  - vm_compute. reflexivity.
Qed.

Example C07_any_weight_hypotheses_met :
  forallb valid_weight [desired (f64_div (f64_of_nat 1) (f64_of_nat 3)); maximum 2] = true /\
  floors_fit [desired (f64_div (f64_of_nat 1) (f64_of_nat 3)); maximum 2] 3.
Proof. split; [reflexivity|]. unfold floors_fit. apply Nat.leb_le. vm_compute. reflexivity. Qed.

Example C08_hypotheses_met :
  exists u, ciu_new [mkChild 2 (fun c p => Ok [task_index c; p]); mkChild 1 (fun c p => Ok [7])]
    [desired (f64_of_nat 3); maximum 1] 2 = Ok u /\
    ciu_execute u (mkCtx 0 2) 2 = Ok [7] /\ ciu_execute u (mkCtx 1 2) 1 = Ok [1; 1] /\
    ciu_execute u (mkCtx 1 2) 2 = Ok [].
Proof. eexists. split; [vm_compute; reflexivity|]. split; [|split]; reflexivity. Qed.
