(** Proofs about task counts chosen while the query runs. *)
From Coq Require Import NArith ZArith.
From Verif Require Import Base NetModel NetSpec CiuModel CiuSpec EventsModel JoinModel PlannerModel PlannerSpec PlannerProofs
  DynModel DynSpec.
Open Scope nat_scope.

Section Dyn.
Context {row : Type}.
Notation tree := (tree row).
Variable cfg : settings row.
Variable bytes : N.

(** ** The number of tasks *)

Lemma div_ceil_spec a b c : usize_div_ceil a b = Ok c -> (b <> 0 /\ a <= c * b /\ (c <> 0 -> (c - 1) * b < a))%N.
Proof.
  unfold usize_div_ceil. destruct (N.eqb_spec b 0) as [|Hb]; [discriminate|]. intros H. injection H as <-.
  split; [exact Hb|]. set (c := ((a + b - 1) / b)%N).
  pose proof (N.div_mod (a + b - 1) b Hb) as E. fold c in E.
  pose proof (N.mod_lt (a + b - 1) b Hb) as L. set (r := ((a + b - 1) mod b)%N) in *.
  split; nia.
Qed.

Lemma compute_range cpu parts most n : 1 <= most -> compute_based_task_count bytes cpu parts most = Ok n -> 1 <= n <= most.
Proof.
  unfold compute_based_task_count. intros Hm H.
  destruct (usize_div_ceil cpu _) as [a| |]; cbn [bind] in H; try discriminate.
  destruct (usize_div_ceil a _) as [b| |]; cbn [bind] in H; try discriminate. injection H as <-. lia.
Qed.

(** ** Building a stage *)

Lemma propagate_remote_eq : ignores_boundaries cfg -> forall t n, propagate_remote cfg t n = propagate cfg t n.
Proof.
  intros Hi. induction t as [k cs IH|w m cs IH|b part q num tasks i IH] using tree_ind'; intros n.
  - destruct cs as [|c0 cs0]; [reflexivity|]. cbn [propagate_remote propagate]. f_equal. f_equal.
    apply map_ext_in. intros c Hc. rewrite Forall_forall in IH. now apply IH.
  - destruct cs as [|c0 cs0]; [reflexivity|]. set (cs := c0 :: cs0) in *.
    change (propagate_remote cfg (Ciu w m cs) n) with
      (if negb (List.length cs =? List.length w) then Err "children and weights differ" else
      let* m := split_children w n in
      let* cs' := seqM (map (fun '(f, n) => f n)
                     (combine (map (propagate_remote cfg) cs) (map_task_counts (List.length cs) m))) in
      Ok (Ciu w m cs')).
    change (propagate cfg (Ciu w m cs) n) with
      (if negb (List.length cs =? List.length w) then Err "children and weights differ" else
      let* m := split_children w n in
      let* cs' := seqM (map (fun '(f, n) => f n)
                     (combine (map (propagate cfg) cs) (map_task_counts (List.length cs) m))) in
      Ok (Ciu w m cs')).
    destruct (negb _); [reflexivity|]. destruct (split_children w n) as [m'| |]; cbn [bind]; try reflexivity.
    f_equal. f_equal. generalize (map_task_counts (List.length cs) m'). clear -IH.
    induction IH as [|c cs Hc _ IHl]; intros [|k l]; cbn; try reflexivity. rewrite Hc. f_equal. apply IHl.
  - cbn. now rewrite Hi.
Qed.

Variable most : nat.
Hypothesis Hmost : max_tasks cfg = Ok most.
Hypothesis Hsane : sane_handlers cfg.
Hypothesis Hleaf : leaf_handlers cfg.
Hypothesis Hignore : ignores_boundaries cfg.

Lemma dynamic_builds (obs : list nat -> observation) : builds cfg most (fun at_ => dynamic_boundary cfg bytes (obs at_)).
Proof using Hmost Hignore.
  intros at_ b t count q a H. unfold dynamic_boundary in H.
  destruct (o_cost (obs at_)) as [cost| |]; cbn [bind] in H; try discriminate.
  rewrite Hmost in H. cbn [bind] in H.
  destruct (compute_based_task_count _ _ _ _) as [n| |] eqn:En; cbn [bind] in H; try discriminate.
  pose proof (most_pos cfg most Hmost) as Hpos. apply compute_range in En; [|exact Hpos].
  rewrite propagate_remote_eq in H by exact Hignore. set (tasks := as_usize (merge count (Desired n))) in *.
  destruct (propagate cfg t tasks) as [i| |] eqn:Ep; cbn [bind] in H; try discriminate.
  destruct (o_started (obs at_)) as [u| |]; cbn [bind] in H; try discriminate.
  exists tasks, i. split; [exact Ep|]. split; [right; exists n; split; [exact En|reflexivity]|].
  assert (M1 : machine (Desired 1)) by (split; [cbn; lia|discriminate]).
  assert (M2 : machine (Maximum 1)) by (split; [cbn; lia|intros k E; injection E as <-; lia]).
  destruct b.
  - injection H as <- <-. split; [reflexivity|]. split; [exact M1|discriminate].
  - injection H as <- <-. split; [reflexivity|]. split; [exact M1|discriminate].
  - destruct (scale_partitioning _ _) as [p| |] eqn:Es; cbn [bind] in H; try discriminate. injection H as <- <-.
    split; [|split; [exact M2|auto]]. intros Ht. f_equal.
    assert (E : Nat.max (div_ceil tasks 1) 1 = tasks).
    { unfold div_ceil. replace (tasks + 1 - 1) with tasks by lia. rewrite Nat.div_1_r. lia. }
    rewrite E in Es. cbn [boundary_partitioning]. unfold scale_partitioning in *. destruct (tpartitioning i); try discriminate; congruence.
Qed.

Lemma dynamic_planned obs p q a : has_net p = false -> fits most p -> dynamic_inject cfg bytes obs p = Ok (q, a) ->
  planned_root cfg (within_limits cfg most) p (as_usize a) q.
Proof using Hmost Hsane Hignore.
  intros Hn Hf H.
  destruct (inject_by_spec cfg most Hmost Hsane (propagate_remote cfg)
    (fun t n i E => eq_trans (eq_sym (propagate_remote_eq Hignore t n)) E) _ (dynamic_builds obs) p [] None (q, a) Hn Hf H) as (_ & Hi).
  unfold planned_root. cbn in Hi. destruct (cut false p) as [b|].
  - exact (proj1 Hi).
  - exact (proj2 Hi).
Qed.

(** ** The plan that runs *)

Lemma positions_map {A B} (f : A -> list nat -> B) at_ : forall cs s,
  Forall2 (fun c d => exists at_, d = f c at_) cs
    (map (fun '(g, i) => g (i :: at_)) (combine (map f cs) (seq s (List.length cs)))).
Proof. induction cs as [|c cs IH]; intros s; cbn; constructor; eauto. Qed.

Lemma number_local num : forall (t : tree) at_, has_net t = false -> number cfg num at_ t = t.
Proof using.
  intros t. induction t as [k cs IH|w m cs IH|b part q0 nm ts i IH] using tree_ind'; intros at_ Hn; [| |discriminate].
  all: cbn [number]; f_equal; cbn in Hn; rewrite existsb_false in Hn; rewrite Forall_forall in IH.
  all: pose proof (positions_map (fun c at_ => number cfg num at_ c) at_ cs 0) as F; revert F;
    match goal with |- Forall2 _ _ ?l -> _ => generalize l end; intros l F.
  all: apply Forall2_nth in F as [L F]; apply nth_ext_error; intros i; destruct (nth_error cs i) as [c|] eqn:Ec;
    [|apply nth_error_None in Ec; apply nth_error_None; lia].
  all: destruct (nth_error l i) as [d|] eqn:Ed;
    [|apply nth_error_None in Ed; assert (i < List.length cs) by (apply nth_error_Some; congruence); lia].
  all: destruct (F i c d Ec Ed) as (at' & ->); f_equal; apply nth_error_In in Ec; now apply IH; [|apply Hn].
Qed.

Lemma connect_local : forall (t : tree) n d, has_net t = false -> connect t n = Ok d -> d = t.
Proof using.
  intros t. induction t as [k cs IH|w m cs IH|b part q0 nm ts i IH] using tree_ind'; intros n d Hn H; [| |discriminate].
  - cbn [connect] in H. match type of H with bind (seqM ?l) _ = _ => destruct (seqM l) as [ds| |] eqn:Es; cbn [bind] in H; try discriminate end.
    injection H as <-. f_equal. apply (seqM_map_inv (fun c => connect c n)) in Es. cbn in Hn. rewrite existsb_false in Hn. rewrite Forall_forall in IH.
    clear -IH Hn Es. induction Es as [|c d cs ds E _ IHl]; [reflexivity|]. f_equal.
    + apply (IH c (or_introl eq_refl) n); [apply Hn; now left|exact E].
    + apply IHl; [intros x Hx; apply IH; now right|intros x Hx; apply Hn; now right].
  - cbn [connect] in H. match type of H with bind (seqM ?l) _ = _ => destruct (seqM l) as [ds| |] eqn:Es; cbn [bind] in H; try discriminate end.
    injection H as <-. f_equal. apply seqM_inv in Es.
    fold (combined connect cs (map_task_counts (List.length cs) m)) in Es.
    apply combined_Forall2 in Es as [L Es]; [|apply map_task_counts_length].
    cbn in Hn. rewrite existsb_false in Hn. rewrite Forall_forall in IH. apply nth_ext_error. intros i.
    destruct (nth_error cs i) as [c|] eqn:Ec.
    + destruct (nth_error ds i) as [d|] eqn:Ed.
      * pose proof (Es i c d Ec Ed) as E. f_equal. apply nth_error_In in Ec. eapply IH; eauto.
      * apply nth_error_None in Ed. assert (i < List.length cs) by (apply nth_error_Some; congruence). lia.
    + apply nth_error_None in Ec. apply nth_error_None. lia.
Qed.

Lemma number_parts num : forall (t : tree) at_, tparts (number cfg num at_ t) = tparts t.
Proof using.
  intros t. induction t as [k cs IH|w m cs IH|b part q0 nm ts i IH] using tree_ind'; intros at_; [| |reflexivity].
  all: cbn [number]; first [apply tparts_ext|apply tparts_ciu_ext]; rewrite Forall_forall in IH.
  all: pose proof (positions_map (fun c at_ => number cfg num at_ c) at_ cs 0) as F; revert F;
    match goal with |- Forall2 _ _ ?l -> _ => generalize l end; intros l F.
  all: clear -IH F; induction F as [|c d cs ds (at' & ->) _ IHl]; [reflexivity|]; cbn; f_equal;
    [apply IH; now left|apply IHl; intros; apply IH; now right].
Qed.

Lemma number_partitioning num (t : tree) at_ : tpartitioning (number cfg num at_ t) = tpartitioning t.
Proof using.
  pose proof (number_parts num t at_) as E. destruct t; cbn [number] in *; unfold tpartitioning; rewrite ?E; reflexivity.
Qed.

Variable Q : tree -> nat -> Prop.
Hypothesis HQ : forall c k, Q c k -> 1 <= k.
Hypothesis Hdyn : dynamic_task_count cfg = true.

Lemma never_elided n tasks : elided cfg n tasks = false.
Proof using Hdyn. unfold elided. now rewrite Hdyn. Qed.

Lemma connect_child num below c s q n at_ d :
  (forall s q n at_ d, planned cfg Q c s q -> connect (number cfg num at_ q) n = Ok d ->
     deployed cfg Q c s n d /\ tparts d = tparts q /\ tpartitioning d = tpartitioning q) ->
  pchild Q below c (planned cfg Q c) s q -> connect (number cfg num at_ q) n = Ok d ->
  dchild cfg Q below c (deployed cfg Q c) s n d /\ tparts d = tparts q.
Proof using HQ Hdyn.
  intros IH Hp H. unfold pchild in Hp. unfold dchild. destruct (cut below c) as [b|].
  - destruct Hp as (tasks & i & -> & Hq & Hp). cbn [connect number] in H.
    destruct (connect (number cfg num (0 :: at_) i) tasks) as [i'| |] eqn:Ei; cbn [bind] in H; try discriminate.
    destruct (IH _ _ _ _ _ Hp Ei) as (Hd & Et & Ep).
    assert (Eb : boundary_partitioning b i tasks = boundary_partitioning b i' tasks).
    { destruct b; cbn [boundary_partitioning]; rewrite ?Ep, ?Et; reflexivity. }
    destruct (producer_head_of b _ n) as [h| |] eqn:Eh; cbn [bind] in H; try discriminate.
    destruct (insert_head_node h i') as [plan| |] eqn:Epl; cbn [bind] in H; try discriminate.
    destruct (restage b _ tasks tasks) as [part'| |] eqn:Er; cbn [bind] in H; try discriminate.
    injection H as <-. apply restage_same in Er; [|exact (HQ _ _ Hq)]. subst part'. rewrite Eb in *.
    split; [|cbn [tparts]; reflexivity].
    exists tasks, i'. rewrite never_elided. split; [exact Hq|]. split; [exact Hd|]. exists (num at_), h, plan. auto.
  - destruct (IH _ _ _ _ _ Hp H) as (Hd & Et & _). auto.
Qed.

Theorem connect_deployed num : forall p s q n at_ d, planned cfg Q p s q -> connect (number cfg num at_ q) n = Ok d ->
  deployed cfg Q p s n d /\ tparts d = tparts q /\ tpartitioning d = tpartitioning q.
Proof using HQ Hleaf Hdyn.
  assert (Hparts : forall ds qs : list tree, List.length ds = List.length qs ->
    (forall i d q, nth_error ds i = Some d -> nth_error qs i = Some q -> tparts d = tparts q) ->
    map tparts ds = map tparts qs).
  { clear. induction ds as [|d ds IH]; intros [|q qs] L H; try discriminate; [reflexivity|]. cbn. f_equal.
    - exact (H 0 d q eq_refl eq_refl).
    - apply IH; [cbn in L; lia|]. intros i. exact (H (S i)). }
  induction p as [k cs IH|w m cs IH|b part qi nn tasks i IH] using tree_ind'; intros s q n at_ d Hp H;
    [| |destruct Hp]; rewrite Forall_forall in IH.
  - destruct cs as [|c0 cs0].
    { cbn in Hp. destruct (scaled_leaf cfg Hleaf (Node k []) _ _ eq_refl eq_refl Hp) as [Hc Hn].
      rewrite number_local in H by exact (leaf_local q Hc Hn).
      apply connect_local in H; [|exact (leaf_local q Hc Hn)]. subst d. auto. }
    set (cs := c0 :: cs0) in *. apply planned_node in Hp as (qs & -> & Hqs); [|discriminate].
    cbn [connect number] in H. pose proof (positions_map (fun c at_ => number cfg num at_ c) at_ qs 0) as P. revert P H.
    match goal with |- Forall2 _ _ ?l -> _ => generalize l end. intros l P H. apply Forall2_nth in P as [L0 P].
    match type of H with bind (seqM ?l) _ = _ => destruct (seqM l) as [ds| |] eqn:Es; cbn [bind] in H; try discriminate end.
    injection H as <-. apply (seqM_map_inv (fun c => connect c n)) in Es. apply Forall2_nth in Es as [L1 F]. apply Forall2_nth in Hqs as [L2 Hqs].
    assert (G : forall i c q d, nth_error cs i = Some c -> nth_error qs i = Some q -> nth_error ds i = Some d ->
      dchild cfg Q (is_coalesce (Node k cs)) c (deployed cfg Q c) s n d /\ tparts d = tparts q).
    { intros i c q d Hc Hq Hd. destruct (nth_error l i) as [x|] eqn:Hx;
        [|apply nth_error_None in Hx; assert (i < List.length ds) by (apply nth_error_Some; congruence); lia].
      destruct (P i q x Hq Hx) as (at' & ->). pose proof (F i _ d Hx Hd) as E.
      eapply connect_child; [|exact (Hqs i c q Hc Hq)|exact E]. intros. eapply IH; eauto. eapply nth_error_In; exact Hc. }
    assert (Hlk : forall i, i < List.length cs -> exists q, nth_error qs i = Some q).
    { intros i Hi. destruct (nth_error qs i) eqn:E; [eauto|]. apply nth_error_None in E. lia. }
    assert (E : tparts (Node k ds) = tparts (Node k qs)).
    { apply tparts_ext. apply Hparts; [lia|]. intros i d q Hd Hq.
      destruct (nth_error cs i) as [c|] eqn:Hc; [exact (proj2 (G i c q d Hc Hq Hd))|].
      apply nth_error_None in Hc. assert (i < List.length qs) by (apply nth_error_Some; congruence). lia. }
    split; [|split; [exact E|unfold tpartitioning; rewrite E; reflexivity]].
    apply deployed_node; [discriminate|]. exists ds. split; [reflexivity|]. apply Forall2_nth. split; [lia|].
    intros i c d Hc Hd. destruct (Hlk i) as (q & Hq); [apply nth_error_Some; congruence|]. exact (proj1 (G i c q d Hc Hq Hd)).
  - destruct cs as [|c0 cs0].
    { cbn in Hp. destruct (scaled_leaf cfg Hleaf (Ciu w m []) _ _ eq_refl eq_refl Hp) as [Hc Hn].
      rewrite number_local in H by exact (leaf_local q Hc Hn).
      apply connect_local in H; [|exact (leaf_local q Hc Hn)]. subst d. auto. }
    set (cs := c0 :: cs0) in *. apply planned_ciu in Hp as (w' & m' & qs & -> & Hs & Hgood & Hw & HA & L2 & Hqs); [|discriminate].
    cbn [connect number] in H. pose proof (positions_map (fun c at_ => number cfg num at_ c) at_ qs 0) as P. revert P H.
    match goal with |- Forall2 _ _ ?l -> _ => generalize l end. intros l P H. apply Forall2_nth in P as [L0 P].
    match type of H with bind (seqM ?l) _ = _ => destruct (seqM l) as [ds| |] eqn:Es; cbn [bind] in H; try discriminate end.
    injection H as <-. apply seqM_inv in Es. fold (combined connect l (map_task_counts (List.length l) m')) in Es.
    apply combined_Forall2 in Es as [L1 F]; [|apply map_task_counts_length].
    assert (G : forall i c q d, nth_error cs i = Some c -> nth_error qs i = Some q -> nth_error ds i = Some d ->
      dchild cfg Q false c (deployed cfg Q c) (nth i (map_task_counts (List.length cs) m') 0) (nth i (map_task_counts (List.length cs) m') 0) d
      /\ tparts d = tparts q).
    { intros i c q d Hc Hq Hd. destruct (nth_error l i) as [x|] eqn:Hx;
        [|apply nth_error_None in Hx; assert (i < List.length ds) by (apply nth_error_Some; congruence); lia].
      destruct (P i q x Hq Hx) as (at' & ->). pose proof (F i _ d Hx Hd) as E. rewrite <- L0, L2 in E.
      eapply connect_child; [|exact (Hqs i c q Hc Hq)|exact E]. intros. eapply IH; eauto. eapply nth_error_In; exact Hc. }
    assert (Hlk : forall i, i < List.length cs -> exists q, nth_error qs i = Some q).
    { intros i Hi. destruct (nth_error qs i) eqn:E; [eauto|]. apply nth_error_None in E. lia. }
    assert (E : tparts (Ciu w' m' ds) = tparts (Ciu w' m' qs)).
    { apply tparts_ciu_ext. apply Hparts; [lia|]. intros i d q Hd Hq.
      destruct (nth_error cs i) as [c|] eqn:Hc; [exact (proj2 (G i c q d Hc Hq Hd))|].
      apply nth_error_None in Hc. assert (i < List.length qs) by (apply nth_error_Some; congruence). lia. }
    split; [|split; [exact E|unfold tpartitioning; now rewrite E]].
    apply deployed_ciu; [discriminate|]. exists w', m', ds. split; [reflexivity|]. split; [exact Hs|]. split; [exact Hgood|]. split; [exact Hw|].
    split; [exact HA|]. split; [lia|]. intros i c d Hc Hd. cbn zeta.
    destruct (Hlk i) as (q & Hq); [apply nth_error_Some; congruence|]. exact (proj1 (G i c q d Hc Hq Hd)).
Qed.

End Dyn.

(** ** Boundaries placed by the user *)

Section Placed.
Context {row : Type}.
Notation tree := (tree row).
Variable cfg : settings row.

Lemma flat_map_incl {A B} (f g : A -> list B) xs ys : Forall2 (fun x y => incl (f x) (g y)) xs ys -> incl (flat_map f xs) (flat_map g ys).
Proof.
  induction 1 as [|x y xs ys H _ IH]; [intros z []|]. cbn. apply incl_app; [now apply incl_appl|now apply incl_appr].
Qed.

Lemma propagate_stages : forall (t : tree) n i, propagate cfg t n = Ok i -> incl (stages t) (stages i).
Proof.
  induction t as [k cs IH|w m cs IH|b part q num tasks t IH] using tree_ind'; intros n i H.
  - destruct cs as [|c0 cs0]; [intros x []|]. cbn [propagate] in H.
    match type of H with bind (seqM ?l) _ = _ => destruct (seqM l) as [ds| |] eqn:Es; cbn [bind] in H; try discriminate end.
    injection H as <-. apply (seqM_map_inv (fun c => propagate cfg c n)) in Es.
    apply (flat_map_incl stages stages). rewrite Forall_forall in IH. eapply Forall2_impl_in; [|exact Es]. intros c d Hc E. cbn beta in E. exact (IH c Hc n d E).
  - destruct cs as [|c0 cs0]; [intros x []|]. set (cs := c0 :: cs0) in *.
    change (propagate cfg (Ciu w m cs) n) with
      (if negb (List.length cs =? List.length w) then Err "children and weights differ" else
      let* m := split_children w n in
      let* cs' := seqM (map (fun '(f, n) => f n)
                     (combine (map (propagate cfg) cs) (map_task_counts (List.length cs) m))) in
      Ok (Ciu w m cs')) in H.
    destruct (negb _); [discriminate|]. destruct (split_children w n) as [m'| |]; cbn [bind] in H; try discriminate.
    match type of H with bind (seqM ?l) _ = _ => destruct (seqM l) as [ds| |] eqn:Es; cbn [bind] in H; try discriminate end.
    injection H as <-. apply seqM_inv in Es.
    fold (combined (propagate cfg) cs (map_task_counts (List.length cs) m')) in Es.
    apply combined_Forall2 in Es as [L Es]; [|apply map_task_counts_length].
    apply (flat_map_incl stages stages). apply Forall2_nth. split; [lia|]. intros j c d Hc Hd.
    rewrite Forall_forall in IH. eapply IH; [eapply nth_error_In; exact Hc|exact (Es j c d Hc Hd)].
  - injection H as <-. apply incl_refl.
Qed.

Variable bytes : N.
Hypothesis Hignore : ignores_boundaries cfg.

Lemma dynamic_boundary_stages obs b (t : tree) count q a : dynamic_boundary cfg bytes obs b t count = Ok (q, a) ->
  incl (stages t) (stages q).
Proof using Hignore.
  intros H. unfold dynamic_boundary in H.
  destruct (o_cost obs) as [cost| |]; cbn [bind] in H; try discriminate.
  destruct (max_tasks cfg) as [most| |]; cbn [bind] in H; try discriminate.
  destruct (compute_based_task_count _ _ _ _) as [n| |]; cbn [bind] in H; try discriminate.
  rewrite propagate_remote_eq in H by exact Hignore.
  destruct (propagate cfg t _) as [i| |] eqn:Ep; cbn [bind] in H; try discriminate. apply propagate_stages in Ep.
  destruct (o_started obs) as [u| |]; cbn [bind] in H; try discriminate.
  destruct b.
  - injection H as <- <-. now apply incl_appl.
  - injection H as <- <-. now apply incl_appl.
  - destruct (scale_partitioning _ _) as [p| |]; cbn [bind] in H; try discriminate. injection H as <- <-. now apply incl_appl.
Qed.

Lemma dynamic_inject_stages obs : forall (t : tree) at_ par r,
  inject_by cfg (propagate_remote cfg) (fun at_ => dynamic_boundary cfg bytes (obs at_)) at_ par t = Ok r ->
  incl (stages t) (stages (fst r)).
Proof using Hignore.
  assert (Hnode : forall at_ par (t : tree) rs r, incl (stages t) (stages (rebuild t rs)) ->
    inject_node cfg (propagate_remote cfg) (dynamic_boundary cfg bytes (obs at_)) par t rs = Ok r -> incl (stages t) (stages (fst r))).
  { intros at_ par t rs [q a] Hr H. unfold inject_node in H.
    destruct (desired_task_count cfg t) as [des| |]; cbn [bind] in H; try discriminate.
    destruct (max_tasks cfg) as [most| |]; cbn [bind] in H; try discriminate. cbn [fst].
    eapply incl_tran; [exact Hr|]. destruct (is_hash_repart _); [eapply dynamic_boundary_stages; exact H|].
    destruct (is_bcast _); [eapply dynamic_boundary_stages; exact H|].
    destruct par as [[|]|]; [eapply dynamic_boundary_stages; exact H| |].
    - injection H as <- <-. apply incl_refl.
    - rewrite propagate_remote_eq in H by exact Hignore.
      destruct (propagate cfg _ _) as [i| |] eqn:Ep; cbn [bind] in H; try discriminate. injection H as <- <-.
      eapply propagate_stages. exact Ep. }
  intros t. induction t as [k cs IH|w m cs IH|b part q num tasks i IH] using tree_ind'; intros at_ par r H; cbn [inject_by] in H.
  - match type of H with bind (seqM ?l) _ = _ => destruct (seqM l) as [rs| |] eqn:Es; cbn [bind] in H; try discriminate end.
    apply seqM_positions in Es. eapply Hnode; [|exact H]. cbn [rebuild stages].
    apply flat_map_incl. apply Forall2_nth in Es as [L Es]. apply Forall2_nth. split; [now rewrite map_length|].
    intros j c d Hc Hd. rewrite nth_error_map in Hd. destruct (nth_error rs j) as [r'|] eqn:Er; [|discriminate]. injection Hd as <-.
    destruct (Es j c r' Hc Er) as (at' & E). rewrite Forall_forall in IH. eapply IH; [eapply nth_error_In; exact Hc|exact E].
  - match type of H with bind (seqM ?l) _ = _ => destruct (seqM l) as [rs| |] eqn:Es; cbn [bind] in H; try discriminate end.
    apply seqM_positions in Es. eapply Hnode; [|exact H]. destruct cs as [|c0 cs0]; [intros x []|]. cbn [rebuild].
    set (cs := c0 :: cs0) in *. cbn [stages].
    apply flat_map_incl. apply Forall2_nth in Es as [L Es]. apply Forall2_nth. split; [now rewrite map_length|].
    intros j c d Hc Hd. rewrite nth_error_map in Hd. destruct (nth_error rs j) as [r'|] eqn:Er; [|discriminate]. injection Hd as <-.
    destruct (Es j c r' Hc Er) as (at' & E). rewrite Forall_forall in IH. eapply IH; [eapply nth_error_In; exact Hc|exact E].
  - cbn [seqM mapM] in H. destruct (inject_by _ _ _ (0 :: at_) (Some false) i) as [r1| |] eqn:Ei; cbn [bind] in H; try discriminate.
    eapply Hnode; [|exact H]. destruct r1 as [i' a1]. cbn [rebuild stages]. apply incl_app; [|now apply incl_appr].
    apply incl_appl. exact (IH _ _ _ Ei).
Qed.

Lemma local_stages_refused : forall (t : tree) num tasks, In (num, tasks) (stages t) -> num <> 0 -> 1 < tasks ->
  local_stages t <> Ok tt.
Proof.
  intros t. induction t as [k cs IH|w m cs IH|b part q num' tasks' i IH] using tree_ind'; intros num tasks Hin Hn Ht H; cbn [local_stages stages] in *.
  - apply in_flat_map in Hin as (c & Hc & Hin). rewrite Forall_forall in IH. specialize (IH c Hc num tasks Hin Hn Ht).
    destruct (seqM _) as [l| |] eqn:E; cbn [bind] in H; try discriminate. apply seqM_map_inv in E.
    apply Forall2_nth in E as [L E]. apply In_nth_error in Hc as (j & Hj). destruct (nth_error l j) as [[]|] eqn:El; [apply IH; eauto|].
    apply nth_error_None in El. assert (j < List.length cs) by (apply nth_error_Some; congruence). lia.
  - apply in_flat_map in Hin as (c & Hc & Hin). rewrite Forall_forall in IH. specialize (IH c Hc num tasks Hin Hn Ht).
    destruct (seqM _) as [l| |] eqn:E; cbn [bind] in H; try discriminate. apply seqM_map_inv in E.
    apply Forall2_nth in E as [L E]. apply In_nth_error in Hc as (j & Hj). destruct (nth_error l j) as [[]|] eqn:El; [apply IH; eauto|].
    apply nth_error_None in El. assert (j < List.length cs) by (apply nth_error_Some; congruence). lia.
  - destruct (negb (num' =? 0) && (1 <? tasks')) eqn:E; [discriminate|]. apply in_app_iff in Hin as [Hin|[Hin|[]]]; [eapply IH; eauto|].
    injection Hin as -> ->. apply andb_false_iff in E as [E|E].
    + apply negb_false_iff, Nat.eqb_eq in E. contradiction.
    + apply Nat.ltb_ge in E. lia.
Qed.

Lemma stages_nums (t : tree) : map fst (stages t) = stage_nums t.
Proof.
  induction t as [k cs IH|w m cs IH|b part q num tasks i IH] using tree_ind'; cbn.
  - induction IH as [|c cs Hc _ IHl]; [reflexivity|]. cbn. now rewrite map_app, Hc, IHl.
  - induction IH as [|c cs Hc _ IHl]; [reflexivity|]. cbn. now rewrite map_app, Hc, IHl.
  - rewrite map_app, IH. reflexivity.
Qed.

Lemma user_placed_refused obs num (t p : tree) : has_net t = true -> distribute cfg t = Ok (TDistributed p) ->
  Exists (fun s => 1 < snd s) (stages p) -> forall d, dynamic_plan cfg bytes obs num p <> Ok d.
Proof using Hignore.
  intros Hn H Hex d Hd. unfold distribute in H. rewrite Hn in H.
  destruct (scale_leaves cfg t 1) as [t0| |]; cbn [bind] in H; try discriminate.
  destruct (prepare cfg t0 1 1) as [[d0 id]| |] eqn:E; cbn [bind fst] in H; try discriminate.
  destruct (has_net d0); cbn [negb] in H; [|discriminate].
  destruct (push_fetch d0) as [d'| |] eqn:P; cbn [bind] in H; try discriminate. injection H as ->.
  destruct (push_facts d0 p P) as (A & _). destruct (prepare_tidy cfg t0 1 1 d0 id E) as (_ & B & _). rewrite <- A in B.
  apply Exists_exists in Hex as ([k tasks] & Hin & Ht). cbn in Ht.
  assert (Hk : k <> 0).
  { assert (Hk : In k (stage_nums p)) by (rewrite <- stages_nums; apply in_map_iff; exists (k, tasks); auto).
    rewrite B in Hk. apply in_seq in Hk. lia. }
  unfold dynamic_plan in Hd. destruct (dynamic_inject cfg bytes obs p) as [r| |] eqn:Er; cbn [bind] in Hd; try discriminate.
  pose proof (dynamic_inject_stages obs p [] None r Er (k, tasks) Hin) as Hin'.
  pose proof (local_stages_refused (fst r) k tasks Hin' Hk Ht) as Hl.
  destruct (local_stages (fst r)) as [[]| |]; [now apply Hl|discriminate|discriminate].
Qed.

End Placed.

Section Whole.
Context {row : Type}.
Notation tree := (tree row).
Variable cfg : settings row.
Variable bytes : N.
Variable most : nat.
Hypothesis Hmost : max_tasks cfg = Ok most.
Hypothesis Hdyn : dynamic_task_count cfg = true.
Hypothesis Hsane : sane_handlers cfg.
Hypothesis Hleaf : leaf_handlers cfg.
Hypothesis Hignore : ignores_boundaries cfg.

Lemma dynamic_deployed obs num (p d : tree) : has_net p = false -> fits most p -> dynamic_plan cfg bytes obs num p = Ok d ->
  exists s, (cut false p = None -> within_limits cfg most p s) /\
  dchild cfg (within_limits cfg most) false p (deployed cfg (within_limits cfg most) p) s 1 d.
Proof using Hmost Hdyn Hsane Hleaf Hignore.
  intros Hn Hf H. unfold dynamic_plan in H.
  destruct (dynamic_inject cfg bytes obs p) as [[q a]| |] eqn:Ei; cbn [bind fst] in H; try discriminate.
  destruct (local_stages q) as [u| |]; cbn [bind] in H; try discriminate.
  pose proof (dynamic_planned cfg bytes most Hmost Hsane Hignore obs p q a Hn Hf Ei) as HP. exists (as_usize a).
  unfold planned_root in HP. split; [intros E; rewrite E in HP; exact (proj1 HP)|].
  refine (proj1 (connect_child cfg (within_limits cfg most) _ Hdyn num false p (as_usize a) q 1 [] d _ _ H)).
  - intros c k [Hk _]. lia.
  - intros s q' n at_ d' Hp Hc. eapply (connect_deployed cfg Hleaf); eauto. intros c k [Hk _]. lia.
  - unfold pchild. destruct (cut false p); [exact HP|exact (proj2 HP)].
Qed.

End Whole.
