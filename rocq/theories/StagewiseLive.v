(** Proofs about the sending going on: it ends, it does not get stuck, and branches do not wait for each
    other. *)
From Coq Require Import NArith.
From Verif Require Import Base NetModel CiuModel EventsModel JoinModel PlannerModel DynModel PlannerProofs
  StagewiseModel StagewiseSpec StagewiseProofs.
Open Scope nat_scope.

Section Live.
Context {row : Type}.
Notation tree := (tree row).
Variable cfg : settings row.
Variable bytes : N.
Variable cost : list nat -> Res (option N).
Variable routed : list nat -> Res unit.
Variable sent : list nat -> nat -> Res unit.
Variable sampled : list nat -> Res unit.

Notation wstep := (wstep cfg bytes cost routed sent sampled).
Notation resume := (resume cfg bytes cost routed sent).
Notation prepares := (prepares cfg bytes cost routed sent sampled).
Notation walk := (@walk row).
Notation inj := (inj cfg bytes cost).
Notation inv := (inv cfg bytes cost).

Lemma walk_ind' (P : walk -> Prop) :
  (forall parent t cs, Forall P cs -> P (Join parent t cs)) ->
  (forall num tasks b plan, P (Waiting num tasks b plan)) ->
  (forall r, P (Ready r)) -> (forall why, P (Broken why)) -> forall w, P w.
Proof.
  intros HJ HW HR HB. fix IH 1. intros [parent t cs|num tasks b plan|r|why].
  - apply HJ. induction cs as [|w cs IHcs]; constructor; [apply IH|exact IHcs].
  - apply HW.
  - apply HR.
  - apply HB.
Qed.

(** *** It does not get stuck *)

Lemma children_cases (P : walk -> Prop) : forall cs : list walk,
  Forall (fun w => (exists r, w = Ready r) \/ (exists why, w = Broken why) \/ P w) cs ->
  (exists rs, cs = map Ready rs) \/ (exists l w r, cs = l ++ w :: r /\ ((exists why, w = Broken why) \/ P w)).
Proof.
  induction cs as [|w cs IH]; intros H; [left; exists []; reflexivity|].
  inversion H as [|x y Hw Hcs]; subst. destruct Hw as [(r & ->)|Hw].
  - destruct (IH Hcs) as [(rs & ->)|(l & w & r' & -> & Hw)]; [left; exists (r :: rs); reflexivity|].
    right. exists (Ready r :: l), w, r'. auto.
  - right. exists [], w, cs. auto.
Qed.

Lemma goes_on : forall w at_ next, (exists r, w = Ready r) \/ (exists why, w = Broken why) \/
  exists evs next' w', wstep at_ next w evs next' w'.
Proof.
  induction w as [parent t cs IH|num tasks b plan|r|why] using walk_ind'; intros at_ next.
  - right. right.
    destruct (children_cases (fun w => forall at_ next, exists evs next' w', wstep at_ next w evs next' w') cs)
      as [(rs & ->)|(l & w & r & -> & [(why & ->)|Hw])].
    + rewrite Forall_forall in IH |- *. intros w Hw. specialize (IH w Hw).
      destruct w as [p u c|n ts b pl|r|why]; [right; right|right; right|left; eauto|right; left; eauto].
      1,2: intros a n'; destruct (IH a n') as [(x & X)|[(x & X)|X]]; [discriminate|discriminate|exact X].
    + destruct (resume at_ next parent t rs) as [[evs next'] w] eqn:E. exists evs, next', w. constructor. exact E.
    + exists [], next, (Broken why). constructor.
    + destruct (Hw (List.length l :: at_) next) as (evs & next' & w' & H).
      exists evs, next', (Join parent t (l ++ w' :: r)). constructor. exact H.
  - right. right. destruct (sampled at_) as [[]|m|m] eqn:E.
    + eexists _, _, _. apply step_sampled. exact E.
    + eexists _, _, _. eapply step_not_sampled; [exact E|discriminate].
    + eexists _, _, _. eapply step_not_sampled; [exact E|discriminate].
  - left. eauto.
  - right. left. eauto.
Qed.

(** *** It ends *)

Fixpoint weight (w : walk) : nat :=
  match w with
  | Join _ _ cs => 3 + list_sum (map weight cs)
  | Waiting _ _ _ _ => 2
  | Broken _ => 1
  | Ready _ => 0
  end.
Fixpoint nodes (t : tree) : nat :=
  match t with
  | Node _ cs | Ciu _ _ cs => S (list_sum (map nodes cs))
  | Net _ _ _ _ _ i => S (nodes i)
  end.

Lemma list_sum_split l (x : nat) r : list_sum (l ++ x :: r) = list_sum l + x + list_sum r.
Proof. rewrite list_sum_app. cbn. unfold list_sum. lia. Qed.

Lemma step_weight : forall at_ next w evs next' w', wstep at_ next w evs next' w' -> weight w' < weight w.
Proof.
  intros at_ next w evs next' w' H.
  induction H as [at_ next parent t l w r evs next' w' H IH|at_ next parent t l why r
    |at_ next parent t rs evs next' w H|at_ next num tasks b plan Hs|at_ next num tasks b plan why Hs Hn]; cbn [weight].
  - rewrite !map_app. cbn [map]. rewrite !list_sum_split. lia.
  - lia.
  - destruct (resume_cases _ _ _ _ _ _ _ _ _ _ _ _ _ H) as
      [(why & -> & -> & _)|[(-> & _ & _ & x & -> & _)|(b & tasks & sends & He' & -> & -> & Hsends & NDs & Hcase)]]; cbn [weight]; try lia.
    destruct Hcase as [(why & ->)|(_ & plan & _ & [(_ & x & -> & _)|(_ & ->)])]; cbn [weight]; lia.
  - destruct (put_boundary b tasks plan); cbn; lia.
  - lia.
Qed.

Lemma start_weight : forall (t : tree) parent, weight (start parent t) = 3 * nodes t.
Proof.
  assert (X : forall co cs, Forall (fun t : tree => forall parent, weight (start parent t) = 3 * nodes t) cs ->
    list_sum (map weight (map (start co) cs)) = 3 * list_sum (map nodes cs)).
  { intros co. induction cs as [|c cs IHc]; intros H; [reflexivity|]. inversion H; subst.
    cbn [map]. change (list_sum (?a :: ?l)) with (a + list_sum l). rewrite IHc by auto. rewrite H2. cbn [list_sum fold_right].
    unfold list_sum. lia. }
  induction t as [k cs IH|w m cs IH|b part q n ts i IH] using tree_ind'; intros parent; cbn [start weight nodes map].
  - rewrite X by exact IH. lia.
  - rewrite X by exact IH. lia.
  - change (list_sum (?a :: ?l)) with (a + list_sum l). rewrite IH. cbn. lia.
Qed.

Lemma prepares_weight p k log next w : prepares p k log next w -> k + weight w <= 3 * nodes p.
Proof.
  induction 1 as [|k log next w evs next' w' H IH Hs]; [rewrite start_weight; lia|].
  apply step_weight in Hs. lia.
Qed.

Lemma finishes p : forall n k log next w, weight w <= n -> prepares p k log next w ->
  exists k' evs next' w', prepares p k' (log ++ evs) next' w' /\ ((exists r, w' = Ready r) \/ exists why, w' = Broken why).
Proof.
  induction n as [|n IH]; intros k log next w Hw H.
  all: destruct (goes_on w [] next) as [(r & ->)|[(why & ->)|(evs & next' & w' & Hs)]];
    try (exists k, [], next; rewrite app_nil_r; eauto; fail).
  - apply step_weight in Hs. lia.
  - pose proof (step_weight _ _ _ _ _ _ Hs) as Hlt.
    destruct (IH (S k) (log ++ evs) next' w') as (k' & evs' & next'' & w'' & H' & E); [lia|econstructor; eauto|].
    exists k', (evs ++ evs'), next'', w''. rewrite app_assoc. auto.
Qed.

(** *** Nothing fails, nothing breaks *)

Inductive unbroken : walk -> Prop :=
| unbroken_join parent t cs : Forall unbroken cs -> unbroken (Join parent t cs)
| unbroken_wait num tasks b plan : unbroken (Waiting num tasks b plan)
| unbroken_ready r : unbroken (Ready r).

Lemma step_gap : forall at_ next w evs next' w', wstep at_ next w evs next' w' -> unbroken w' ->
  unbroken w /\ ((numbers evs = [] /\ next' = next) \/ (numbers evs = [next] /\ next' = S next)).
Proof.
  intros at_ next w evs next' w' H.
  induction H as [at_ next parent t l w r evs next' w' H IH|at_ next parent t l why r
    |at_ next parent t rs evs next' w H|at_ next num tasks b plan Hs|at_ next num tasks b plan why Hs Hn]; intros U.
  - inversion U as [a p cs Hcs| |]; subst. apply Forall_app in Hcs as [H1 H2]. inversion H2; subst.
    destruct IH as [U' E]; [assumption|]. split; [|exact E].
    constructor. apply Forall_app. split; [exact H1|]. constructor; assumption.
  - inversion U.
  - split.
    + constructor. rewrite Forall_map. apply Forall_forall. intros x _. constructor.
    + destruct (resume_cases _ _ _ _ _ _ _ _ _ _ _ _ _ H) as
        [(why & -> & -> & _)|[(-> & -> & _)|(b & tasks & sends & He' & -> & -> & Hsends & _)]]; [inversion U|left; auto|].
      right. apply sends_no_number in Hsends as [E _]. cbn. unfold numbers in E. rewrite E. auto.
  - split; [constructor|left; auto].
  - inversion U.
Qed.

Lemma no_gaps p k log next w : prepares p k log next w -> unbroken w ->
  numbers log = seq 1 (List.length (numbers log)) /\ next = S (List.length (numbers log)).
Proof.
  induction 1 as [|k log next w evs next' w' H IH Hs]; intros U; [split; reflexivity|].
  destruct (step_gap _ _ _ _ _ _ Hs U) as [U' E]. destruct (IH U') as [A B].
  unfold numbers in *. rewrite flat_map_app.
  destruct E as [[-> ->]|[-> ->]]; [rewrite app_nil_r; auto|].
  rewrite app_length. cbn [List.length]. rewrite Nat.add_1_r, seq_S, <- A, B. split; [|reflexivity].
  f_equal. 
Qed.

Lemma seqM_ok {A} : forall (l : list (Res A)) rs, seqM l = Ok rs ->
  List.length l = List.length rs /\ forall i x, nth_error l i = Some x -> exists r, x = Ok r.
Proof.
  induction l as [|x l IH]; intros rs H; cbn in H.
  - injection H as <-. split; [reflexivity|]. intros [|i] x Hx; discriminate.
  - destruct x as [a|m|m]; cbn in H; try discriminate. unfold seqM in IH.
    destruct (mapM (fun x => x) l) as [ys|m|m] eqn:E; cbn in H; try discriminate. injection H as <-.
    destruct (IH ys eq_refl) as [A1 A2]. split; [cbn; lia|].
    intros [|i] x Hx; cbn in Hx; [injection Hx as <-; eauto|eauto].
Qed.

Lemma inj_children at_ parent t r : inj at_ parent t = Ok r ->
  forall i c, nth_error (children t) i = Some c -> exists r', inj (i :: at_) (Some (is_coalesce t)) c = Ok r'.
Proof.
  intros H i c Hc.
  assert (K : forall cs, children t = cs -> forall rs,
    seqM (map (fun '(f, i) => f (i :: at_))
      (combine (map (fun c a => inj a (Some (is_coalesce t)) c) cs) (seq 0 (List.length cs)))) = Ok rs ->
    exists r', inj (i :: at_) (Some (is_coalesce t)) c = Ok r').
  { intros cs Ecs rs Hs. subst cs. apply seqM_ok in Hs as [_ Hs].
    destruct (nth_error (map (fun '(f, i) => f (i :: at_))
      (combine (map (fun c a => inj a (Some (is_coalesce t)) c) (children t)) (seq 0 (List.length (children t))))) i) as [x|] eqn:Ex.
    - pose proof Ex as Ex'. apply (nth_error_positions (fun c a => inj a (Some (is_coalesce t)) c)) in Ex' as (c' & Hc' & ->).
      rewrite Hc in Hc'. injection Hc' as <-. exact (Hs _ _ Ex).
    - apply nth_error_None in Ex. rewrite map_length, combine_length, map_length, seq_length, Nat.min_id in Ex.
      assert (nth_error (children t) i <> None) by congruence. apply nth_error_Some in H0. lia. }
  unfold StagewiseProofs.inj in *. destruct t as [k cs|w m cs|b part q n ts j]; cbn [inject_by] in H.
  - destruct (seqM _) as [rs|m|m] eqn:E in H; cbn [bind] in H; try discriminate. exact (K cs eq_refl rs E).
  - destruct (seqM _) as [rs|m'|m'] eqn:E in H; cbn [bind] in H; try discriminate. exact (K cs eq_refl rs E).
  - destruct (seqM _) as [rs|m'|m'] eqn:E in H; cbn [bind] in H; try discriminate. exact (K [j] eq_refl rs E).
Qed.

Hypothesis Hrouted : forall a, routed a = Ok tt.
Hypothesis Hsent : forall a i, sent a i = Ok tt.

Lemma send_tasks_ok at_ num : forall n i, snd (send_tasks sent at_ num i n) = Ok tt.
Proof.
  induction n as [|n IH]; intros i; cbn; [reflexivity|]. rewrite Hsent.
  specialize (IH (S i)). destruct (send_tasks sent at_ num (S i) n). exact IH.
Qed.

Lemma resume_unbroken at_ next parent t rs evs next' w r :
  resume at_ next parent t rs = (evs, next', w) ->
  inject_node cfg (propagate_remote cfg) (dynamic_boundary cfg bytes (mkObs (cost at_) (Ok tt))) parent t rs = Ok r ->
  unbroken w.
Proof.
  unfold StagewiseModel.resume, inject_node. intros H HI.
  destruct (desired_task_count cfg t) as [des|m|m]; cbn [bind] in *; try discriminate.
  destruct (max_tasks cfg) as [most|m|m] eqn:Hmost; cbn [bind] in *; try discriminate.
  set (count := limit (node_count cfg t des (map snd rs)) most) in *.
  set (t' := rebuild t rs) in *.
  destruct (stage_kind parent t') as [b|] eqn:K.
  - assert (Eb : dynamic_boundary cfg bytes (mkObs (cost at_) (Ok tt)) b t' count = Ok r).
    { unfold stage_kind in K. destruct (is_hash_repart t'); [injection K as <-; exact HI|].
      destruct (is_bcast t'); [injection K as <-; exact HI|].
      destruct parent as [[]|]; try discriminate. injection K as <-. exact HI. }
    unfold StagewiseModel.open_stage, StagewiseModel.sized, dynamic_boundary in *. cbn [o_cost o_started] in Eb.
    destruct (cost at_); cbn [bind] in *; try discriminate.
    rewrite Hmost in *. cbn [bind] in *.
    destruct (compute_based_task_count _ _ _ _) as [n|m|m]; cbn [bind] in *; try discriminate.
    destruct (propagate_remote _ _ _) as [plan|m|m]; cbn [bind] in *; try discriminate.
    rewrite Hrouted in H.
    pose proof (send_tasks_ok at_ next (as_usize (merge count (Desired n))) 0) as Hok.
    destruct (send_tasks sent at_ next 0 _) as [sends x]. cbn [snd] in Hok. subst x.
    injection H as <- <- <-. cbn [ended_with].
    destruct b; try constructor. cbn [put_boundary]. destruct (scale_partitioning _ _); cbn [bind ended_with] in *; try discriminate.
    constructor.
  - unfold stage_kind in K. destruct (is_hash_repart t'); [discriminate|].
    destruct (is_bcast t'); [discriminate|].
    destruct parent as [[]|]; try discriminate; injection H as <- <- <-; [constructor|].
    destruct (propagate_remote cfg t' (as_usize count)); cbn [bind ended_with] in *; try discriminate. constructor.
Qed.

(** A step that is not the end of a sampling with an error. *)
Lemma step_unbroken : (forall a, sampled a = Ok tt) ->
  forall at_ next w evs next' w', wstep at_ next w evs next' w' ->
  forall L parent t r, inv L at_ parent t w -> inj at_ parent t = Ok r -> unbroken w -> unbroken w'.
Proof.
  intros Hsampled at_ next w evs next' w' H.
  induction H as [at_ next parent t l w r evs next' w' H IH|at_ next parent t l why r
    |at_ next parent t rs evs next' w H|at_ next num tasks b plan Hs|at_ next num tasks b plan why Hs Hn];
    intros L par u x I J U.
  - inversion I as [a p v cs Hl Hc Ea Ep Eu| | |]; subst. inversion U as [a p cs Hcs| |]; subst.
    assert (exists c, nth_error (children t) (List.length l) = Some c) as [c Ec].
    { destruct (nth_error (children t) (List.length l)) eqn:E; [eauto|].
      apply nth_error_None in E. rewrite app_length in Hl. cbn in Hl. lia. }
    destruct (inj_children _ _ _ _ J _ _ Ec) as [r' J'].
    apply Forall_app in Hcs as [H1 H2]. inversion H2; subst.
    constructor. apply Forall_app. split; [exact H1|]. constructor; [|auto].
    eapply IH; eauto. apply (Hc _ _ _ Ec). rewrite nth_error_app2, Nat.sub_diag by lia. reflexivity.
  - inversion U as [a p cs Hcs| |]; subst. apply Forall_app in Hcs as [_ H2]. inversion H2 as [|? ? B _]; subst. inversion B.
  - assert (par = parent /\ u = t) as [-> ->] by (inversion I; auto).
    destruct (ready_children _ _ _ _ _ _ _ _ I) as [_ Hi]. rewrite Hi in J. eapply resume_unbroken; eauto.
  - inversion I as [|a p v n ts b' pl He Hnc Hr Hse Hb Hi| |]; subst. rewrite Hi in J. rewrite J. constructor.
  - congruence.
Qed.

Lemma start_unbroken : forall (t : tree) parent, unbroken (start parent t).
Proof.
  induction t as [k cs IH|w m cs IH|b part q n ts i IH] using tree_ind'; intros parent; cbn [start]; constructor.
  1,2: rewrite Forall_map; eapply Forall_impl; [|exact IH]; auto.
  constructor; [apply IH|constructor].
Qed.

Lemma prepares_unbroken p r : (forall a, sampled a = Ok tt) -> inj [] None p = Ok r ->
  forall k log next w, prepares p k log next w -> unbroken w.
Proof.
  intros Hsampled J k log next w H.
  induction H as [|k log next w evs next' w' H IH Hs]; [apply start_unbroken|].
  eapply step_unbroken; eauto. eapply prepares_inv; eauto.
Qed.

(** *** Branches do not wait for each other *)

Inductive wsteps : list nat -> nat -> walk -> list event -> nat -> walk -> Prop :=
| wsteps_none at_ next w : wsteps at_ next w [] next w
| wsteps_more at_ next w evs next' w' evs' next'' w'' :
    wstep at_ next w evs next' w' -> wsteps at_ next' w' evs' next'' w'' ->
    wsteps at_ next w (evs ++ evs') next'' w''.

Lemma wsteps_app : forall at_ next w evs next' w', wsteps at_ next w evs next' w' ->
  forall evs' next'' w'', wsteps at_ next' w' evs' next'' w'' -> wsteps at_ next w (evs ++ evs') next'' w''.
Proof.
  induction 1 as [|at_ next w evs next' w' evs' next'' w'' H1 H2 IH]; intros e n z Hz; [exact Hz|].
  rewrite <- app_assoc. econstructor; eauto.
Qed.
Lemma wsteps_one at_ next w evs next' w' : wstep at_ next w evs next' w' -> wsteps at_ next w evs next' w'.
Proof. intros H. rewrite <- (app_nil_r evs). econstructor; [exact H|constructor]. Qed.

Lemma wsteps_child : forall at' next w evs next' w', wsteps at' next w evs next' w' ->
  forall at_ parent t l r, at' = List.length l :: at_ ->
  wsteps at_ next (Join parent t (l ++ w :: r)) evs next' (Join parent t (l ++ w' :: r)).
Proof.
  induction 1 as [a n0 w0|a next w evs next' w' evs' next'' w'' H1 H2 IH]; intros at_ parent t l r ->; [constructor|].
  econstructor; [constructor; exact H1|auto].
Qed.

Lemma wsteps_inv : forall at_ next w evs next' w', wsteps at_ next w evs next' w' ->
  forall L parent t, inv L at_ parent t w -> inv (L ++ evs) at_ parent t w'.
Proof.
  induction 1 as [a n0 w0|a next w evs next' w' evs' next'' w'' H1 H2 IH]; intros L parent t I; [rewrite app_nil_r; exact I|].
  rewrite app_assoc. apply IH. eapply step_inv; eauto.
Qed.
Lemma wsteps_fresh : forall at_ next w evs next' w', wsteps at_ next w evs next' w' ->
  forall L, NoDup L -> fresh L at_ w -> NoDup (L ++ evs) /\ fresh (L ++ evs) at_ w'.
Proof.
  induction 1 as [a n0 w0|a next w evs next' w' evs' next'' w'' H1 H2 IH]; intros L ND F; [rewrite app_nil_r; auto|].
  rewrite app_assoc. destruct (step_fresh _ _ _ _ _ _ _ _ _ _ _ _ H1 L ND F) as [ND' F']. apply IH; auto.
Qed.
Lemma wsteps_place : forall at_ next w evs next' w', wsteps at_ next w evs next' w' ->
  forall e, In e evs -> exists x, place e = x ++ at_.
Proof.
  induction 1 as [a n0 w0|a next w evs next' w' evs' next'' w'' H1 H2 IH]; intros e He; [destruct He|].
  apply in_app_or in He as [He|He]; [|auto]. eapply step_place; eauto.
Qed.

Lemma wsteps_prepares p : forall at_ next w evs next' w', wsteps at_ next w evs next' w' -> at_ = [] ->
  forall k log, prepares p k log next w -> exists k', prepares p k' (log ++ evs) next' w'.
Proof.
  induction 1 as [a n0 w0|a next w evs next' w' evs' next'' w'' H1 H2 IH]; intros -> k log H.
  - rewrite app_nil_r. eauto.
  - rewrite app_assoc. eapply IH; [reflexivity|]. econstructor; eauto.
Qed.

Definition calm (evs : list event) : Prop := forall q n, ~ In (Sampled q n) evs.
Lemma calm_app a b : calm a -> calm b -> calm (a ++ b).
Proof. intros A B q n H. apply in_app_or in H as [H|H]; [exact (A q n H)|exact (B q n H)]. Qed.
Lemma resume_calm at_ next parent t rs evs next' w : resume at_ next parent t rs = (evs, next', w) -> calm evs.
Proof.
  intros H q n He. destruct (resume_cases _ _ _ _ _ _ _ _ _ _ _ _ _ H) as
    [(why & -> & _)|[(-> & _)|(b & tasks & sends & He' & -> & -> & Hsends & _)]]; try (destruct He; fail).
  destruct He as [E|He]; [discriminate|]. destruct (Hsends _ He) as (k & _ & E). discriminate.
Qed.

(** The children of a node can end one after the other, if each can. *)
Lemma drain_children at_ parent t : forall cs rs L next,
  NoDup L ->
  (forall i w, nth_error cs i = Some w -> fresh L (List.length rs + i :: at_) w) ->
  (forall i w M next, nth_error cs i = Some w -> fresh (L ++ M) (List.length rs + i :: at_) w -> NoDup (L ++ M) ->
     exists evs next' r, wsteps (List.length rs + i :: at_) next w evs next' (Ready r) /\ calm evs) ->
  exists evs next' rs', wsteps at_ next (Join parent t (map Ready rs ++ cs)) evs next' (Join parent t (map Ready (rs ++ rs')))
    /\ calm evs.
Proof.
  induction cs as [|w cs IH]; intros rs L next ND F D.
  - exists [], next, []. rewrite !app_nil_r. split; [constructor|]. intros q n [].
  - destruct (D 0 w [] next eq_refl) as (evs & next' & r & Hs & Hc).
    { rewrite app_nil_r. apply F. reflexivity. } { rewrite app_nil_r. exact ND. }
    rewrite Nat.add_0_r in Hs.
    pose proof (wsteps_fresh _ _ _ _ _ _ Hs L ND) as X.
    destruct X as [ND' _]. { specialize (F 0 w eq_refl). rewrite Nat.add_0_r in F. exact F. }
    destruct (IH (rs ++ [r]) (L ++ evs) next' ND') as (evs' & next'' & rs' & Hs' & Hc').
    + intros i x Hx. apply fresh_more.
      * specialize (F (S i) x Hx). rewrite app_length. cbn. rewrite <- Nat.add_assoc. exact F.
      * intros e y He E. destruct (wsteps_place _ _ _ _ _ _ Hs e He) as [z Ez]. rewrite Ez in E.
        apply suffix_same in E as [E _]. rewrite app_length in E. cbn in E. lia.
    + intros i x M n Hx Fx NDx. rewrite <- app_assoc in Fx, NDx.
      assert (El : List.length (rs ++ [r]) + i = List.length rs + S i) by (rewrite app_length; cbn; lia).
      rewrite El in *. exact (D (S i) x (evs ++ M) n Hx Fx NDx).
    + exists (evs ++ evs'), next'', (r :: rs'). split; [|apply calm_app; auto].
      eapply wsteps_app.
      * apply (wsteps_child _ _ _ _ _ _ Hs). rewrite map_length. reflexivity.
      * rewrite map_app, <- app_assoc in Hs'. cbn [map Datatypes.app] in Hs'. rewrite <- app_assoc in Hs'. exact Hs'.
Qed.

Definition sampled_below (L : list event) (at_ : list nat) (parent : option bool) (t : tree) : Prop :=
  forall q b, stage_at at_ parent t q b -> b <> BCoalesce -> exists n, In (Sampled q n) L.

(** A part of the plan in which each stage to sample was sampled can be walked to its end. *)
Lemma drain : forall w L at_ parent t r next,
  inv L at_ parent t w -> fresh L at_ w -> NoDup L -> unbroken w -> inj at_ parent t = Ok r ->
  sampled_below L at_ parent t ->
  exists evs next' r', wsteps at_ next w evs next' (Ready r') /\ calm evs.
Proof.
  induction w as [par u cs IH|num tasks b plan|x|why] using walk_ind'; intros L at_ parent t r next I F ND U J S.
  - assert (par = parent /\ u = t) as [-> ->] by (inversion I; auto).
    inversion I as [a p v cs' Hl Hc Ea Ep Eu| | |]; subst. inversion U as [a p cs' Hcs| |]; subst.
    inversion F as [a p v cs' Hno Hfc Ea Ep| | |]; subst.
    destruct (drain_children at_ parent t cs [] L next ND) as (evs & next' & rs & Hs & Hcalm).
    + exact Hfc.
    + intros i w M n Hw Fw NDw. cbn [List.length Nat.add] in *.
      assert (exists c, nth_error (children t) i = Some c) as [c Ec].
      { destruct (nth_error (children t) i) eqn:E; [eauto|]. apply nth_error_None in E.
        assert (nth_error cs i <> None) by congruence. apply nth_error_Some in H. lia. }
      destruct (inj_children _ _ _ _ J _ _ Ec) as [r' J'].
      rewrite Forall_forall in IH, Hcs. assert (Hin : In w cs) by (eapply nth_error_In; eauto).
      eapply (IH w Hin (L ++ M) (i :: at_) (Some (is_coalesce t)) c r' n); auto.
      * apply inv_more. eauto.
      * intros q b Hq Hb. destruct (S q b) as [m Hm]; [eapply stage_below; eauto|exact Hb|].
        exists m. apply in_or_app. auto.
    + cbn [map Datatypes.app] in Hs.
      pose proof (wsteps_inv _ _ _ _ _ _ Hs L parent t I) as I'.
      destruct (ready_children _ _ _ _ _ _ _ _ I') as [_ Hi]. rewrite Hi in J.
      destruct (resume at_ next' parent t rs) as [[evs2 next2] w2] eqn:Er.
      assert (U2 := resume_unbroken _ _ _ _ _ _ _ _ _ Er J).
      assert (exists r2, w2 = Ready r2) as [r2 ->].
      { destruct (resume_cases _ _ _ _ _ _ _ _ _ _ _ _ _ Er) as
          [(why & -> & -> & _)|[(-> & _ & _ & x & -> & _)|(b & tasks & sends & He' & -> & -> & Hsends & NDs & Hcase)]];
          [inversion U2|eauto|].
        destruct Hcase as [(why & ->)|(_ & plan & _ & [(_ & x & -> & _)|(Hnc & ->)])]; [inversion U2|eauto|].
        exfalso. destruct (S at_ b) as [n Hn]; [constructor; exact He'|exact Hnc|]. exact (Hno _ Hn eq_refl). }
      exists (evs ++ evs2), next2, r2. split; [|apply calm_app; [exact Hcalm|eapply resume_calm; eauto]].
      eapply wsteps_app; [exact Hs|]. apply wsteps_one. constructor. exact Er.
  - exfalso. inversion I as [|a p v n ts b' pl He Hnc Hr Hse Hb Hi| |]; subst.
    inversion F as [|a n' ts' b' pl' Hno| |]; subst.
    destruct (S at_ b) as [n Hn]; [constructor; exact He|exact Hnc|]. exact (Hno n Hn).
  - exists [], next, x. split; [constructor|intros q n []].
  - inversion U.
Qed.

Lemma can_route : forall at_ parent (t : tree) q b, stage_at at_ parent t q b ->
  forall w L r next, inv L at_ parent t w -> fresh L at_ w -> NoDup L -> unbroken w -> inj at_ parent t = Ok r ->
  (forall n ts, ~ In (Routed q n b ts) L) ->
  (forall q' b', stage_at at_ parent t q' b' -> under q' q -> b' <> BCoalesce -> exists n, In (Sampled q' n) L) ->
  exists evs next' w', wsteps at_ next w evs next' w' /\ calm evs /\ exists n ts, In (Routed q n b ts) evs.
Proof.
  intros at_ parent t q b H.
  induction H as [at_ parent t b He|at_ parent t i c q b Ec Hq IH]; intros w L r next I F ND U J Hnr Hbelow.
  - destruct w as [par u cs|num tasks b2 plan|x|why].
    + assert (par = parent /\ u = t) as [-> ->] by (inversion I; auto).
      inversion I as [a p v cs' Hl Hc Ea Ep Eu| | |]; subst. inversion U as [a p cs' Hcs| |]; subst.
      inversion F as [a p v cs' Hno Hfc Ea Ep| | |]; subst.
      destruct (drain_children at_ parent t cs [] L next ND) as (evs & next' & rs & Hs & Hcalm).
      * exact Hfc.
      * intros i w M n Hw Fw NDw. cbn [List.length Nat.add] in *.
        assert (exists c, nth_error (children t) i = Some c) as [c Ec].
        { destruct (nth_error (children t) i) eqn:E; [eauto|]. apply nth_error_None in E.
          assert (nth_error cs i <> None) by congruence. apply nth_error_Some in H. lia. }
        destruct (inj_children _ _ _ _ J _ _ Ec) as [r' J'].
        rewrite Forall_forall in Hcs. assert (Hin : In w cs) by (eapply nth_error_In; eauto).
        eapply (drain w (L ++ M) (i :: at_) (Some (is_coalesce t)) c r' n); auto.
        -- apply inv_more. eauto.
        -- intros q b' Hq Hb. destruct (Hbelow q b') as [m Hm]; [eapply stage_below; eauto| |exact Hb|].
           ++ destruct (stage_at_place _ _ _ _ _ Hq) as [x ->]. exists (x ++ [i]).
              split; [destruct x; discriminate|rewrite <- app_assoc; reflexivity].
           ++ exists m. apply in_or_app. auto.
      * cbn [map Datatypes.app] in Hs.
        pose proof (wsteps_inv _ _ _ _ _ _ Hs L parent t I) as I'.
        destruct (ready_children _ _ _ _ _ _ _ _ I') as [_ Hi]. rewrite Hi in J.
        destruct (resume at_ next' parent t rs) as [[evs2 next2] w2] eqn:Er.
        assert (U2 := resume_unbroken _ _ _ _ _ _ _ _ _ Er J).
        exists (evs ++ evs2), next2, w2.
        split; [eapply wsteps_app; [exact Hs|]; apply wsteps_one; constructor; exact Er|].
        split; [apply calm_app; [exact Hcalm|eapply resume_calm; eauto]|].
        destruct (resume_cases _ _ _ _ _ _ _ _ _ _ _ _ _ Er) as
          [(why & -> & -> & _)|[(-> & _ & Hn & _)|(b' & tasks & sends & He' & -> & -> & Hsends & NDs & Hcase)]];
          [inversion U2|exfalso; eapply Hn; eauto|].
        rewrite (ends_stage_one _ _ _ _ He He'). exists next', tasks. apply in_or_app. right. left. reflexivity.
    + exfalso. inversion I as [|a p v n ts b' pl He2 Hnc Hr Hse Hb Hi| |]; subst.
      rewrite (ends_stage_one _ _ _ _ He He2) in Hnr. eapply Hnr; eauto.
    + exfalso. inversion I as [| |a p v y Hset Hi|]; subst. destruct (Hset at_ b) as [(n & ts & Hr & _) _]; [constructor; exact He|].
      eapply Hnr; eauto.
    + inversion U.
  - destruct w as [par u cs|num tasks b2 plan|x|why].
    + assert (par = parent /\ u = t) as [-> ->] by (inversion I; auto).
      inversion I as [a p v cs' Hl Hc Ea Ep Eu| | |]; subst. inversion U as [a p cs' Hcs| |]; subst.
      inversion F as [a p v cs' Hno Hfc Ea Ep| | |]; subst.
      assert (exists w, nth_error cs i = Some w) as [w Ew].
      { destruct (nth_error cs i) eqn:E; [eauto|]. apply nth_error_None in E.
        assert (nth_error (children t) i <> None) by congruence. apply nth_error_Some in H. lia. }
      destruct (inj_children _ _ _ _ J _ _ Ec) as [r' J'].
      rewrite Forall_forall in Hcs. assert (Hin : In w cs) by (eapply nth_error_In; eauto).
      destruct (IH w L r' next) as (evs & next' & w' & Hs & Hcalm & Hr); auto.
      * intros q' b' Hq' Hu Hb. eapply Hbelow; eauto. eapply stage_below; eauto.
      * apply nth_error_split in Ew as (l & r2 & -> & El).
        exists evs, next', (Join parent t (l ++ w' :: r2)). split; [|auto].
        apply (wsteps_child _ _ _ _ _ _ Hs). congruence.
    + exfalso. inversion I as [|a p v n ts b' pl He2 Hnc Hr Hse Hb Hi| |]; subst.
      destruct (Hb _ _ _ _ Ec Hq) as [(n & ts & Hr' & _) _]. eapply Hnr; eauto.
    + exfalso. inversion I as [| |a p v y Hset Hi|]; subst. destruct (Hset q b) as [(n & ts & Hr & _) _]; [eapply stage_below; eauto|].
      eapply Hnr; eauto.
    + inversion U.
Qed.
End Live.
