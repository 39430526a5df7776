(** Properties C09, C14 and C36. *)
From Verif Require Import Base NetModel CiuModel EventsModel PlanModel PlanSpec PlanProofs.

(** * C14: tree walks hand every node the right task context *)

(** Visits (used to collect and attribute metrics and to find the feeds of a task): exactly the nodes
    that run in the task, each once, with its context, a node before everything below it. *)
Theorem C14_visit : forall p ctx, runnable p ctx ->
  exists L : list (pos * (plan * TaskCtx)),
    (forall at_ n c, In (at_, (n, c)) L <-> runs_at p ctx at_ n c) /\
    parents_first L /\
    forall (S : Type) (g : S -> pos -> plan -> TaskCtx -> Res S) s,
      apply_with_dt_ctx (fun s at_ n c => let* s := g s at_ n c in Ok (s, Continue)) p [] ctx s =
      let* s := foldM (fun s '(at_, (n, c)) => g s at_ n c) L s in Ok (s, Continue).
Proof.
  intros p ctx Hr. exists (preorder slot_kids (height p) p ctx).
  pose proof (positions_preorder (height p) p ctx (le_n _)) as HP. split; [|split].
  - intros at_ n c. rewrite <- positions_runs, HP, in_map_iff. split.
    + intros H. exists (at_, (n, c)). auto.
    + intros ([a [n' c']] & E & H). injection E as <- <- <-. assumption.
  - apply (preorder_parents_first _ runnable); auto using slot_kids_nodup. intros. eapply slot_kids_runnable; eassumption.
  - intros S g s.
    pose proof (apply_positions (fun s '(at_, n, c) => g s at_ n c) p [] ctx s Hr) as H.
    unfold always_continue in H. rewrite H, HP. clear.
    assert (G : forall l s, foldM (fun s '(at_, n, c) => g s at_ n c)
       (map (fun '(a, (n, c)) => (a, n, c)) (l : list (pos * (plan * TaskCtx)))) s
       = foldM (fun s '(at_, (n, c)) => g s at_ n c) l s).
    { induction l as [|[a [n c]] l IH]; intros s0; cbn; [reflexivity|]. destruct (g s0 a n c); cbn; auto. }
    now rewrite G.
Qed.

Print Assumptions C14_visit.

(** Top-down rewrites with a task context: whatever the callback does, the stack of contexts yields what
    passing the context explicitly yields. *)
Theorem C14_rewrite_with_context : forall (S : Type) (f : S -> plan -> TaskCtx -> Res (S * plan * tnr)) fuel s p ctx,
  transform_down_with_dt_ctx fuel f s p ctx = down_with_ctx fuel f s p (Some ctx).
Proof.
  intros S f fuel s p ctx. unfold transform_down_with_dt_ctx.
  pose proof (down_stack f fuel s p (Some ctx) []) as H.
  destruct (transform_down _ _ _ _) as [[[[s1 st] p1] t1]| |], (down_with_ctx _ _ _ _ _) as [[[s2 p2] t2]| |];
    cbn in H; try contradiction; cbn; try congruence.
  destruct H as (-> & -> & -> & _). reflexivity.
Qed.

Print Assumptions C14_rewrite_with_context.

(** For callbacks that do not deepen nodes the recursion bound plays no role. *)
Theorem C14_rewrite_terminates : forall (S : Type) (f : S -> plan -> TaskCtx -> Res (S * plan * tnr)) fuel s p ctx,
  (forall s p ctx s' p' t, f s p ctx = Ok (s', p', t) -> height p' <= height p) ->
  height p <= fuel ->
  transform_down_with_dt_ctx fuel f s p ctx = transform_down_with_dt_ctx (height p) f s p ctx.
Proof.
  intros S f fuel s p ctx Hf Hh. rewrite !C14_rewrite_with_context. now apply down_fuel.
Qed.

Print Assumptions C14_rewrite_terminates.

(** A rewrite that only looks sees exactly the nodes that run in the task, each once, with its context,
    parents first, and changes nothing. *)
Theorem C14_rewrite_sees : forall p ctx fuel, runnable p ctx -> height p <= fuel ->
  exists L : list (pos * (plan * TaskCtx)),
    (forall at_ n c, In (at_, (n, c)) L <-> runs_at p ctx at_ n c) /\
    parents_first L /\
    forall (S : Type) (g : S -> plan -> TaskCtx -> Res S) s,
      transform_down_with_dt_ctx fuel (fun s n c => let* s := g s n c in Ok (s, n, Continue)) s p ctx =
      let* s := foldM (fun s e => g s (fst (snd e)) (snd (snd e))) L s in Ok (s, p, Continue).
Proof.
  intros p ctx fuel Hr Hh. exists (preorder ctx_kids fuel p ctx). split; [|split].
  - intros at_ n c. rewrite preorder_reach by assumption. now apply runnable_reach.
  - apply (preorder_parents_first _ (fun _ _ => True)); auto using ctx_kids_nodup.
  - intros S g s. rewrite C14_rewrite_with_context. now apply (down_read_only g).
Qed.

Print Assumptions C14_rewrite_sees.

(** Bottom-up rewrites with a task count (used to finalise the network boundaries): the stack yields
    what passing the count explicitly yields, for callbacks that continue or stop. *)
Theorem C14_rewrite_up_partial : forall (S : Type) (f : S -> plan -> nat -> Res (S * plan * tnr)) fuel s p tc,
  (forall s p tc s' p' t, f s p tc = Ok (s', p', t) -> t <> Jump) ->
  transform_up_with_task_count fuel f s p tc = up_with_count fuel f s p tc.
Proof.
  intros S f fuel s p tc Hf. unfold transform_up_with_task_count.
  pose proof (up_stack f Hf fuel s p tc []) as H.
  destruct (transform_down_up _ _ _ _ _) as [[[[s1 st] p1] t1]| |], (up_with_count _ _ _ _ _) as [[[s2 p2] t2]| |];
    cbn in H; try contradiction; cbn; try congruence.
  destruct H as (-> & -> & -> & _). reflexivity.
Qed.

Print Assumptions C14_rewrite_up_partial.

(** Missing: a callback that jumps. The parent's callback is then skipped but its task count stays on the
    stack, so that nodes visited later get the count of another stage. (No callback in the code jumps.) *)
Theorem C14_jump_refuted : exists (f : list (nat * nat) -> plan -> nat -> Res (list (nat * nat) * plan * tnr)) p fuel seen tc n,
  height p <= fuel /\
  transform_up_with_task_count fuel f [] p tc = Ok (seen, p, Continue) /\
  In (op_id (match n with POp o _ => o | _ => mkOp 0 0 None end), 7) seen /\
  (exists at_, counts_at p tc at_ n tc) /\ tc <> 7 /\
  forall at_ ntc, counts_at p tc at_ n ntc -> ntc = tc.
Proof.
  exists (fun s p tc => match p with
    | POp o _ => Ok (s ++ [(op_id o, tc)], p, if op_id o =? 3 then Jump else Continue)
    | _ => Ok (s, p, Continue) end).
  exists (POp (mkOp 1 1 None) [PBoundary 5 1 7 [POp (mkOp 4 1 None) [POp (mkOp 3 1 None) []]]; POp (mkOp 2 1 None) []]).
  exists 4, [(3, 7); (2, 7); (1, 2)], 2, (POp (mkOp 2 1 None) []).
  split; [cbn; lia|]. split; [reflexivity|]. split; [cbn; auto|].
  split; [exists [1]; econstructor; [reflexivity|constructor]|]. split; [lia|].
  intros at_ ntc H. apply counts_reach in H. apply (preorder_reach tc_kids 4) in H; [|cbn; lia].
  cbn in H. repeat (destruct H as [H|H]; [injection H; intros; subst; discriminate || reflexivity|]). contradiction.
Qed.

Print Assumptions C14_jump_refuted.

(** A bottom-up rewrite that only looks sees every node of the plan (also below boundaries) once, with
    the task count of its stage or union slot, after everything below it. *)
Theorem C14_up_sees : forall p tc fuel, height p <= fuel ->
  exists L : list (pos * (plan * nat)),
    (forall at_ n c, In (at_, (n, c)) L <-> counts_at p tc at_ n c) /\
    children_first L /\
    forall (S : Type) (g : S -> plan -> nat -> Res S) s,
      transform_up_with_task_count fuel (fun s n c => let* s := g s n c in Ok (s, n, Continue)) s p tc =
      let* s := foldM (fun s e => g s (fst (snd e)) (snd (snd e))) L s in Ok (s, p, Continue).
Proof.
  intros p tc fuel Hh. exists (postorder tc_kids fuel p tc). split; [|split].
  - intros at_ n c. rewrite postorder_reach by assumption. apply counts_reach.
  - apply (postorder_children_first _ (fun _ _ => True)); auto using tc_kids_nodup.
  - intros S g s. rewrite C14_rewrite_up_partial.
    + now apply (up_read_only g).
    + intros s0 q c s' p' t H. destruct (g s0 q c); cbn in H; try discriminate. injection H as _ _ <-. discriminate.
Qed.

Print Assumptions C14_up_sees.

(** Top-down rewrites with a task count. *)
Theorem C14_rewrite_with_count : forall (S : Type) (f : S -> plan -> nat -> Res (S * plan * tnr)) fuel s p tc,
  transform_down_with_task_count fuel f s p tc = down_with_count fuel f s p tc.
Proof.
  intros S f fuel s p tc. unfold transform_down_with_task_count.
  pose proof (down_tc_stack f fuel s p tc []) as H.
  destruct (transform_down_up _ _ _ _ _) as [[[[s1 st] p1] t1]| |], (down_with_count _ _ _ _ _) as [[[s2 p2] t2]| |];
    cbn in H; try contradiction; cbn; try congruence.
  destruct H as (-> & -> & -> & _). reflexivity.
Qed.

Print Assumptions C14_rewrite_with_count.

Theorem C14_down_count_sees : forall p tc fuel, height p <= fuel ->
  exists L : list (pos * (plan * nat)),
    (forall at_ n c, In (at_, (n, c)) L <-> counts_at p tc at_ n c) /\
    parents_first L /\
    forall (S : Type) (g : S -> plan -> nat -> Res S) s,
      transform_down_with_task_count fuel (fun s n c => let* s := g s n c in Ok (s, n, Continue)) s p tc =
      let* s := foldM (fun s e => g s (fst (snd e)) (snd (snd e))) L s in Ok (s, p, Continue).
Proof.
  intros p tc fuel Hh. exists (preorder tc_kids fuel p tc). split; [|split].
  - intros at_ n c. rewrite preorder_reach by assumption. apply counts_reach.
  - apply (preorder_parents_first _ (fun _ _ => True)); auto using tc_kids_nodup.
  - intros S g s. rewrite C14_rewrite_with_count. now apply (down_tc_read_only g).
Qed.

Print Assumptions C14_down_count_sees.

(** A plan with nested unions, a boundary with a local stage and a per-task leaf. *)
Definition ex_leaf (i : nat) : plan := POp (mkOp i 2 None) [].
Definition ex_plan : plan :=
  POp (mkOp 1 2 None)
    [PCiu 2 [[(1, mkCtx 0 1)]; [(0, mkCtx 0 1)]]
       [POp (mkOp 2 2 None) [PDle 2 (ex_leaf 10) [ex_leaf 11]];
        PCiu 2 [[(1, mkCtx 0 1); (0, mkCtx 0 1)]] [ex_leaf 3; ex_leaf 4]];
     PBoundary 5 2 3 []].

Lemma ex_plan_runs at_ n c : runs_at ex_plan (mkCtx 0 2) at_ n c ->
  In (at_, n, c) (positions ex_plan [] (mkCtx 0 2)).
Proof. apply positions_runs. Qed.
Lemma ex_plan_runs1 at_ n c : runs_at ex_plan (mkCtx 1 2) at_ n c ->
  In (at_, n, c) (positions ex_plan [] (mkCtx 1 2)).
Proof. apply positions_runs. Qed.

Ltac ex_cases H := cbn in H; repeat (destruct H as [H|H]; [injection H as <- <- <-|]); try contradiction.
Ltac nodup := repeat (constructor; [cbn; intuition discriminate|]); constructor.

Example C14_hypotheses_met : forall t, t < 2 -> runnable ex_plan (mkCtx t 2).
Proof.
  intros [|[|t]] Ht at_ n c H; [apply ex_plan_runs in H|apply ex_plan_runs1 in H|lia].
  - ex_cases H; cbn; auto.
    + eexists. split; [reflexivity|]. split; [nodup|]. repeat constructor.
    + eexists. split; [reflexivity|]. split; [nodup|]. repeat constructor.
  - ex_cases H; cbn; auto.
    + eexists. split; [reflexivity|]. split; [nodup|]. repeat constructor.
    + eexists. split; reflexivity.
Qed.

(** * C09: trimming a plan for one task *)

Section C09.
Context {row : Type}.
Variable op_run : op -> TaskCtx -> list (nat -> Res (list row)) -> nat -> Res (list row).
Variable boundary_run : nat -> TaskCtx -> nat -> Res (list row).
(** Operators depend on what their children yield only, and a feed in remote mode yields the same work
    units as a local one (property C38). *)
Hypothesis op_run_ext : forall o ctx cs cs' q,
  Forall2 (fun f g => forall q, f q = g q) cs cs' -> op_run o ctx cs q = op_run o ctx cs' q.
Hypothesis op_run_remote : forall id n feed r ctx cs q,
  op_run (mkOp id n (Some (feed, true))) ctx cs q = op_run (mkOp id n (Some (feed, r))) ctx cs q.

Notation exec := (exec_plan op_run boundary_run).

(** Trimming succeeds, and the trimmed plan yields in its task what the whole plan yields, for every
    partition; it advertises the same partitions and contains no per-task leaf holder. The hypothesis on
    per-task leaves that run as the only task of their slot is needed because the untrimmed leaf then
    executes the original plan. *)
Theorem C09_trimming_partial : forall p ctx fuel,
  runnable p ctx -> plain_variants p ctx -> height p <= fuel ->
  (forall at_ k o vs nctx v, runs_at p ctx at_ (PDle k o vs) nctx -> task_count nctx = 1 ->
     nth_error vs (task_index nctx) = Some v -> forall q, exec v nctx q = exec o nctx q) ->
  exists p' feeds, task_specialized_plan fuel p ctx = Ok (p', feeds) /\
    (forall q, exec p' ctx q = exec p ctx q) /\
    parts_of p' = parts_of p /\
    (remote_boundaries p ctx -> no_leaf_holder p').
Proof using op_run_ext op_run_remote.
  intros p ctx fuel Hr Hv Hh Hl. exists (trimmed p ctx), (decls p ctx). split; [|split; [|split]].
  - unfold task_specialized_plan. rewrite C14_rewrite_with_context, trim_walk by assumption. reflexivity.
  - apply trim_exec; auto. intros o c cs q. destruct o as [id n [[f r]|]]; cbn; [apply op_run_remote|reflexivity].
  - now apply trimmed_parts.
  - intros Hb. now apply trimmed_nlh.
Qed.
End C09.

Print Assumptions C09_trimming_partial.

(** Without that hypothesis the claim is false: a leaf scaled to one task yields the original's rows
    untrimmed and the variant's rows trimmed. *)
Theorem C09_lone_variant_refuted : exists (op_run : op -> TaskCtx -> list (nat -> Res (list nat)) -> nat -> Res (list nat)) p ctx p' feeds q,
  runnable p ctx /\ plain_variants p ctx /\
  task_specialized_plan (height p) p ctx = Ok (p', feeds) /\
  q < parts_of p /\ exec_plan op_run (fun _ _ _ => Ok []) p' ctx q <> exec_plan op_run (fun _ _ _ => Ok []) p ctx q.
Proof.
  exists (fun o _ _ q => if q <? op_parts o then Ok [op_id o * 10 + q] else Err "no such partition").
  exists (PDle 2 (POp (mkOp 1 1 None) []) [POp (mkOp 2 2 None) []]), (mkCtx 0 1).
  eexists. exists [], 1. split; [|split; [|split; [reflexivity|split; [cbn; lia|discriminate]]]].
  - intros at_ n c H. apply positions_runs in H. ex_cases H. eexists. split; reflexivity.
  - intros at_ k o vs c H. apply positions_runs in H. cbn in H. destruct H as [H|[]]. injection H as <- <- <- <- <-.
    repeat constructor.
Qed.

Print Assumptions C09_lone_variant_refuted.

(** The feeds declared for a task are those of the operators that run in it, with their partitions. *)
Theorem C09_declared_feeds : forall p ctx fuel p' feeds,
  runnable p ctx -> plain_variants p ctx -> height p <= fuel ->
  task_specialized_plan fuel p ctx = Ok (p', feeds) ->
  forall feed n, In (feed, n) feeds <->
    exists at_ id r cs nctx, runs_at p ctx at_ (POp (mkOp id n (Some (feed, r))) cs) nctx.
Proof.
  intros p ctx fuel p' feeds Hr Hv Hh H feed n.
  unfold task_specialized_plan in H. rewrite C14_rewrite_with_context, trim_walk in H by assumption.
  cbn in H. injection H as _ <-. clear fuel Hh Hv p'.
  revert ctx Hr. induction p as [o cs IH|k m cs IH|b k t cs IH|k o vs IHo IH|k] using plan_ind'; intros ctx Hr;
    try (cbn; split; [intros []|intros (at_ & id & r & cs' & c & H); inversion H]).
  - rewrite Forall_forall in IH. cbn [decls]. rewrite in_app_iff, in_flat_map. split.
    + intros [H|(c & Hc & H)].
      * destruct o as [id n' [[f r]|]]; [|destruct H]. destruct H as [H|[]]. injection H as -> ->.
        exists [], id, r, cs, ctx. constructor.
      * destruct (In_nth_error _ _ Hc) as [i Ei]. apply IH in H; [|assumption|eapply runnable_op; eassumption].
        destruct H as (at_ & id & r & cs' & c' & H). exists (i :: at_), id, r, cs', c'. econstructor; eassumption.
    + intros (at_ & id & r & cs' & c & H). inversion H; subst.
      * left. cbn. auto.
      * right. exists c0. split; [eapply nth_error_In; eassumption|].
        apply IH; [eapply nth_error_In; eassumption|eapply runnable_op; eassumption|]. eauto 10.
  - rewrite Forall_forall in IH. pose proof (Hr [] _ _ (runs_here _ _)) as (sl & Esl & Hnd & Hin).
    cbn [decls]. rewrite Esl, in_flat_map. split.
    + intros ([i f] & Hi & H). destruct (In_nth_error _ _ Hi) as [j Ej].
      rewrite <- (map_length (fun c => decls c) cs), nth_error_combine_seq, nth_error_map in Ej.
      destruct (nth_error cs j) as [c|] eqn:Ec; [|discriminate]. cbn in Ej. injection Ej as <- <-.
      destruct (slot_ctx sl j) as [x|] eqn:Es; [|destruct H]. apply slot_ctx_in in Es; [|assumption].
      apply IH in H; [|eapply nth_error_In; eassumption|eapply runnable_union; eassumption].
      destruct H as (at_ & id & r & cs' & c' & H). exists (j :: at_), id, r, cs', c'. econstructor; eassumption.
    + intros (at_ & id & r & cs' & c & H). inversion H; subst.
      match goal with E : nth_error m _ = Some ?z |- _ => assert (z = sl) by congruence; subst z end.
      exists (i, decls c0). split.
      * apply nth_error_In with i. rewrite <- (map_length (fun c => decls c) cs), nth_error_combine_seq, nth_error_map.
        match goal with E : nth_error cs i = _ |- _ => rewrite E end. reflexivity.
      * match goal with E : In (i, _) sl |- _ => rewrite (proj2 (slot_ctx_in sl i _ Hnd) E) end.
        apply IH; [eapply nth_error_In; eassumption|eapply runnable_union; eassumption|]. eauto 10.
Qed.

Print Assumptions C09_declared_feeds.

Definition ex_run : op -> TaskCtx -> list (nat -> Res (list nat)) -> nat -> Res (list nat) :=
  fun o _ _ q => if q <? op_parts o then Ok [q] else Err "no such partition".

Example C09_hypotheses_met :
  (forall at_ k o vs nctx v, runs_at ex_plan (mkCtx 1 2) at_ (PDle k o vs) nctx -> task_count nctx = 1 ->
     nth_error vs (task_index nctx) = Some v ->
     forall q, exec_plan ex_run (fun _ _ _ => Ok []) v nctx q = exec_plan ex_run (fun _ _ _ => Ok []) o nctx q) /\
  runnable ex_plan (mkCtx 1 2) /\ plain_variants ex_plan (mkCtx 1 2) /\ remote_boundaries ex_plan (mkCtx 1 2) /\
  task_specialized_plan 6 ex_plan (mkCtx 1 2) =
    Ok (POp (mkOp 1 2 None)
          [PCiu 2 [[(1, mkCtx 0 1)]; [(0, mkCtx 0 1)]] [POp (mkOp 2 2 None) [ex_leaf 11]; PEmpty 2];
           PBoundary 5 2 3 []], []).
Proof.
  split.
  { intros at_ k o vs c v H _ E. apply positions_runs in H. cbn in H.
    repeat (destruct H as [H|H]; [try discriminate; injection H as <- <- <- <- <-|]); try contradiction.
    cbn in E. injection E as <-. reflexivity. }
  split; [apply C14_hypotheses_met; lia|]. split; [|split; [|reflexivity]].
  - intros at_ k o vs c H. apply positions_runs in H. cbn in H.
    repeat (destruct H as [H|H]; [try discriminate; injection H as <- <- <- <- <-|]); try contradiction. repeat constructor.
  - intros at_ b k t cs c H. apply positions_runs in H. cbn in H.
    repeat (destruct H as [H|H]; [try discriminate; injection H as <- <- <- <- <- <-|]); try contradiction. reflexivity.
Qed.

(** * C36: metrics are attributed to the node that produced them *)

(** Every task [t] collects the metrics of its trimmed plan; [metrics_of t at_ n] are the metrics of the
    operator [n] at position [at_] in task [t]. The rewriter attaches to every position of the stage
    plan the metrics of that position in all tasks that run it, in task order, and nothing else. The
    operator at that position of the task's plan is the stage plan's operator there. *)
Theorem C36_attribution_partial : forall (metric : Type) (annotate : nat -> metric -> metric) p T fuel
    (metrics_of : nat -> pos -> plan -> list metric) store worker,
  (forall t, t < T -> runnable p (mkCtx t T) /\ plain_variants p (mkCtx t T) /\ leaf_variants p (mkCtx t T)) ->
  height p <= fuel ->
  (forall t, t < T -> exists feeds, task_specialized_plan fuel p (mkCtx t T) = Ok (worker t, feeds) /\
     exists tm, collect_task_metrics (metrics_of t) (worker t) (mkCtx t T) = Ok tm /\ store t = Some tm) ->
  exists shown, stage_metrics_rewriter annotate p T store = Ok shown /\
    forall at_, exists per_task : nat -> list metric,
      shown at_ = flat_map per_task (seq 0 T) /\
      (forall t n c, t < T -> runs_at p (mkCtx t T) at_ n c ->
         exists n', runs_at (worker t) (mkCtx t T) at_ n' c /\ same_operator n c n' /\
                    per_task t = map (annotate t) (metrics_of t at_ n')) /\
      (forall t, t < T -> (forall n c, ~ runs_at p (mkCtx t T) at_ n c) -> per_task t = []).
Proof.
  intros metric annotate p T fuel metrics_of store worker Hok Hh Hw.
  (* the worker plans *)
  assert (HW : forall t, t < T -> worker t = trimmed p (mkCtx t T) /\
    store t = Some (map (fun '(a, n, c) => metrics_of t a (trimmed n c)) (positions p [] (mkCtx t T)))).
  { intros t Ht. destruct (Hw t Ht) as (feeds & E & tm & Ec & Es). destruct (Hok t Ht) as (Hr & Hv & Hl).
    unfold task_specialized_plan in E. rewrite C14_rewrite_with_context, trim_walk in E by assumption.
    cbn in E. injection E as E _. split; [congruence|]. rewrite Es. f_equal.
    rewrite <- E in Ec.
    rewrite collect_positions in Ec.
    - injection Ec as <-. rewrite trimmed_positions by assumption. rewrite map_map. apply map_ext. now intros [[a n] c].
    - intros at_ n c H. apply positions_runs in H. rewrite trimmed_positions in H by assumption.
      apply in_map_iff in H. destruct H as ([[a n0] c0] & Eq & H). injection Eq as -> <- ->.
      apply positions_runs in H. pose proof (Hr _ _ _ H) as Hn.
      destruct n0 as [o cs|k m cs|b k t' cs|k o vs|k]; cbn in *; auto.
      + destruct Hn as (s & Es' & Hnd & Hin). rewrite Es'. exists s. split; [assumption|]. split; [assumption|].
        rewrite map_length, combine_length, seq_length, map_length, Nat.min_id. assumption.
      + destruct Hn as (v & Ev & _). rewrite Ev.
        pose proof (Hv _ _ _ _ _ H) as HF. rewrite Forall_forall in HF. specialize (HF v (nth_error_In _ _ Ev)).
        inversion HF; subst; exact I. }
  set (per := fun at_ t => flat_map (fun '(e, ms) => if list_eq_dec Nat.eq_dec (pos_of e) at_ then map (annotate t) ms else [])
     (combine (positions p [] (mkCtx t T)) (map (fun '(a, n, c) => metrics_of t a (trimmed n c)) (positions p [] (mkCtx t T))))).
  assert (G : forall ts nm, (forall t, In t ts -> t < T) -> exists nm', accumulate_all annotate p T store ts nm = Ok nm' /\
    forall id, map_get id nm' = map_get id nm ++ flat_map (per id) ts).
  { induction ts as [|t ts IH]; intros nm Hts; cbn.
    - exists nm. split; [reflexivity|]. intros id. now rewrite app_nil_r.
    - assert (Ht : t < T) by (apply Hts; now left). destruct (HW t Ht) as [_ ->].
      destruct (accumulate_spec annotate p (mkCtx t T)
        (map (fun '(a, n, c) => metrics_of t a (trimmed n c)) (positions p [] (mkCtx t T))) nm) as (nm1 & E1 & H1).
      + now apply Hok.
      + apply map_length.
      + rewrite E1. cbn [bind]. destruct (IH nm1) as (nm2 & E2 & H2); [intros; apply Hts; now right|].
        exists nm2. split; [exact E2|]. intros id. rewrite H2, H1, <- app_assoc. reflexivity. }
  destruct (G (seq 0 T) []) as (nm & E & Hg); [intros t Ht; apply in_seq in Ht; lia|].
  unfold stage_metrics_rewriter. rewrite E. cbn [bind]. eexists. split; [reflexivity|].
  intros at_. exists (per at_). split; [apply Hg|].
  (* the metrics of one task at one position *)
  assert (HPer : forall t, per at_ t = flat_map (fun '(a, n, c) =>
     if list_eq_dec Nat.eq_dec a at_ then map (annotate t) (metrics_of t a (trimmed n c)) else []) (positions p [] (mkCtx t T))).
  { intros t. unfold per. induction (positions p [] (mkCtx t T)) as [|[[a n] c] l IH]; cbn; [reflexivity|]. now rewrite IH. }
  split.
  - intros t n c Ht Hrun. destruct (Hok t Ht) as (Hr & Hv & Hl). destruct (HW t Ht) as [EW _].
    exists (trimmed n c). split; [|split].
    + rewrite EW. apply positions_runs. rewrite trimmed_positions by assumption.
      apply in_map_iff. exists (at_, n, c). split; [reflexivity|]. now apply positions_runs.
    + pose proof (Hr _ _ _ Hrun) as Hn. destruct n as [o cs|k m cs|b k t' cs|k o vs|k]; cbn in *; auto.
      * destruct o as [id x [[f r]|]]; auto.
      * destruct Hn as (s & -> & _). auto.
      * destruct Hn as (v & -> & _). reflexivity.
    + rewrite HPer. apply positions_runs in Hrun. pose proof (positions_nodup p (mkCtx t T) Hr) as Hnd.
      induction (positions p [] (mkCtx t T)) as [|[[a n0] c0] l IH]; [destruct Hrun|].
      cbn [map flat_map pos_of fst] in *. apply NoDup_cons_iff in Hnd. destruct Hnd as [Hn Hnd]. destruct Hrun as [Hx|Hx].
      * injection Hx as -> -> ->. destruct (list_eq_dec Nat.eq_dec at_ at_); [|contradiction].
        rewrite flat_map_all_nil; [now rewrite app_nil_r|].
        intros [[a' n'] c'] He. destruct (list_eq_dec Nat.eq_dec a' at_) as [->|]; [|reflexivity].
        exfalso. apply Hn. apply in_map_iff. exists (at_, n', c'). auto.
      * destruct (list_eq_dec Nat.eq_dec a at_) as [->|].
        -- exfalso. apply Hn. apply in_map_iff. exists (at_, n, c). auto.
        -- cbn. apply IH; assumption.
  - intros t Ht Hnone. rewrite HPer. apply flat_map_all_nil. intros [[a n] c] He.
    destruct (list_eq_dec Nat.eq_dec a at_) as [->|]; [|reflexivity].
    exfalso. apply (Hnone n c). now apply positions_runs.
Qed.

Print Assumptions C36_attribution_partial.

(** Missing: variants with children (the API allows them). The task then reports more metrics than the
    stage plan has nodes, and later nodes get the metrics of others without any error. *)
Theorem C36_variant_with_children_refuted : exists p worker (metrics_of : pos -> plan -> list nat) tm shown,
  runnable p (mkCtx 0 1) /\ plain_variants p (mkCtx 0 1) /\
  (exists feeds, task_specialized_plan (height p) p (mkCtx 0 1) = Ok (worker, feeds)) /\
  (forall at_ o cs, metrics_of at_ (POp o cs) = [op_id o]) /\
  collect_task_metrics metrics_of worker (mkCtx 0 1) = Ok tm /\
  stage_metrics_rewriter (fun _ m => m) p 1 (fun _ => Some tm) = Ok shown /\
  exists at_ o cs c, runs_at p (mkCtx 0 1) at_ (POp o cs) c /\ shown at_ <> [op_id o].
Proof.
  exists (POp (mkOp 1 1 None) [PDle 1 (ex_leaf 2) [POp (mkOp 3 1 None) [POp (mkOp 4 1 None) []]]; POp (mkOp 5 1 None) []]).
  exists (POp (mkOp 1 1 None) [POp (mkOp 3 1 None) [POp (mkOp 4 1 None) []]; POp (mkOp 5 1 None) []]).
  exists (fun _ n => match n with POp o _ => [op_id o] | _ => [] end), [[1]; [3]; [4]; [5]]. eexists.
  split; [|split; [|split; [|split; [reflexivity|split; [reflexivity|split; [reflexivity|]]]]]].
  - intros at_ n c H. apply positions_runs in H. ex_cases H; cbn; auto. eexists. split; reflexivity.
  - intros at_ k o vs c H. apply positions_runs in H. cbn in H.
    repeat (destruct H as [H|H]; [try discriminate; injection H as <- <- <- <- <-|]); try contradiction. repeat constructor.
  - eexists. reflexivity.
  - exists [1], (mkOp 5 1 None), [], (mkCtx 0 1). split; [econstructor; [reflexivity|constructor]|discriminate].
Qed.

Print Assumptions C36_variant_with_children_refuted.

(** Trimmed plans contain only what the coordinator sees; the example plan meets the hypotheses. *)
Example C36_hypotheses_met : forall t, t < 2 ->
  runnable ex_plan (mkCtx t 2) /\ plain_variants ex_plan (mkCtx t 2) /\ leaf_variants ex_plan (mkCtx t 2).
Proof.
  intros t Ht. split; [now apply C14_hypotheses_met|].
  destruct t as [|[|t]]; [| |lia]; (split; intros at_ k o vs c H; apply positions_runs in H; cbn in H;
    repeat (destruct H as [H|H]; [try discriminate; injection H as <- <- <- <- <-|]); try contradiction; repeat constructor).
Qed.
