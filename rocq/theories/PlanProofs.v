(** Proofs about plan walks, trimming and metrics. *)
From Verif Require Import Base NetModel CiuModel CiuProofs EventsModel PlanModel PlanSpec.

(** ** Induction over plans *)

Section Ind.
Variable P : plan -> Prop.
Hypothesis Hop : forall o cs, Forall P cs -> P (POp o cs).
Hypothesis Hciu : forall k m cs, Forall P cs -> P (PCiu k m cs).
Hypothesis Hb : forall b k t cs, Forall P cs -> P (PBoundary b k t cs).
Hypothesis Hdle : forall k o vs, P o -> Forall P vs -> P (PDle k o vs).
Hypothesis He : forall k, P (PEmpty k).

Fixpoint plan_ind' (p : plan) : P p :=
  let fix go (l : list plan) : Forall P l :=
    match l with [] => Forall_nil _ | x :: xs => Forall_cons _ (plan_ind' x) (go xs) end in
  match p with
  | POp o cs => Hop o cs (go cs)
  | PCiu k m cs => Hciu k m cs (go cs)
  | PBoundary b k t cs => Hb b k t cs (go cs)
  | PDle k o vs => Hdle k o vs (plan_ind' o) (go vs)
  | PEmpty k => He k
  end.
End Ind.

(** ** child_ctxs *)

Lemma fill_ctxs_length n s v : fill_ctxs n s = Ok v -> List.length v = n.
Proof.
  unfold fill_ctxs.
  assert (G : forall (s : slot) (r : Res (list (option TaskCtx))) v0, (forall x, r = Ok x -> List.length x = n) ->
     fold_left (fun r '(i, c) => let* v := r in
       if i <? List.length v then Ok (upd v i (Some c)) else Panic "index out of bounds") s r = Ok v0 ->
     List.length v0 = n).
  { clear. induction s as [|[i c] s IH]; intros r v0 Hr H; cbn [fold_left] in H; [now apply Hr|].
    refine (IH _ _ _ H). intros x Hx. destruct r as [y| |]; cbn [bind] in Hx; try congruence.
    destruct (i <? List.length y); [|congruence]. injection Hx as <-. rewrite upd_length. now apply Hr. }
  intros H. refine (G _ _ _ _ H). intros x Hx. injection Hx as <-. apply repeat_length.
Qed.

Lemma child_ctxs_length p ctx v : child_ctxs p ctx = Ok v -> List.length v = List.length (children p).
Proof.
  destruct p; cbn; try (intros H; injection H as <-; now rewrite ?map_length).
  destruct (nth_error m (task_index ctx)) as [s|]; [|discriminate]. apply fill_ctxs_length.
Qed.

Lemma fill_ctxs_spec n s : NoDup (map fst s) -> Forall (fun e => fst e < n) s ->
  exists v, fill_ctxs n s = Ok v /\ List.length v = n /\
    (forall i c, In (i, c) s -> nth_error v i = Some (Some c)) /\
    (forall i, i < n -> ~ In i (map fst s) -> nth_error v i = Some None).
Proof.
  intros Hnd Hr. unfold fill_ctxs.
  assert (G : forall (s : slot) (v0 : list (option TaskCtx)), NoDup (map fst s) -> Forall (fun e : nat * TaskCtx => fst e < n) s -> List.length v0 = n ->
    exists v, fold_left (fun r '(i, c) => let* v := r in
       if i <? List.length v then Ok (upd v i (Some c)) else Panic "index out of bounds") s (Ok v0) = Ok v /\
     List.length v = n /\
     (forall i c, In (i, c) s -> nth_error v i = Some (Some c)) /\
     (forall i, ~ In i (map fst s) -> nth_error v i = nth_error v0 i)).
  { clear s Hnd Hr. induction s as [|[i c] s IH]; intros v0 Hnd Hr Hl; cbn [fold_left].
    - exists v0. repeat split; auto. intros i c [].
    - inversion Hnd as [|? ? Hn Hnd']; subst. inversion Hr as [|? ? Hi Hr']; subst. cbn in Hi.
      cbn [bind]. destruct (Nat.ltb_spec i (List.length v0)); [|lia].
      destruct (IH (upd v0 i (Some c)) Hnd' Hr') as (v & E & L & H1 & H2); [now rewrite upd_length|].
      exists v. split; [exact E|]. split; [assumption|]. split.
      + intros j d [Hj|Hj]; [|now apply H1]. injection Hj as <- <-. rewrite H2 by assumption.
        rewrite upd_nth, Nat.eqb_refl. destruct (nth_error v0 i) eqn:E0; [reflexivity|]. apply nth_error_None in E0. lia.
      + intros j Hj. cbn in Hj. rewrite H2 by tauto. rewrite upd_nth. destruct (Nat.eqb_spec i j) as [->|]; [exfalso; apply Hj; auto|reflexivity]. }
  destruct (G s (repeat None n) Hnd Hr (repeat_length _ _)) as (v & E & L & H1 & H2).
  exists v. repeat split; auto. intros i Hi Hn. rewrite H2 by assumption. now apply nth_error_repeat.
Qed.

(** ** Stack discipline *)

(** Two outcomes agree; the second component says what is known of the leftover stack. *)
Definition agree {S T} (stack : list T) (r : Res (S * list T * plan * tnr)) (e : Res (S * plan * tnr)) : Prop :=
  match r, e with
  | Ok (s, st, p, t), Ok (s', p', t') => s = s' /\ p = p' /\ t = t' /\ t <> Jump /\ (t <> Stop -> st = stack)
  | Err a, Err b => a = b
  | Panic a, Panic b => a = b
  | _, _ => False
  end.

Definition agree_list {S T} (stack : list T) (r : Res (S * list T * list plan * tnr)) (e : Res (S * list plan * tnr)) : Prop :=
  match r, e with
  | Ok (s, st, p, t), Ok (s', p', t') => s = s' /\ p = p' /\ t = t' /\ t <> Jump /\ (t <> Stop -> st = stack)
  | Err a, Err b => a = b
  | Panic a, Panic b => a = b
  | _, _ => False
  end.

Lemma agree_children {S T} (g : @callback (S * list T)) (g' : S -> plan -> T -> Res (S * plan * tnr)) :
  (forall s p c stack, agree stack (g (s, c :: stack) p) (g' s p c)) ->
  forall l cs stack s, List.length cs = List.length l ->
  agree_list stack (map_until_stop g (s, cs ++ stack) l Continue) (each_child g' s l cs Continue).
Proof.
  intros Hg. induction l as [|p l IH]; intros cs stack s Hl; destruct cs as [|c cs]; try discriminate.
  - cbn. repeat split; auto; discriminate.
  - cbn [map_until_stop each_child app]. specialize (Hg s p c (cs ++ stack)).
    destruct (g (s, c :: cs ++ stack) p) as [[[[s1 st1] p1] t1]| |], (g' s p c) as [[[s2 p2] t2]| |];
      cbn in Hg; try contradiction; cbn [bind]; auto.
    destruct Hg as (-> & -> & -> & Hj & Hst). destruct t2.
    + rewrite Hst by discriminate. specialize (IH cs stack s2 ltac:(cbn in Hl; lia)).
      destruct (map_until_stop g (s2, cs ++ stack) l Continue) as [[[[s3 st3] l3] t3]| |],
        (each_child g' s2 l cs Continue) as [[[s4 l4] t4]| |]; cbn in IH; try contradiction; cbn; auto.
      destruct IH as (-> & -> & -> & H1 & H2). auto.
    + contradiction.
    + assert (E1 : map_until_stop g (s2, st1) l Stop = Ok ((s2, st1), l, Stop)) by (destruct l; reflexivity).
      assert (E2 : each_child g' s2 l cs Stop = Ok (s2, l, Stop)) by (destruct l, cs; reflexivity).
      rewrite E1, E2. cbn. repeat split; auto; congruence.
Qed.

Lemma down_stack {S} (f : S -> plan -> TaskCtx -> Res (S * plan * tnr)) : forall fuel s p o stack,
  agree stack (transform_down fuel (dt_ctx_callback f) (s, o :: stack) p) (down_with_ctx fuel f s p o).
Proof.
  induction fuel as [|fuel IH]; intros s p o stack; [reflexivity|].
  cbn [transform_down down_with_ctx dt_ctx_callback]. destruct o as [ctx|].
  2:{ cbn. repeat split; auto; congruence. }
  destruct (f s p ctx) as [[[s1 p1] t1]| |]; cbn [bind agree]; auto.
  destruct t1; [|cbn; repeat split; auto; congruence|cbn; repeat split; auto; congruence].
  destruct (is_boundary p1) eqn:Eb; [cbn; repeat split; auto; discriminate|].
  destruct (child_ctxs p1 ctx) as [cc| |] eqn:Ec; cbn [bind agree]; auto.
  cbn [transform_children].
  pose proof (agree_children (transform_down fuel (dt_ctx_callback f)) (down_with_ctx fuel f) IH
    (children p1) cc stack s1 (child_ctxs_length _ _ _ Ec)) as HA.
  destruct (map_until_stop _ _ _ _) as [[[[s3 st3] l3] t3]| |], (each_child _ _ _ _ _) as [[[s4 l4] t4]| |];
    cbn in HA; try contradiction; cbn; auto.
  destruct HA as (-> & -> & -> & H1 & H2). auto.
Qed.

Lemma child_tcs_length p tc : List.length (child_tcs p tc) = List.length (children p).
Proof.
  destruct p; cbn; rewrite ?repeat_length; auto.
  unfold map_task_counts.
  assert (G : forall (m : list slot) v, List.length v = List.length cs ->
    List.length (fold_left (fun counts s => fold_left (fun counts '(i, ctx) =>
          match nth_error counts i with Some k => upd counts i (Nat.max k (task_count ctx)) | None => counts end)
          s counts) m v) = List.length cs).
  { clear. induction m as [|s m IH]; intros v Hv; cbn; [assumption|]. apply IH. revert v Hv.
    induction s as [|[i c] s IHs]; intros v Hv; cbn; [assumption|]. apply IHs.
    destruct (nth_error v i); [rewrite upd_length|]; assumption. }
  apply G. apply repeat_length.
Qed.

Lemma up_stack {S} (f : S -> plan -> nat -> Res (S * plan * tnr)) :
  (forall s p tc s' p' t, f s p tc = Ok (s', p', t) -> t <> Jump) ->
  forall fuel s p tc stack,
  agree stack (transform_down_up fuel up_down_callback (up_up_callback f) (s, tc :: stack) p)
    (up_with_count fuel f s p tc).
Proof.
  intros Hf. induction fuel as [|fuel IH]; intros s p tc stack; [reflexivity|].
  cbn [transform_down_up up_with_count up_down_callback bind transform_children].
  pose proof (agree_children _ (up_with_count fuel f) IH (children p) (child_tcs p tc) (tc :: stack) s
    (child_tcs_length p tc)) as HA.
  destruct (map_until_stop _ _ _ _) as [[[[s3 st3] l3] t3]| |], (each_child _ _ _ _ _) as [[[s4 l4] t4]| |];
    cbn in HA; try contradiction; cbn [bind agree]; auto.
  destruct HA as (-> & -> & -> & H1 & H2). destruct t4; [|contradiction|].
  - rewrite H2 by discriminate. cbn [transform_parent up_up_callback].
    destruct (f s4 (with_children p l4) tc) as [[[s5 p5] t5]| |] eqn:Ef; cbn; auto.
    repeat split; auto. eapply Hf; eassumption.
  - cbn. repeat split; auto. congruence.
Qed.

Lemma down_tc_stack {S} (f : S -> plan -> nat -> Res (S * plan * tnr)) : forall fuel s p tc stack,
  agree stack (transform_down_up fuel (down_tc_callback f) (fun s node => Ok (s, node, Continue)) (s, tc :: stack) p)
    (down_with_count fuel f s p tc).
Proof.
  induction fuel as [|fuel IH]; intros s p tc stack; [reflexivity|].
  cbn [transform_down_up down_with_count down_tc_callback].
  destruct (f s p tc) as [[[s1 p1] t1]| |]; cbn [bind agree]; auto.
  destruct t1; [|cbn; repeat split; auto; congruence|cbn; repeat split; auto; congruence].
  cbn [transform_children bind].
  pose proof (agree_children _ (down_with_count fuel f) IH (children p1) (child_tcs p1 tc) stack s1
    (child_tcs_length p1 tc)) as HA.
  destruct (map_until_stop _ _ _ _) as [[[[s3 st3] l3] t3]| |], (each_child _ _ _ _ _) as [[[s4 l4] t4]| |];
    cbn in HA; try contradiction; cbn [bind agree]; auto.
  destruct HA as (-> & -> & -> & H1 & H2). destruct t4; [|contradiction|]; cbn; repeat split; auto; congruence.
Qed.

(** ** Fuel *)

Lemma height_child p c : In c (children p) -> height c < height p.
Proof.
  intros H.
  assert (G : forall l, In c l -> height c <= list_max (map height l)).
  { intros l Hl. pose proof (proj1 (list_max_le (map height l) _) (le_n _)) as HF.
    rewrite Forall_forall in HF. apply HF, in_map. assumption. }
  destruct p; cbn in H; try contradiction; cbn [height]; apply G in H; lia.
Qed.

Lemma height_pos p : 1 <= height p.
Proof. destruct p; cbn; lia. Qed.

Lemma each_child_ext {S C} (g g' : S -> plan -> C -> Res (S * plan * tnr)) l : forall cs s t,
  (forall s p c, In p l -> g s p c = g' s p c) -> each_child g s l cs t = each_child g' s l cs t.
Proof.
  induction l as [|p l IH]; intros cs s t H; cbn; [reflexivity|]. destruct cs as [|c cs]; [reflexivity|].
  assert (Hl : forall s p c, In p l -> g s p c = g' s p c) by (intros; apply H; now right).
  destruct t; [| |reflexivity]; (rewrite H by (now left)); destruct (g' s p c) as [[[s1 p1] t1]| |]; cbn; auto;
    now rewrite IH.
Qed.

Lemma down_fuel {S} (f : S -> plan -> TaskCtx -> Res (S * plan * tnr)) :
  (forall s p ctx s' p' t, f s p ctx = Ok (s', p', t) -> height p' <= height p) ->
  forall fuel fuel' s p o, height p <= fuel -> height p <= fuel' ->
  down_with_ctx fuel f s p o = down_with_ctx fuel' f s p o.
Proof.
  intros Hf. induction fuel as [|fuel IH]; intros fuel' s p o H1 H2; [pose proof (height_pos p); lia|].
  destruct fuel' as [|fuel']; [pose proof (height_pos p); lia|]. cbn [down_with_ctx].
  destruct o as [ctx|]; [|reflexivity].
  destruct (f s p ctx) as [[[s1 p1] t1]| |] eqn:Ef; cbn [bind]; try reflexivity.
  destruct t1; try reflexivity. destruct (is_boundary p1); [reflexivity|].
  destruct (child_ctxs p1 ctx) as [cc| |]; cbn [bind]; try reflexivity.
  apply Hf in Ef.
  rewrite (each_child_ext (down_with_ctx fuel f) (down_with_ctx fuel' f)); [reflexivity|].
  intros s2 c o Hc. apply height_child in Hc. apply IH; lia.
Qed.

(** ** Positions *)

(** The running nodes in visiting order. *)
Fixpoint positions (p : plan) (at_ : pos) (ctx : TaskCtx) : list (pos * plan * TaskCtx) :=
  (at_, p, ctx) ::
  match p with
  | POp _ cs =>
      let sub := map (fun c => positions c) cs in
      flat_map (fun i => match nth_error sub i with Some f => f (at_ ++ [i]) ctx | None => [] end)
        (seq 0 (List.length cs))
  | PCiu _ m cs =>
      let sub := map (fun c => positions c) cs in
      match nth_error m (task_index ctx) with
      | None => []
      | Some s => flat_map (fun '(i, c) => match nth_error sub i with Some f => f (at_ ++ [i]) c | None => [] end) s
      end
  | _ => []
  end.

Lemma foldM_app {S A} (f : S -> A -> Res S) l l' s :
  foldM f (l ++ l') s = let* s := foldM f l s in foldM f l' s.
Proof.
  revert s. induction l as [|x l IH]; intros s; cbn; [reflexivity|]. destruct (f s x); cbn; auto.
Qed.

Lemma runnable_op o cs ctx i c : runnable (POp o cs) ctx -> nth_error cs i = Some c -> runnable c ctx.
Proof. intros H E at_ n nctx Hr. apply (H (i :: at_)). econstructor; eassumption. Qed.

Lemma runnable_union k m cs ctx s i cctx c : runnable (PCiu k m cs) ctx ->
  nth_error m (task_index ctx) = Some s -> In (i, cctx) s -> nth_error cs i = Some c -> runnable c cctx.
Proof. intros H E Hi Ec at_ n nctx Hr. apply (H (i :: at_)). econstructor; eassumption. Qed.

Section Visit.
Context {S : Type} (g : S -> pos * plan * TaskCtx -> Res S).

Definition always_continue : S -> pos -> plan -> TaskCtx -> Res (S * tnr) :=
  fun s at_ p ctx => let* s := g s (at_, p, ctx) in Ok (s, Continue).

Lemma apply_until_stop_fold {A} (h : A -> S -> Res (S * tnr)) (ls : A -> list (pos * plan * TaskCtx)) l :
  (forall a s, In a l -> h a s = let* s := foldM g (ls a) s in Ok (s, Continue)) ->
  forall s, apply_until_stop (map h l) s Continue = let* s := foldM g (flat_map ls l) s in Ok (s, Continue).
Proof.
  induction l as [|a l IH]; intros H s; cbn; [reflexivity|].
  rewrite H by now left. rewrite foldM_app. destruct (foldM g (ls a) s) as [s1| |]; cbn; auto.
  apply IH. intros; apply H; now right.
Qed.

Lemma apply_positions p : forall at_ ctx s, runnable p ctx ->
  apply_with_dt_ctx always_continue p at_ ctx s =
  let* s := foldM g (positions p at_ ctx) s in Ok (s, Continue).
Proof.
  induction p as [o cs IH|k m cs IH|b k t cs IH|k o vs IHo IH|k] using plan_ind'; intros at_ ctx s Hr;
    cbn [apply_with_dt_ctx positions foldM]; unfold always_continue at 1;
    destruct (g s (at_, _, ctx)) as [s1| |] eqn:Eg; cbn [bind]; try reflexivity.
  - rewrite Forall_forall in IH. apply apply_until_stop_fold. intros i s2 Hi. apply in_seq in Hi.
    rewrite !nth_error_map. destruct (nth_error cs i) as [c|] eqn:Ec; [|apply nth_error_None in Ec; lia].
    cbn [option_map]. apply IH; [eapply nth_error_In; eassumption|eapply runnable_op; eassumption].
  - rewrite Forall_forall in IH. pose proof (Hr [] _ _ (runs_here _ _)) as (sl & Esl & Hnd & Hin).
    rewrite Esl. rewrite (apply_until_stop_fold _ (fun '(i, c) =>
       match nth_error (map (fun c => positions c) cs) i with Some f => f (at_ ++ [i]) c | None => [] end)).
    + reflexivity.
    + intros [i cctx] s2 Hi. rewrite Forall_forall in Hin. pose proof (Hin _ Hi) as Hlt. cbn in Hlt.
      rewrite !nth_error_map. destruct (nth_error cs i) as [c|] eqn:Ec; [|apply nth_error_None in Ec; lia].
      cbn [option_map]. apply IH; [eapply nth_error_In; eassumption|eapply runnable_union; eassumption].
Qed.
End Visit.

Lemma positions_prefix p : forall at_ ctx,
  positions p at_ ctx = map (fun '(a, n, c) => (at_ ++ a, n, c)) (positions p [] ctx).
Proof.
  induction p as [o cs IH|k m cs IH|b k t cs IH|k o vs IHo IH|k] using plan_ind'; intros at_ ctx;
    cbn [positions map]; rewrite app_nil_r; f_equal; try reflexivity.
  - rewrite map_flat_map. apply flat_map_ext. intros i. rewrite nth_error_map.
    destruct (nth_error cs i) as [c|] eqn:Ec; [|reflexivity]. cbn [option_map].
    rewrite Forall_forall in IH. apply nth_error_In in Ec. rewrite (IH c Ec (at_ ++ [i])), (IH c Ec ([] ++ [i])).
    rewrite map_map. apply map_ext. intros [[a n] c']. cbn. now rewrite <- app_assoc.
  - destruct (nth_error m (task_index ctx)) as [s|]; [|reflexivity].
    rewrite map_flat_map. apply flat_map_ext. intros [i cctx]. rewrite nth_error_map.
    destruct (nth_error cs i) as [c|] eqn:Ec; [|reflexivity]. cbn [option_map].
    rewrite Forall_forall in IH. apply nth_error_In in Ec. rewrite (IH c Ec (at_ ++ [i])), (IH c Ec ([] ++ [i])).
    rewrite map_map. apply map_ext. intros [[a n] c']. cbn. now rewrite <- app_assoc.
Qed.

Lemma positions_op o cs ctx : positions (POp o cs) [] ctx =
  ([], POp o cs, ctx) :: flat_map (fun i => match nth_error cs i with
     | Some c => map (fun '(a, n, x) => (i :: a, n, x)) (positions c [] ctx) | None => [] end) (seq 0 (List.length cs)).
Proof.
  cbn [positions]. f_equal. apply flat_map_ext. intros i. rewrite nth_error_map.
  destruct (nth_error cs i) as [c|]; [|reflexivity]. cbn [option_map]. now rewrite positions_prefix.
Qed.

Lemma positions_union k m cs ctx s : nth_error m (task_index ctx) = Some s ->
  positions (PCiu k m cs) [] ctx =
  ([], PCiu k m cs, ctx) :: flat_map (fun '(i, y) => match nth_error cs i with
     | Some c => map (fun '(a, n, x) => (i :: a, n, x)) (positions c [] y) | None => [] end) s.
Proof.
  intros E. cbn [positions]. rewrite E. f_equal. apply flat_map_ext. intros [i y]. rewrite nth_error_map.
  destruct (nth_error cs i) as [c|]; [|reflexivity]. cbn [option_map]. now rewrite positions_prefix.
Qed.

Lemma positions_runs p : forall ctx at_ n nctx,
  In (at_, n, nctx) (positions p [] ctx) <-> runs_at p ctx at_ n nctx.
Proof.
  induction p as [o cs IH|k m cs IH|b k t cs IH|k o vs IHo IH|k] using plan_ind'; intros ctx at_ n nctx.
  - rewrite positions_op. cbn [In]. rewrite Forall_forall in IH. split.
    + intros [H|H]; [injection H as <- <- <-; constructor|].
      apply in_flat_map in H. destruct H as (i & _ & H). destruct (nth_error cs i) as [c|] eqn:Ec; [|destruct H].
      apply in_map_iff in H. destruct H as ([[a n'] x] & E & H). injection E as <- <- <-.
      apply IH in H; [|eapply nth_error_In; eassumption]. econstructor; eassumption.
    + intros H. inversion H; subst; [now left|right]. apply in_flat_map. exists i. split.
      * apply in_seq. assert (i < List.length cs) by (apply nth_error_Some; congruence). lia.
      * match goal with E : nth_error cs i = _ |- _ => rewrite E end.
        apply in_map_iff. exists (at_0, n, nctx). split; [reflexivity|]. apply IH; [eapply nth_error_In; eassumption|assumption].
  - rewrite Forall_forall in IH. destruct (nth_error m (task_index ctx)) as [s|] eqn:Es.
    + rewrite (positions_union _ _ _ _ _ Es). cbn [In]. split.
      * intros [H|H]; [injection H as <- <- <-; constructor|].
        apply in_flat_map in H. destruct H as ([i y] & Hi & H). destruct (nth_error cs i) as [c|] eqn:Ec; [|destruct H].
        apply in_map_iff in H. destruct H as ([[a n'] x] & E & H). injection E as <- <- <-.
        apply IH in H; [|eapply nth_error_In; eassumption]. econstructor; eassumption.
      * intros H. inversion H; subst; [now left|right].
        match goal with E : nth_error m _ = Some ?z |- _ => assert (z = s) by congruence; subst z end.
        apply in_flat_map. eexists (i, _). split; [eassumption|]. cbn.
        match goal with E : nth_error cs i = _ |- _ => rewrite E end.
        apply in_map_iff. exists (at_0, n, nctx). split; [reflexivity|]. apply IH; [eapply nth_error_In; eassumption|assumption].
    + cbn [positions]. rewrite Es. cbn. split.
      * intros [H|[]]. injection H as <- <- <-. constructor.
      * intros H. inversion H; subst; [now left|congruence].
  - cbn. split; [intros [H|[]]; injection H as <- <- <-; constructor|]. intros H. inversion H; subst. now left.
  - cbn. split; [intros [H|[]]; injection H as <- <- <-; constructor|]. intros H. inversion H; subst. now left.
  - cbn. split; [intros [H|[]]; injection H as <- <- <-; constructor|]. intros H. inversion H; subst. now left.
Qed.

Lemma NoDup_flat_map_tag {A B} (idx : A -> nat) (f : A -> list (list nat * B)) l :
  NoDup (map idx l) ->
  (forall a, In a l -> NoDup (map fst (f a)) /\ forall x, In x (f a) -> exists rest, fst x = idx a :: rest) ->
  NoDup (map fst (flat_map f l)).
Proof.
  induction l as [|a l IH]; cbn; intros Hnd H; [constructor|].
  inversion Hnd as [|? ? Hn Hnd']; subst. rewrite map_app.
  assert (D : forall x, In x (map fst (f a)) -> ~ In x (map fst (flat_map f l))).
  { intros x H1 H2. apply in_map_iff in H1, H2. destruct H1 as (y & <- & Hy), H2 as (z & E & Hz).
    destruct (H a (or_introl eq_refl)) as [_ Ha]. destruct (Ha y Hy) as [r1 E1].
    apply in_flat_map in Hz. destruct Hz as (b & Hb & Hz).
    destruct (H b (or_intror Hb)) as [_ Hb']. destruct (Hb' z Hz) as [r2 E2].
    rewrite E1, E2 in E. injection E as E _. apply Hn. rewrite <- E. now apply in_map. }
  assert (N1 : NoDup (map fst (f a))) by (apply H; now left).
  assert (N2 : NoDup (map fst (flat_map f l))) by (apply IH; auto).
  clear -D N1 N2. induction (map fst (f a)) as [|x xs IHx]; cbn; [assumption|].
  inversion N1; subst. constructor.
  - rewrite in_app_iff. intros [H|H]; [contradiction|]. eapply D; [now left|eassumption].
  - apply IHx; auto. intros y Hy. apply D. now right.
Qed.

Definition pos_of (e : pos * plan * TaskCtx) : pos := fst (fst e).

Lemma map_pos_of l : map pos_of l = map fst (map (fun '(a, n, c) => (a, (n, c))) l).
Proof. rewrite map_map. apply map_ext. now intros [[a n] c]. Qed.

Lemma positions_nodup p : forall ctx, runnable p ctx -> NoDup (map pos_of (positions p [] ctx)).
Proof.
  induction p as [o cs IH|k m cs IH|b k t cs IH|k o vs IHo IH|k] using plan_ind'; intros ctx Hr;
    try (cbn; constructor; [intros []|constructor]).
  - rewrite Forall_forall in IH. rewrite positions_op. cbn [map pos_of fst]. constructor.
    + intros H. apply in_map_iff in H. destruct H as ([[a n] c] & E & H). cbn in E. subst a.
      apply in_flat_map in H. destruct H as (i & _ & H). destruct (nth_error cs i); [|destruct H].
      apply in_map_iff in H. destruct H as ([[a n'] x] & E & _). discriminate.
    + rewrite map_pos_of, map_flat_map. apply (NoDup_flat_map_tag (fun i => i)).
      * rewrite map_id. apply seq_NoDup.
      * intros i Hi. destruct (nth_error cs i) as [c|] eqn:Ec; [|split; [constructor|intros x []]]. split.
        -- rewrite <- map_pos_of. rewrite map_map.
           rewrite (map_ext _ (fun e => i :: pos_of e)) by (now intros [[a n] x]).
           rewrite <- (map_map pos_of (cons i)). apply FinFun.Injective_map_NoDup; [intros a b; congruence|].
           apply IH; [eapply nth_error_In; eassumption|eapply runnable_op; eassumption].
        -- intros x Hx. rewrite map_map in Hx. apply in_map_iff in Hx. destruct Hx as ([[a n] y] & <- & _). cbn. eauto.
  - rewrite Forall_forall in IH. pose proof (Hr [] _ _ (runs_here _ _)) as (sl & Esl & Hnd & Hin).
    rewrite (positions_union _ _ _ _ _ Esl). cbn [map pos_of fst]. constructor.
    + intros H. apply in_map_iff in H. destruct H as ([[a n] c] & E & H). cbn in E. subst a.
      apply in_flat_map in H. destruct H as ([i y] & _ & H). destruct (nth_error cs i); [|destruct H].
      apply in_map_iff in H. destruct H as ([[a n'] x] & E & _). discriminate.
    + rewrite map_pos_of, map_flat_map. apply (NoDup_flat_map_tag fst); [assumption|].
      intros [i y] Hi. destruct (nth_error cs i) as [c|] eqn:Ec; [|split; [constructor|intros x []]]. split.
      -- rewrite <- map_pos_of. rewrite map_map.
         rewrite (map_ext _ (fun e => i :: pos_of e)) by (now intros [[a n] x]).
         rewrite <- (map_map pos_of (cons i)). apply FinFun.Injective_map_NoDup; [intros a b; congruence|].
         apply IH; [eapply nth_error_In; eassumption|eapply runnable_union; eassumption].
      -- intros x Hx. rewrite map_map in Hx. apply in_map_iff in Hx. destruct Hx as ([[a n] z] & <- & _). cbn. eauto.
Qed.

(** ** Trimming *)

Definition remote_op (o : op) : op :=
  match o with mkOp id n (Some (feed, _)) => mkOp id n (Some (feed, true)) | _ => o end.
Definition op_decls (o : op) : list (nat * nat) :=
  match o with mkOp _ n (Some (feed, _)) => [(feed, n)] | _ => [] end.

Definition slot_ctx (s : slot) (i : nat) : option TaskCtx :=
  option_map snd (find (fun e => fst e =? i) s).

(** The trimmed plan and its feed declarations, by structural recursion. *)
Fixpoint trimmed (p : plan) (ctx : TaskCtx) : plan :=
  match p with
  | POp o cs => POp (remote_op o) (map (fun c => trimmed c ctx) cs)
  | PCiu k m cs =>
      match nth_error m (task_index ctx) with
      | None => p
      | Some s =>
          let sub := map (fun c => (parts_of c, trimmed c)) cs in
          PCiu k m (map (fun '(i, (n, f)) => match slot_ctx s i with Some c => f c | None => PEmpty n end)
                      (combine (seq 0 (List.length cs)) sub))
      end
  | PDle _ _ vs => match nth_error vs (task_index ctx) with Some v => v | None => p end
  | _ => p
  end.
Fixpoint decls (p : plan) (ctx : TaskCtx) : list (nat * nat) :=
  match p with
  | POp o cs => op_decls o ++ flat_map (fun c => decls c ctx) cs
  | PCiu k m cs =>
      match nth_error m (task_index ctx) with
      | None => []
      | Some s =>
          let sub := map (fun c => decls c) cs in
          flat_map (fun '(i, f) => match slot_ctx s i with Some c => f c | None => [] end)
            (combine (seq 0 (List.length cs)) sub)
      end
  | _ => []
  end.

Lemma each_child_ok {C} (g : list (nat * nat) -> plan -> C -> Res (list (nat * nat) * plan * tnr)) :
  forall l cs l' ds s, List.length cs = List.length l -> List.length l' = List.length l ->
  List.length ds = List.length l ->
  (forall i p c p' d s, nth_error l i = Some p -> nth_error cs i = Some c -> nth_error l' i = Some p' ->
     nth_error ds i = Some d -> g s p c = Ok (s ++ d, p', Continue)) ->
  each_child g s l cs Continue = Ok (s ++ List.concat ds, l', Continue).
Proof.
  induction l as [|p l IH]; intros [|c cs] [|p' l'] [|d ds] s H1 H2 H3 H; try discriminate; cbn.
  - now rewrite app_nil_r.
  - rewrite (H 0 p c p' d s) by reflexivity. cbn. rewrite (IH cs l' ds); auto.
    + cbn. now rewrite <- app_assoc.
    + intros i q c' q' d' s' E1 E2 E3 E4. now apply (H (S i)).
Qed.

Lemma plain_height_walk : forall fuel p ctx s, plain p -> height p <= fuel ->
  down_with_ctx fuel specialize_callback s p (Some ctx) = Ok (s, p, Continue).
Proof.
  induction fuel as [|fuel IH]; intros p ctx s Hp Hh; [pose proof (height_pos p); lia|].
  cbn [down_with_ctx]. inversion Hp as [id n cs HF|n]; subst; cbn [specialize_callback bind is_boundary child_ctxs children].
  - rewrite (each_child_ok _ cs _ cs (map (fun _ => []) cs)); rewrite ?map_length; auto.
    + cbn. rewrite concat_map_flat_map, flat_map_nil by reflexivity. now rewrite app_nil_r.
    + intros i p c p' d s' E1 E2 E3 E4. rewrite E1 in E3. injection E3 as <-.
      rewrite nth_error_map, E1 in E2, E4. cbn in E2, E4. injection E2 as <-. injection E4 as <-.
      rewrite app_nil_r. apply IH.
      * rewrite Forall_forall in HF. apply HF. eapply nth_error_In; eassumption.
      * assert (height p < height (POp (mkOp id n None) cs)) by (apply height_child; eapply nth_error_In; eassumption). lia.
  - cbn. reflexivity.
Qed.

Lemma nth_error_combine_seq {A} (l : list A) i : nth_error (combine (seq 0 (List.length l)) l) i
  = option_map (fun a => (i, a)) (nth_error l i).
Proof.
  assert (G : forall l k i, nth_error (combine (seq k (List.length l)) l) i
    = option_map (fun a : A => (k + i, a)) (nth_error l i)).
  { clear. induction l as [|x l IH]; intros k [|i]; cbn; auto.
    - now rewrite Nat.add_0_r.
    - rewrite IH. now rewrite Nat.add_succ_r. }
  apply G.
Qed.

Lemma combine_seq_length {A} (l : list A) : List.length (combine (seq 0 (List.length l)) l) = List.length l.
Proof. rewrite combine_length, seq_length. lia. Qed.

Lemma slot_ctx_in s i c : NoDup (map fst s) -> slot_ctx s i = Some c <-> In (i, c) s.
Proof.
  unfold slot_ctx. intros Hnd. split.
  - destruct (find _ s) as [[j d]|] eqn:E; [|discriminate]. intros H. injection H as <-.
    apply find_some in E. destruct E as [E1 E2]. cbn in E2. apply Nat.eqb_eq in E2. now subst j.
  - intros H. destruct (find _ s) as [[j d]|] eqn:E.
    + apply find_some in E. destruct E as [E1 E2]. cbn in E2. apply Nat.eqb_eq in E2. subst j. cbn.
      f_equal. clear -H E1 Hnd. induction s as [|[j x] s IH]; [destruct H|]. cbn in Hnd.
      inversion Hnd as [|? ? Hn Hnd']; subst. destruct H as [H|H], E1 as [E1|E1].
      * congruence.
      * injection H as -> ->. exfalso. apply Hn. apply in_map_iff. exists (i, d). auto.
      * injection E1 as -> ->. exfalso. apply Hn. apply in_map_iff. exists (i, c). auto.
      * auto.
    + exfalso. apply (find_none _ _ E) in H. cbn in H. rewrite Nat.eqb_refl in H. discriminate.
Qed.

Lemma slot_ctx_none s i : slot_ctx s i = None <-> ~ In i (map fst s).
Proof.
  unfold slot_ctx. split.
  - destruct (find _ s) as [[j d]|] eqn:E; [discriminate|]. intros _ H. apply in_map_iff in H.
    destruct H as ([j c] & <- & H). apply (find_none _ _ E) in H. cbn in H. rewrite Nat.eqb_refl in H. discriminate.
  - intros H. destruct (find _ s) as [[j d]|] eqn:E; [|reflexivity]. exfalso.
    apply find_some in E. destruct E as [E1 E2]. apply H. apply Nat.eqb_eq in E2. cbn in E2. subst j.
    apply in_map_iff. exists (i, d). auto.
Qed.

Lemma existsb_slot s i : existsb (Nat.eqb i) (map fst s) = match slot_ctx s i with Some _ => true | None => false end.
Proof.
  destruct (slot_ctx s i) eqn:E.
  - apply existsb_exists. exists i. split; [|apply Nat.eqb_refl]. unfold slot_ctx in E.
    destruct (find _ s) as [[j d]|] eqn:Ef; [|discriminate]. apply find_some in Ef. destruct Ef as [E1 E2].
    apply Nat.eqb_eq in E2. cbn in E2. subst j. apply in_map_iff. exists (i, d). auto.
  - destruct (existsb _ _) eqn:Ee; [|reflexivity]. apply existsb_exists in Ee. destruct Ee as (j & Hj & Hi).
    apply Nat.eqb_eq in Hi. subst j. apply slot_ctx_none in E. contradiction.
Qed.

Lemma plain_variants_op o cs ctx i c : plain_variants (POp o cs) ctx -> nth_error cs i = Some c -> plain_variants c ctx.
Proof. intros H E at_ k o' vs nctx Hr. eapply (H (i :: at_)). econstructor; eassumption. Qed.

Lemma plain_variants_union k m cs ctx s i cctx c : plain_variants (PCiu k m cs) ctx ->
  nth_error m (task_index ctx) = Some s -> In (i, cctx) s -> nth_error cs i = Some c -> plain_variants c cctx.
Proof. intros H E Hi Ec at_ k' o' vs nctx Hr. eapply (H (i :: at_)). econstructor; eassumption. Qed.

Lemma nth_error_list_max l i x : nth_error l i = Some x -> x <= list_max l.
Proof.
  intros H. pose proof (proj1 (list_max_le l _) (le_n _)) as HF. rewrite Forall_forall in HF.
  apply HF. eapply nth_error_In; eassumption.
Qed.

Lemma trim_walk : forall fuel p ctx s, runnable p ctx -> plain_variants p ctx -> height p <= fuel ->
  down_with_ctx fuel specialize_callback s p (Some ctx) = Ok (s ++ decls p ctx, trimmed p ctx, Continue).
Proof.
  induction fuel as [|fuel IH]; intros p ctx s Hr Hv Hh; [pose proof (height_pos p); lia|].
  destruct p as [o cs|k m cs|b k t cs|k o vs|k].
  - cbn [down_with_ctx].
    assert (E : specialize_callback s (POp o cs) ctx = Ok (s ++ op_decls o, POp (remote_op o) cs, Continue)).
    { destruct o as [id n [[feed r]|]]; cbn; [reflexivity|]. now rewrite app_nil_r. }
    rewrite E. cbn [bind is_boundary child_ctxs children].
    rewrite (each_child_ok _ cs _ (map (fun c => trimmed c ctx) cs) (map (fun c => decls c ctx) cs));
      rewrite ?map_length; auto.
    + cbn [bind with_children decls trimmed]. rewrite concat_map_flat_map. now rewrite <- app_assoc.
    + intros i p c p' d s' E1 E2 E3 E4. rewrite nth_error_map, E1 in E2, E3, E4. cbn in E2, E3, E4.
      injection E2 as <-. injection E3 as <-. injection E4 as <-. apply IH.
      * eapply runnable_op; eassumption.
      * eapply plain_variants_op; eassumption.
      * assert (height p < height (POp o cs)) by (apply height_child; eapply nth_error_In; eassumption). lia.
  - cbn [down_with_ctx specialize_callback]. pose proof (Hr [] _ _ (runs_here _ _)) as (sl & Esl & Hnd & Hin).
    unfold ciu_to_task_specialized. rewrite Esl. cbn [bind is_boundary child_ctxs children].
    rewrite Esl, map_length, combine_seq_length.
    destruct (fill_ctxs_spec (List.length cs) sl Hnd Hin) as (v & Ev & Lv & V1 & V2). rewrite Ev. cbn [bind].
    rewrite (each_child_ok _ _ v
      (map (fun '(i, (n, f)) => match slot_ctx sl i with Some c => f c | None => PEmpty n end)
         (combine (seq 0 (List.length cs)) (map (fun c => (parts_of c, trimmed c)) cs)))
      (map (fun '(i, f) => match slot_ctx sl i with Some c => f c | None => [] end)
         (combine (seq 0 (List.length cs)) (map (fun c => decls c) cs)))).
    + cbn [bind with_children decls trimmed]. rewrite Esl. rewrite concat_map_flat_map. reflexivity.
    + now rewrite map_length, combine_seq_length.
    + rewrite !map_length, combine_seq_length, combine_length, seq_length, map_length. lia.
    + rewrite !map_length, combine_seq_length, combine_length, seq_length, map_length. lia.
    + intros i p c p' d s' E1 E2 E3 E4.
      rewrite nth_error_map, nth_error_combine_seq in E1.
      destruct (nth_error cs i) as [ch|] eqn:Ech; [|discriminate]. cbn in E1. injection E1 as <-.
      assert (HC : forall A (h : plan -> A), nth_error (combine (seq 0 (List.length cs)) (map h cs)) i = Some (i, h ch)).
      { intros A h. rewrite <- (map_length h cs). rewrite nth_error_combine_seq, nth_error_map, Ech. reflexivity. }
      rewrite nth_error_map, HC in E3, E4. cbn in E3, E4. injection E3 as <-. injection E4 as <-.
      rewrite existsb_slot. destruct (slot_ctx sl i) as [cctx|] eqn:Esc.
      * apply slot_ctx_in in Esc; [|assumption]. rewrite (V1 _ _ Esc) in E2. injection E2 as <-. apply IH.
        -- eapply runnable_union; eassumption.
        -- eapply plain_variants_union; eassumption.
        -- assert (height ch < height (PCiu k m cs)) by (apply height_child; eapply nth_error_In; eassumption). lia.
      * apply slot_ctx_none in Esc. rewrite V2 in E2; [|apply nth_error_Some; congruence|assumption].
        injection E2 as <-. rewrite app_nil_r. destruct fuel; [|reflexivity]. exfalso.
        assert (height ch < height (PCiu k m cs)) by (apply height_child; eapply nth_error_In; eassumption).
        pose proof (height_pos ch). lia.
  - cbn. rewrite app_nil_r. reflexivity.
  - cbn [down_with_ctx specialize_callback]. pose proof (Hr [] _ _ (runs_here _ _)) as (v & Ev & Hpv).
    unfold dle_specialized. rewrite Ev. cbn [bind]. cbn [decls trimmed]. rewrite Ev, app_nil_r.
    assert (Hp : plain v).
    { pose proof (Hv [] _ _ _ _ (runs_here _ _)) as HF. rewrite Forall_forall in HF. apply HF.
      eapply nth_error_In; eassumption. }
    assert (Hhv : height v <= S fuel).
    { cbn [height] in Hh. pose proof (nth_error_list_max (map height vs) (task_index ctx) (height v)) as HM.
      rewrite nth_error_map, Ev in HM. specialize (HM eq_refl). lia. }
    pose proof (plain_height_walk (S fuel) v ctx s Hp Hhv) as HW. cbn [down_with_ctx] in HW.
    assert (E : specialize_callback s v ctx = Ok (s, v, Continue)) by (inversion Hp; reflexivity).
    rewrite E in HW. cbn [bind] in HW. exact HW.
  - cbn. rewrite app_nil_r. reflexivity.
Qed.

Lemma trimmed_parts p ctx : runnable p ctx -> parts_of (trimmed p ctx) = parts_of p.
Proof.
  intros Hr. pose proof (Hr [] _ _ (runs_here _ _)) as H. destruct p as [o cs|k m cs|b k t cs|k o vs|k]; cbn in *.
  - destruct o as [id n [[f r]|]]; reflexivity.
  - destruct H as (s & -> & _). reflexivity.
  - reflexivity.
  - destruct H as (v & -> & H). exact H.
  - reflexivity.
Qed.

(** The children of a trimmed union, by index. *)
Lemma trimmed_union_nth k m cs ctx s i c : nth_error m (task_index ctx) = Some s -> nth_error cs i = Some c ->
  exists cs', trimmed (PCiu k m cs) ctx = PCiu k m cs' /\ List.length cs' = List.length cs /\
    nth_error cs' i = Some (match slot_ctx s i with Some x => trimmed c x | None => PEmpty (parts_of c) end).
Proof.
  intros Es Ec. cbn [trimmed]. rewrite Es. eexists. split; [reflexivity|]. split.
  - rewrite map_length, combine_length, seq_length, map_length. lia.
  - rewrite nth_error_map. rewrite <- (map_length (fun c => (parts_of c, trimmed c)) cs).
    rewrite nth_error_combine_seq, nth_error_map, Ec. reflexivity.
Qed.

Section ExecTrim.
Context {row : Type}.
Variable op_run : op -> TaskCtx -> list (nat -> Res (list row)) -> nat -> Res (list row).
Variable boundary_run : nat -> TaskCtx -> nat -> Res (list row).

(** Operators only see what their children yield, and a remote feed yields what the local one does. *)
Hypothesis op_run_ext : forall o ctx cs cs' q,
  Forall2 (fun f g => forall q, f q = g q) cs cs' -> op_run o ctx cs q = op_run o ctx cs' q.
Hypothesis op_run_remote : forall o ctx cs q, op_run (remote_op o) ctx cs q = op_run o ctx cs q.

Notation exec := (exec_plan op_run boundary_run).

(** A per-task leaf that runs as the only task has a variant equivalent to the original. *)
Definition lone_variants_ok (p : plan) (ctx : TaskCtx) : Prop :=
  forall at_ k o vs nctx v, runs_at p ctx at_ (PDle k o vs) nctx -> task_count nctx = 1 ->
    nth_error vs (task_index nctx) = Some v -> forall q, exec v nctx q = exec o nctx q.

Lemma trim_exec p : forall ctx, runnable p ctx -> lone_variants_ok p ctx ->
  forall q, exec (trimmed p ctx) ctx q = exec p ctx q.
Proof using op_run_ext op_run_remote.
  induction p as [o cs IH|k m cs IH|b k t cs IH|k o vs IHo IH|k] using plan_ind'; intros ctx Hr Hl q; try reflexivity.
  - cbn [trimmed exec_plan]. rewrite op_run_remote. apply op_run_ext.
    rewrite map_map. rewrite Forall_forall in IH.
    assert (G : forall cs', (forall c, In c cs' -> exists i, nth_error cs i = Some c) ->
      Forall2 (fun f g : nat -> Res (list row) => forall q, f q = g q)
        (map (fun x => exec (trimmed x ctx) ctx) cs') (map (fun c => exec c ctx) cs')).
    { induction cs' as [|c cs' IHc]; cbn; intros H; constructor.
      - destruct (H c (or_introl eq_refl)) as [i Ei]. apply IH.
        + eapply nth_error_In; eassumption.
        + eapply runnable_op; eassumption.
        + intros at_ k o' vs nctx v Hv. apply (Hl (i :: at_) k). econstructor; eassumption.
      - apply IHc. auto. }
    apply G. intros c Hc. now apply In_nth_error.
  - rewrite Forall_forall in IH. pose proof (Hr [] _ _ (runs_here _ _)) as (sl & Esl & Hnd & Hin).
    cbn [trimmed]. rewrite Esl. cbn [exec_plan]. unfold ciu_execute, ciu_delegate. cbn [task_idx_map ciu_children].
    rewrite Esl.
    set (cs' := map _ (combine _ _)).
    assert (Hn : forall i c, nth_error cs i = Some c ->
      nth_error cs' i = Some (match slot_ctx sl i with Some x => trimmed c x | None => PEmpty (parts_of c) end)).
    { intros i c Ec. unfold cs'. rewrite nth_error_map.
      rewrite <- (map_length (fun c => (parts_of c, trimmed c)) cs).
      rewrite nth_error_combine_seq, nth_error_map, Ec. reflexivity. }
    (* pick gives the same delegate *)
    assert (HP : forall s', (forall e, In e s' -> In e sl) -> forall q,
      pick (map (fun c => mkChild (parts_of c) (exec c)) cs') s' q =
      pick (map (fun c => mkChild (parts_of c) (exec c)) cs) s' q /\
      forall i c x, pick (map (fun c => mkChild (parts_of c) (exec c)) cs) s' q = Ok (Some (i, c, x)) -> In (i, c) sl).
    { induction s' as [|[i cctx] s' IHs]; intros Hs q'; cbn [pick]; [split; [reflexivity|discriminate]|].
      assert (Hi : In (i, cctx) sl) by (apply Hs; now left).
      rewrite Forall_forall in Hin. pose proof (Hin _ Hi) as Hlt. cbn in Hlt.
      destruct (nth_error cs i) as [c|] eqn:Ec; [|apply nth_error_None in Ec; lia].
      rewrite !nth_error_map, (Hn _ _ Ec), Ec. cbn [option_map ch_parts].
      assert (Esc : slot_ctx sl i = Some cctx) by now apply slot_ctx_in.
      rewrite Esc, trimmed_parts by (eapply runnable_union; eassumption).
      destruct (q' <? parts_of c); [split; [reflexivity|intros ? ? ? H; injection H as <- <- <-; assumption]|].
      apply IHs. intros e He. apply Hs. now right. }
    destruct (HP sl (fun e H => H) q) as [-> HIn].
    destruct (pick _ sl q) as [[[[i cctx] x]|]| |] eqn:Ep; cbn [bind]; try reflexivity.
    specialize (HIn _ _ _ eq_refl).
    rewrite Forall_forall in Hin. pose proof (Hin _ HIn) as Hlt. cbn in Hlt.
    destruct (nth_error cs i) as [c|] eqn:Ec; [|apply nth_error_None in Ec; lia].
    rewrite !nth_error_map, (Hn _ _ Ec), Ec. cbn [option_map ch_run].
    assert (Esc : slot_ctx sl i = Some cctx) by now apply slot_ctx_in.
    rewrite Esc. apply IH.
    + eapply nth_error_In; eassumption.
    + eapply runnable_union; eassumption.
    + intros at_ k' o' vs nctx v Hv. apply (Hl (i :: at_) k'). econstructor; eassumption.
  - cbn [trimmed exec_plan]. pose proof (Hr [] _ _ (runs_here _ _)) as (v & Ev & Hpv). rewrite Ev.
    unfold dle_execute. cbn [dle_original dle_variants lf_exec].
    destruct (Nat.eqb_spec (task_count ctx) 1) as [E1|E1].
    + apply (Hl [] k o vs ctx v (runs_here _ _) E1 Ev).
    + rewrite nth_error_map, Ev. reflexivity.
Qed.
End ExecTrim.

(** ** No leaf holders *)

Lemma plain_nlh p : plain p -> no_leaf_holder p.
Proof.
  induction p as [o cs IH|k m cs IH|b k t cs IH|k o vs IHo IH|k] using plan_ind'; intros H; inversion H; subst;
    constructor.
  rewrite Forall_forall in *. auto.
Qed.

Lemma trimmed_nlh p : forall ctx, runnable p ctx -> plain_variants p ctx -> remote_boundaries p ctx ->
  no_leaf_holder (trimmed p ctx).
Proof.
  induction p as [o cs IH|k m cs IH|b k t cs IH|k o vs IHo IH|k] using plan_ind'; intros ctx Hr Hv Hb.
  - cbn. constructor. apply Forall_map, Forall_forall. intros c Hc. rewrite Forall_forall in IH.
    destruct (In_nth_error _ _ Hc) as [i Ei]. apply IH; auto.
    + eapply runnable_op; eassumption.
    + eapply plain_variants_op; eassumption.
    + intros at_ b k t cs' nctx H. eapply (Hb (i :: at_)). econstructor; eassumption.
  - rewrite Forall_forall in IH. pose proof (Hr [] _ _ (runs_here _ _)) as (sl & Esl & Hnd & Hin).
    cbn [trimmed]. rewrite Esl. constructor. apply Forall_map, Forall_forall. intros [i [n f]] H.
    destruct (In_nth_error _ _ H) as [j Ej].
    rewrite <- (map_length (fun c => (parts_of c, trimmed c)) cs), nth_error_combine_seq, nth_error_map in Ej.
    destruct (nth_error cs j) as [c|] eqn:Ec; [|discriminate]. cbn in Ej. injection Ej as <- <- <-.
    destruct (slot_ctx sl j) as [x|] eqn:Es; [|constructor].
    apply slot_ctx_in in Es; [|assumption]. apply IH.
    + eapply nth_error_In; eassumption.
    + eapply runnable_union; eassumption.
    + eapply plain_variants_union; eassumption.
    + intros at_ b k' t cs' nctx Hx. eapply (Hb (j :: at_)). econstructor; eassumption.
  - cbn. rewrite (Hb [] b k t cs ctx (runs_here _ _)). constructor. constructor.
  - cbn. pose proof (Hr [] _ _ (runs_here _ _)) as (v & Ev & Hpv). rewrite Ev. apply plain_nlh.
    pose proof (Hv [] _ _ _ _ (runs_here _ _)) as HF. rewrite Forall_forall in HF. apply HF.
    eapply nth_error_In; eassumption.
  - constructor.
Qed.

(** ** The trimmed plan runs the same positions *)

Lemma leaf_variants_op o cs ctx i c : leaf_variants (POp o cs) ctx -> nth_error cs i = Some c -> leaf_variants c ctx.
Proof. intros H E at_ k o' vs nctx Hr. eapply (H (i :: at_)). econstructor; eassumption. Qed.

Lemma leaf_variants_union k m cs ctx s i cctx c : leaf_variants (PCiu k m cs) ctx ->
  nth_error m (task_index ctx) = Some s -> In (i, cctx) s -> nth_error cs i = Some c -> leaf_variants c cctx.
Proof. intros H E Hi Ec at_ k' o' vs nctx Hr. eapply (H (i :: at_)). econstructor; eassumption. Qed.

Definition trim_entry (e : pos * plan * TaskCtx) : pos * plan * TaskCtx :=
  let '(a, n, c) := e in (a, trimmed n c, c).

Lemma trimmed_positions p : forall ctx, runnable p ctx -> plain_variants p ctx -> leaf_variants p ctx ->
  positions (trimmed p ctx) [] ctx = map trim_entry (positions p [] ctx).
Proof.
  induction p as [o cs IH|k m cs IH|b k t cs IH|k o vs IHo IH|k] using plan_ind'; intros ctx Hr Hv Hl; try reflexivity.
  - rewrite Forall_forall in IH. rewrite positions_op. cbn [map trim_entry trimmed].
    change (POp (remote_op o) (map (fun c => trimmed c ctx) cs)) with (trimmed (POp o cs) ctx) at 2.
    rewrite positions_op, map_length. cbn [trimmed]. f_equal. rewrite map_flat_map.
    apply flat_map_ext. intros i. rewrite nth_error_map. destruct (nth_error cs i) as [c|] eqn:Ec; [|reflexivity].
    cbn [option_map]. rewrite IH; [|eapply nth_error_In; eassumption|eapply runnable_op; eassumption|
      eapply plain_variants_op; eassumption|eapply leaf_variants_op; eassumption].
    rewrite !map_map. apply map_ext. now intros [[a n] x].
  - rewrite Forall_forall in IH. pose proof (Hr [] _ _ (runs_here _ _)) as (sl & Esl & Hnd & Hin).
    rewrite (positions_union _ _ _ _ _ Esl). cbn [map trim_entry].
    cbn [trimmed]. rewrite Esl. rewrite (positions_union _ _ _ _ _ Esl). f_equal. rewrite map_flat_map.
    apply flat_map_ext_in. intros [i cctx] Hi.
    rewrite Forall_forall in Hin. pose proof (Hin _ Hi) as Hlt. cbn in Hlt.
    destruct (nth_error cs i) as [c|] eqn:Ec; [|apply nth_error_None in Ec; lia].
    rewrite nth_error_map. rewrite <- (map_length (fun c => (parts_of c, trimmed c)) cs).
    rewrite nth_error_combine_seq, nth_error_map, Ec. cbn [option_map].
    assert (Esc : slot_ctx sl i = Some cctx) by now apply slot_ctx_in. rewrite Esc.
    rewrite IH; [|eapply nth_error_In; eassumption|eapply runnable_union; eassumption|
      eapply plain_variants_union; eassumption|eapply leaf_variants_union; eassumption].
    rewrite !map_map. apply map_ext. now intros [[a n] x].
  - cbn [trimmed positions map trim_entry]. pose proof (Hr [] _ _ (runs_here _ _)) as (v & Ev & Hpv). rewrite Ev.
    pose proof (Hl [] _ _ _ _ (runs_here _ _)) as HF. rewrite Forall_forall in HF.
    specialize (HF v (nth_error_In _ _ Ev)).
    pose proof (Hv [] _ _ _ _ (runs_here _ _)) as HG. rewrite Forall_forall in HG.
    specialize (HG v (nth_error_In _ _ Ev)). inversion HG; subst; cbn in HF; subst; reflexivity.
Qed.

(** ** Metrics *)

Section Metrics.
Context {metric : Type}.

Lemma map_get_add id id' (ms : list metric) nm :
  map_get id (map_add id' ms nm) = if list_eq_dec Nat.eq_dec id' id then map_get id nm ++ ms else map_get id nm.
Proof.
  induction nm as [|[k v] nm IH]; cbn.
  - destruct (list_eq_dec Nat.eq_dec id' id); reflexivity.
  - destruct (list_eq_dec Nat.eq_dec k id') as [->|Hk]; cbn.
    + destruct (list_eq_dec Nat.eq_dec id' id); reflexivity.
    + rewrite IH. destruct (list_eq_dec Nat.eq_dec k id) as [->|]; [|reflexivity].
      destruct (list_eq_dec Nat.eq_dec id' id); [congruence|reflexivity].
Qed.

Lemma collect_positions (metrics_of : pos -> plan -> list metric) p ctx : runnable p ctx ->
  collect_task_metrics metrics_of p ctx =
  Ok (map (fun '(a, n, _) => metrics_of a n) (positions p [] ctx)).
Proof.
  intros Hr. unfold collect_task_metrics.
  pose proof (apply_positions (S := list (list metric)) (fun acc '(a, n, _) => Ok (acc ++ [metrics_of a n])) p [] ctx [] Hr) as H.
  unfold always_continue in H. cbn [bind] in H. rewrite H. clear H.
  assert (G : forall l acc, foldM (fun acc '(a, n, _) => Ok (acc ++ [metrics_of a n])) l acc =
    Ok (acc ++ map (fun '(a, n, _) => metrics_of a n) (l : list (pos * plan * TaskCtx)))).
  { induction l as [|[[a n] c] l IH]; intros acc; cbn; [now rewrite app_nil_r|]. rewrite IH, <- app_assoc. reflexivity. }
  rewrite G. reflexivity.
Qed.

(** One task: the node at each running position gets the metrics of the entry with its number. *)
Lemma accumulate_spec annotate p ctx (tm : list (list metric)) nm :
  runnable p ctx -> List.length tm = List.length (positions p [] ctx) ->
  exists nm', accumulate annotate p ctx tm nm = Ok nm' /\
    forall id, map_get id nm' = map_get id nm ++
      flat_map (fun '(e, ms) => if list_eq_dec Nat.eq_dec (pos_of e) id then map (annotate (task_index ctx)) ms else [])
        (combine (positions p [] ctx) tm).
Proof.
  intros Hr Hl. unfold accumulate.
  pose proof (apply_positions (S := nat * list (pos * list metric)) (fun '(counter, nm) '(at_, _, _) =>
       match nth_error tm counter with
       | None => Err "not enough metrics provided to rewrite task"
       | Some ms => Ok (counter + 1, map_add at_ (map (annotate (task_index ctx)) ms) nm)
       end) p [] ctx (0, nm) Hr) as H.
  assert (HE : forall f f', (forall s a n c, f s a n c = f' s a n c) -> forall (p : plan) at_ c s,
     apply_with_dt_ctx (S := nat * list (pos * list metric)) f p at_ c s = apply_with_dt_ctx f' p at_ c s).
  { clear. intros f f' E p.
    assert (GS : forall A (h h' : A -> (nat * list (pos * list metric)) -> Res ((nat * list (pos * list metric)) * tnr)) l,
      (forall a s, In a l -> h a s = h' a s) ->
      forall s t, apply_until_stop (map h l) s t = apply_until_stop (map h' l) s t).
    { intros A h h' l. induction l as [|a l IHl]; intros Hh s t; cbn; [reflexivity|]. rewrite Hh by now left.
      destruct (h' a s) as [[s1 [| |]]| |]; cbn; auto; apply IHl; intros; apply Hh; now right. }
    induction p as [o cs IH|k m cs IH|b k t cs IH|k o vs IHo IH|k] using plan_ind'; intros at_ c s;
      cbn [apply_with_dt_ctx]; rewrite E; destruct (f' s at_ _ c) as [[s1 [| |]]| |]; cbn [bind]; try reflexivity.
    - apply GS. intros i s2 _. rewrite !nth_error_map. destruct (nth_error cs i) as [ch|] eqn:Ec; cbn; [|reflexivity].
      rewrite Forall_forall in IH. apply IH. eapply nth_error_In; eassumption.
    - destruct (nth_error m (task_index c)); [|reflexivity]. apply GS. intros [i x] s2 _. rewrite !nth_error_map.
      destruct (nth_error cs i) as [ch|] eqn:Ec; cbn; [|reflexivity].
      rewrite Forall_forall in IH. apply IH. eapply nth_error_In; eassumption. }
  rewrite (HE _ (always_continue (fun '(counter, nm) '(at_, _, _) =>
       match nth_error tm counter with
       | None => Err "not enough metrics provided to rewrite task"
       | Some ms => Ok (counter + 1, map_add at_ (map (annotate (task_index ctx)) ms) nm)
       end))).
  2:{ intros [counter nm0] a n c. unfold always_continue. destruct (nth_error tm counter); reflexivity. }
  rewrite H. clear H HE.
  assert (G : forall l pre suf nm, tm = pre ++ suf -> List.length suf = List.length l ->
    exists nm', foldM (fun '(counter, nm) '(at_, _, _) =>
       match nth_error tm counter with
       | None => Err "not enough metrics provided to rewrite task"
       | Some ms => Ok (counter + 1, map_add at_ (map (annotate (task_index ctx)) ms) nm)
       end) (l : list (pos * plan * TaskCtx)) (List.length pre, nm) = Ok (List.length tm, nm') /\
    forall id, map_get id nm' = map_get id nm ++
      flat_map (fun '(e, ms) => if list_eq_dec Nat.eq_dec (pos_of e) id then map (annotate (task_index ctx)) ms else [])
        (combine l suf)).
  { induction l as [|[[a n] c] l IH]; intros pre suf nm0 Et Hs; destruct suf as [|ms suf]; try discriminate.
    - exists nm0. cbn. rewrite app_nil_r in Et. subst. split; [reflexivity|]. intros id. now rewrite app_nil_r.
    - assert (En : nth_error tm (List.length pre) = Some ms) by (rewrite Et, nth_error_app2, Nat.sub_diag by lia; reflexivity).
      cbn [foldM]. rewrite En. cbn [bind].
      destruct (IH (pre ++ [ms]) suf (map_add a (map (annotate (task_index ctx)) ms) nm0)) as (nm' & E & Hg).
      + rewrite Et, <- app_assoc. reflexivity.
      + cbn in Hs. lia.
      + rewrite app_length in E. cbn [List.length] in E. exists nm'. split; [exact E|].
        intros id. rewrite Hg, map_get_add. cbn [combine flat_map pos_of fst].
        destruct (list_eq_dec Nat.eq_dec a id); [now rewrite <- app_assoc|reflexivity]. }
  destruct (G (positions p [] ctx) [] tm nm eq_refl Hl) as (nm' & E & Hg).
  cbn [List.length] in E. rewrite E. cbn. exists nm'. split; [reflexivity|exact Hg].
Qed.

End Metrics.

(** ** Orders of visits *)

Lemma FOP_app {A} (R : A -> A -> Prop) l l' :
  ForallOrdPairs R l -> ForallOrdPairs R l' -> (forall x y, In x l -> In y l' -> R x y) ->
  ForallOrdPairs R (l ++ l').
Proof.
  induction 1 as [|x l Hx _ IH]; intros H' Hc; cbn; [assumption|]. constructor.
  - apply Forall_app. split; [assumption|]. apply Forall_forall. intros y Hy. apply Hc; [now left|assumption].
  - apply IH; auto. intros; apply Hc; auto. now right.
Qed.

Lemma FOP_flat_map {A B} (R : B -> B -> Prop) (f : A -> list B) l :
  (forall a, In a l -> ForallOrdPairs R (f a)) ->
  ForallOrdPairs (fun a b => forall x y, In x (f a) -> In y (f b) -> R x y) l ->
  ForallOrdPairs R (flat_map f l).
Proof.
  intros H1 H2. induction H2 as [|a l Ha _ IH]; cbn; [constructor|]. apply FOP_app.
  - apply H1. now left.
  - apply IH. intros; apply H1. now right.
  - intros x y Hx Hy. apply in_flat_map in Hy. destruct Hy as (b & Hb & Hy). rewrite Forall_forall in Ha.
    eapply Ha; eassumption.
Qed.

Lemma FOP_map {A B} (R : B -> B -> Prop) (f : A -> B) l :
  ForallOrdPairs (fun a b => R (f a) (f b)) l -> ForallOrdPairs R (map f l).
Proof.
  induction 1 as [|a l Ha _ IH]; cbn; constructor; auto. now apply Forall_map.
Qed.

Lemma FOP_impl {A} (R R' : A -> A -> Prop) l : (forall a b, R a b -> R' a b) ->
  ForallOrdPairs R l -> ForallOrdPairs R' l.
Proof.
  intros H. induction 1 as [|a l Ha _ IH]; constructor; auto. eapply Forall_impl; [|eassumption]. apply H.
Qed.

Lemma FOP_NoDup {A} (l : list A) : NoDup l -> ForallOrdPairs (fun a b => a <> b) l.
Proof.
  induction 1 as [|a l Ha _ IH]; constructor; auto. apply Forall_forall. intros b Hb ->. contradiction.
Qed.

Lemma FOP_NoDup_map {A B} (f : A -> B) (l : list A) : NoDup (map f l) -> ForallOrdPairs (fun a b => f a <> f b) l.
Proof.
  induction l as [|a l IH]; cbn; intros H; constructor; inversion H; subst; auto.
  apply Forall_forall. intros b Hb E. apply H2. rewrite E. now apply in_map.
Qed.

Lemma above_cons i a b : above (i :: a) (i :: b) <-> above a b.
Proof. split; intros [r E]; exists r; cbn in *; congruence. Qed.

Lemma above_cons_ne i j a b : i <> j -> ~ above (i :: a) (j :: b).
Proof. intros H [r E]. cbn in E. congruence. Qed.

Lemma above_cons_nil i a : ~ above (i :: a) [].
Proof. intros [r E]. discriminate. Qed.

(** Located nodes of a plan in pre-order over a choice of children: [kids p c] lists the visited
    children with their contexts. *)
Section Orders.
Context {C : Type} (kids : plan -> C -> list (nat * C)).

Fixpoint preorder (fuel : nat) (p : plan) (c : C) : list (pos * (plan * C)) :=
  match fuel with
  | 0 => []
  | S fuel => ([], (p, c)) :: flat_map (fun '(i, x) => match nth_error (children p) i with
       | Some ch => map (fun '(a, n) => (i :: a, n)) (preorder fuel ch x) | None => [] end) (kids p c)
  end.
Fixpoint postorder (fuel : nat) (p : plan) (c : C) : list (pos * (plan * C)) :=
  match fuel with
  | 0 => []
  | S fuel => flat_map (fun '(i, x) => match nth_error (children p) i with
       | Some ch => map (fun '(a, n) => (i :: a, n)) (postorder fuel ch x) | None => [] end) (kids p c)
       ++ [([], (p, c))]
  end.

(** A property of located nodes kept by the walk, under which no child is visited twice. *)
Variable good : plan -> C -> Prop.
Hypothesis good_nodup : forall p c, good p c -> NoDup (map fst (kids p c)).
Hypothesis good_kid : forall p c i x ch, good p c -> In (i, x) (kids p c) ->
  nth_error (children p) i = Some ch -> good ch x.

Lemma preorder_parents_first : forall fuel p c, good p c -> parents_first (preorder fuel p c).
Proof using good good_nodup good_kid.
  induction fuel as [|fuel IH]; intros p c Hg; cbn; [constructor|]. constructor.
  - apply Forall_forall. intros e He. apply in_flat_map in He. destruct He as ([i x] & _ & He).
    destruct (nth_error (children p) i); [|destruct He]. apply in_map_iff in He. destruct He as ([a n] & <- & _).
    apply above_cons_nil.
  - apply FOP_flat_map.
    + intros [i x] Hi. destruct (nth_error (children p) i) as [ch|] eqn:E; [|constructor].
      apply FOP_map. eapply FOP_impl; [|apply (IH ch x); eapply good_kid; eassumption].
      intros [a n] [a' n'] H. cbn in *. now rewrite above_cons.
    + eapply FOP_impl; [|exact (FOP_NoDup_map fst _ (good_nodup _ _ Hg))].
      intros [i x] [j y] Hij u v Hu Hv. cbn in Hij.
      destruct (nth_error (children p) i); [|destruct Hu]. destruct (nth_error (children p) j); [|destruct Hv].
      apply in_map_iff in Hu, Hv. destruct Hu as ([a n] & <- & _), Hv as ([a' n'] & <- & _). cbn.
      apply above_cons_ne. congruence.
Qed.

Lemma postorder_children_first : forall fuel p c, good p c -> children_first (postorder fuel p c).
Proof using good good_nodup good_kid.
  induction fuel as [|fuel IH]; intros p c Hg; cbn; [constructor|]. apply FOP_app.
  - apply FOP_flat_map.
    + intros [i x] Hi. destruct (nth_error (children p) i) as [ch|] eqn:E; [|constructor].
      apply FOP_map. eapply FOP_impl; [|apply (IH ch x); eapply good_kid; eassumption].
      intros [a n] [a' n'] H. cbn in *. now rewrite above_cons.
    + eapply FOP_impl; [|exact (FOP_NoDup_map fst _ (good_nodup _ _ Hg))].
      intros [i x] [j y] Hij u v Hu Hv. cbn in Hij.
      destruct (nth_error (children p) i); [|destruct Hu]. destruct (nth_error (children p) j); [|destruct Hv].
      apply in_map_iff in Hu, Hv. destruct Hu as ([a n] & <- & _), Hv as ([a' n'] & <- & _). cbn.
      apply above_cons_ne. congruence.
  - constructor; constructor.
  - intros e y He [<-|[]]. apply in_flat_map in He. destruct He as ([i x] & _ & He).
    destruct (nth_error (children p) i); [|destruct He]. apply in_map_iff in He. destruct He as ([a n] & <- & _).
    apply above_cons_nil.
Qed.

(** The located nodes, as a relation. *)
Inductive reach : plan -> C -> pos -> plan -> C -> Prop :=
| reach_here p c : reach p c [] p c
| reach_kid p c i x ch a n y : In (i, x) (kids p c) -> nth_error (children p) i = Some ch ->
    reach ch x a n y -> reach p c (i :: a) n y.

Lemma preorder_reach : forall fuel p c, height p <= fuel -> forall a n y,
  In (a, (n, y)) (preorder fuel p c) <-> reach p c a n y.
Proof using.
  induction fuel as [|fuel IH]; intros p c Hh a n y; [pose proof (height_pos p); lia|]. cbn [preorder In]. split.
  - intros [H|H]; [injection H as <- <- <-; constructor|].
    apply in_flat_map in H. destruct H as ([i x] & Hi & H). destruct (nth_error (children p) i) as [ch|] eqn:E; [|destruct H].
    apply in_map_iff in H. destruct H as ([a' [n' y']] & Eq & H). injection Eq as <- <- <-.
    apply nth_error_In in E as E'. apply height_child in E'. apply IH in H; [|lia]. econstructor; eassumption.
  - intros H. inversion H as [|? ? i x ch a' ? ? Hi E H']; subst; [now left|right].
    apply in_flat_map. exists (i, x). split; [assumption|]. rewrite E. apply in_map_iff.
    exists (a', (n, y)). split; [reflexivity|]. apply nth_error_In in E as E'. apply height_child in E'. apply IH; [lia|assumption].
Qed.

Lemma postorder_reach : forall fuel p c, height p <= fuel -> forall a n y,
  In (a, (n, y)) (postorder fuel p c) <-> reach p c a n y.
Proof using.
  induction fuel as [|fuel IH]; intros p c Hh a n y; [pose proof (height_pos p); lia|]. cbn [postorder].
  rewrite in_app_iff. cbn [In]. split.
  - intros [H|[H|[]]]; [|injection H as <- <- <-; constructor].
    apply in_flat_map in H. destruct H as ([i x] & Hi & H). destruct (nth_error (children p) i) as [ch|] eqn:E; [|destruct H].
    apply in_map_iff in H. destruct H as ([a' [n' y']] & Eq & H). injection Eq as <- <- <-.
    apply nth_error_In in E as E'. apply height_child in E'. apply IH in H; [|lia]. econstructor; eassumption.
  - intros H. inversion H as [|? ? i x ch a' ? ? Hi E H']; subst; [now right; left|left].
    apply in_flat_map. exists (i, x). split; [assumption|]. rewrite E. apply in_map_iff.
    exists (a', (n, y)). split; [reflexivity|]. apply nth_error_In in E as E'. apply height_child in E'. apply IH; [lia|assumption].
Qed.
End Orders.

Lemma with_children_same p : with_children p (children p) = p.
Proof. destruct p; reflexivity. Qed.

(** Read-only walks fold over the located nodes. *)
Section ReadOnly.
Context {S C : Type} (g : S -> plan -> C -> Res S).

Definition read_only : S -> plan -> C -> Res (S * plan * tnr) :=
  fun s p c => let* s := g s p c in Ok (s, p, Continue).
Definition on_located : S -> pos * (plan * C) -> Res S := fun s e => g s (fst (snd e)) (snd (snd e)).

Lemma foldM_located_map (i : nat) l s :
  foldM on_located (map (fun '(a, n) => (i :: a, n)) l) s = foldM on_located l s.
Proof.
  revert s. induction l as [|[a [n c]] l IH]; intros s; cbn [map foldM]; [reflexivity|].
  change (on_located s (i :: a, (n, c))) with (on_located s (a, (n, c))).
  destruct (on_located s (a, (n, c))); cbn [bind]; auto.
Qed.

(** Children walked one after the other; [D] carries the contexts, [ls i c] the located nodes. *)
Lemma each_child_fold {D} (h : S -> plan -> D -> Res (S * plan * tnr)) (ls : plan -> D -> list (pos * (plan * C))) :
  forall l cs k s,
  List.length cs = List.length l ->
  (forall s p d, In p l -> h s p d = let* s := foldM on_located (ls p d) s in Ok (s, p, Continue)) ->
  each_child h s l cs Continue =
  let* s := foldM on_located (flat_map (fun '(i, (p, d)) => map (fun '(a, n) => (i :: a, n)) (ls p d))
                                (combine (seq k (List.length l)) (combine l cs))) s in
  Ok (s, l, Continue).
Proof.
  induction l as [|p l IH]; intros [|d cs] k s Hl H; try discriminate; cbn [each_child]; [reflexivity|].
  cbn [List.length seq combine flat_map]. rewrite foldM_app, foldM_located_map, H by now left.
  destruct (foldM on_located (ls p d) s) as [s1| |]; cbn [bind]; try reflexivity.
  rewrite (IH cs (Datatypes.S k)); [|cbn in Hl; lia|intros; apply H; now right].
  destruct (foldM _ _ s1); reflexivity.
Qed.
End ReadOnly.

(** Kids of the context walk: in child order. *)
Definition ctx_kids (p : plan) (ctx : TaskCtx) : list (nat * TaskCtx) :=
  if is_boundary p then [] else
  match child_ctxs p ctx with
  | Ok v => flat_map (fun '(i, o) => match o with Some c => [(i, c)] | None => [] end)
              (combine (seq 0 (List.length v)) v)
  | _ => []
  end.

Lemma opt_kids_in {A} (v : list (option A)) i c :
  In (i, c) (flat_map (fun '(i, o) => match o with Some c => [(i, c)] | None => [] end)
              (combine (seq 0 (List.length v)) v)) <-> nth_error v i = Some (Some c).
Proof.
  rewrite in_flat_map. split.
  - intros ([j o] & Hj & H). destruct (In_nth_error _ _ Hj) as [k Ek]. rewrite nth_error_combine_seq in Ek.
    destruct (nth_error v k) eqn:E; [|discriminate]. cbn in Ek. injection Ek as -> ->.
    destruct o; [|destruct H]. destruct H as [H|[]]. injection H as -> ->. assumption.
  - intros H. exists (i, Some c). split; [|now left]. apply nth_error_In with i. now rewrite nth_error_combine_seq, H.
Qed.

Lemma combine_seq_nodup {A B} (f : A -> list B) (v : list A) k :
  NoDup (map fst (flat_map (fun '(i, o) => map (fun c => (i, c)) (firstn 1 (f o))) (combine (seq k (List.length v)) v))).
Proof.
  revert k. induction v as [|o v IH]; intros k; cbn [List.length seq combine flat_map]; [constructor|].
  rewrite map_app.
  assert (HN : ~ In k (map fst (flat_map (fun '(i, o) => map (fun c => (i, c)) (firstn 1 (f o)))
     (combine (seq (S k) (List.length v)) v)))).
  { intros H. apply in_map_iff in H. destruct H as ([i c] & <- & H). apply in_flat_map in H.
    destruct H as ([j o'] & Hj & H). apply in_map_iff in H. destruct H as (c' & E & _). injection E as -> ->.
    apply in_combine_l, in_seq in Hj. cbn in Hj. lia. }
  destruct (firstn 1 (f o)) as [|b [|b' r]] eqn:E.
  - cbn. apply IH.
  - cbn. constructor; [assumption|apply IH].
  - exfalso. destruct (f o); discriminate.
Qed.

Lemma ctx_kids_nodup p ctx : NoDup (map fst (ctx_kids p ctx)).
Proof.
  unfold ctx_kids. destruct (is_boundary p); [constructor|]. destruct (child_ctxs p ctx) as [v| |]; try constructor.
  rewrite (flat_map_ext _ (fun '(i, o) => map (fun c => (i, c)) (firstn 1 (match o with Some c => [c] | None => [] end)))).
  - apply combine_seq_nodup.
  - intros [i [c|]]; reflexivity.
Qed.

Lemma runnable_reach p ctx a n y : runnable p ctx -> (reach ctx_kids p ctx a n y <-> runs_at p ctx a n y).
Proof.
  intros Hr. split.
  - intros H. induction H as [|p c i x ch a n y Hi E H IH]; [constructor|].
    unfold ctx_kids in Hi. destruct (is_boundary p) eqn:Eb; [destruct Hi|].
    destruct (child_ctxs p c) as [v| |] eqn:Ec; try destruct Hi. apply opt_kids_in in Hi.
    destruct p as [o cs|k m cs|b k t cs|k o vs|k]; try discriminate.
    + cbn in Ec, E. injection Ec as <-. rewrite nth_error_map, E in Hi. injection Hi as <-.
      econstructor; [eassumption|]. apply IH. eapply runnable_op; eassumption.
    + pose proof (Hr [] _ _ (runs_here _ _)) as (sl & Esl & Hnd & Hin). cbn in Ec, E. rewrite Esl in Ec.
      destruct (fill_ctxs_spec (List.length cs) sl Hnd Hin) as (v' & Ev & Lv & V1 & V2).
      rewrite Ev in Ec. injection Ec as ->.
      assert (Hs : In (i, x) sl).
      { destruct (in_dec Nat.eq_dec i (map fst sl)) as [Hd|Hd].
        - apply in_map_iff in Hd. destruct Hd as ([j z] & <- & Hz). cbn in Hi. rewrite (V1 _ _ Hz) in Hi. cbn. congruence.
        - rewrite V2 in Hi; [discriminate|apply nth_error_Some; congruence|assumption]. }
      econstructor; try eassumption. apply IH. eapply runnable_union; eassumption.
    + cbn in E. destruct i; discriminate.
    + cbn in E. destruct i; discriminate.
  - intros H. induction H as [|o cs ctx i c a n y E H IH|k m cs ctx s i c cctx a n y Es Hi E H IH]; [constructor| |].
    + econstructor; [|eassumption|apply IH; eapply runnable_op; eassumption].
      unfold ctx_kids. cbn. apply opt_kids_in. rewrite nth_error_map, E. reflexivity.
    + econstructor; [|eassumption|apply IH; eapply runnable_union; eassumption].
      unfold ctx_kids. cbn. rewrite Es.
      pose proof (Hr [] _ _ (runs_here _ _)) as (sl & Esl & Hnd & Hin). rewrite Es in Esl. injection Esl as <-.
      destruct (fill_ctxs_spec (List.length cs) s Hnd Hin) as (v' & Ev & Lv & V1 & V2). rewrite Ev.
      apply opt_kids_in. now apply V1.
Qed.

Lemma foldM_ext_list {S A} (f : S -> A -> Res S) l l' s : l = l' -> foldM f l s = foldM f l' s.
Proof. now intros ->. Qed.

Lemma down_read_only {S} (g : S -> plan -> TaskCtx -> Res S) : forall fuel p ctx s,
  runnable p ctx -> height p <= fuel ->
  down_with_ctx fuel (read_only g) s p (Some ctx) =
  let* s := foldM (on_located g) (preorder ctx_kids fuel p ctx) s in Ok (s, p, Continue).
Proof.
  induction fuel as [|fuel IH]; intros p ctx s Hr Hh; [pose proof (height_pos p); lia|].
  cbn [down_with_ctx preorder foldM]. unfold read_only at 1. unfold on_located at 1. cbn [fst snd].
  destruct (g s p ctx) as [s1| |] eqn:Eg; cbn [bind]; try reflexivity.
  assert (Ek : ctx_kids p ctx = if is_boundary p then [] else match child_ctxs p ctx with
    | Ok v => flat_map (fun '(i, o) => match o with Some c => [(i, c)] | None => [] end) (combine (seq 0 (List.length v)) v)
    | _ => [] end) by reflexivity.
  rewrite Ek. clear Ek. destruct (is_boundary p) eqn:Eb; [reflexivity|].
  assert (Hcc : exists v, child_ctxs p ctx = Ok v /\ forall i ch x, nth_error (children p) i = Some ch ->
     nth_error v i = Some (Some x) -> runnable ch x).
  { pose proof (Hr [] _ _ (runs_here _ _)) as Hn. destruct p as [o cs|k m cs|b k t cs|k o vs|k]; try discriminate.
    - eexists. split; [reflexivity|]. intros i ch x E Ex. cbn in E, Ex. rewrite nth_error_map, E in Ex. injection Ex as <-.
      eapply runnable_op; eassumption.
    - destruct Hn as (sl & Esl & Hnd & Hin). cbn. rewrite Esl.
      destruct (fill_ctxs_spec (List.length cs) sl Hnd Hin) as (v & Ev & Lv & V1 & V2). exists v. split; [assumption|].
      intros i ch x E Ex. destruct (in_dec Nat.eq_dec i (map fst sl)) as [Hd|Hd].
      + apply in_map_iff in Hd. destruct Hd as ([j z] & <- & Hz). cbn [fst] in *. rewrite (V1 _ _ Hz) in Ex.
        injection Ex as <-. eapply runnable_union; eassumption.
      + rewrite V2 in Ex; [discriminate|apply nth_error_Some; congruence|assumption].
    - eexists. split; [reflexivity|]. intros i ch x E. cbn in E. destruct i; discriminate.
    - eexists. split; [reflexivity|]. intros i ch x E. cbn in E. destruct i; discriminate. }
  destruct Hcc as (v & Ev & Hch). rewrite Ev. cbn [bind].
  pose proof (child_ctxs_length _ _ _ Ev) as Lv.
  (* walk the children *)
  assert (G : forall l vs k s, List.length vs = List.length l ->
    (forall i ch, nth_error l i = Some ch -> height ch <= fuel /\ 1 <= fuel /\
        forall x, nth_error vs i = Some (Some x) -> runnable ch x) ->
    (forall i, nth_error l i = nth_error (children p) (k + i)) ->
    each_child (down_with_ctx fuel (read_only g)) s l vs Continue =
    let* s := foldM (on_located g) (flat_map (fun '(i, x) => match nth_error (children p) i with
       | Some ch => map (fun '(a, n) => (i :: a, n)) (preorder ctx_kids fuel ch x) | None => [] end)
       (flat_map (fun '(i, o) => match o with Some c => [(i, c)] | None => [] end) (combine (seq k (List.length vs)) vs))) s in
    Ok (s, l, Continue)).
  { induction l as [|ch l IHl]; intros vs k s2 Hl Hc Hp; destruct vs as [|o vs]; try discriminate; cbn [each_child]; [reflexivity|].
    cbn [List.length seq combine flat_map]. rewrite flat_map_app, foldM_app.
    destruct (Hc 0 ch eq_refl) as (H1 & H2 & H3).
    assert (Hk : nth_error (children p) k = Some ch) by (rewrite <- (Nat.add_0_r k), <- Hp; reflexivity).
    assert (HR : down_with_ctx fuel (read_only g) s2 ch o = let* s := foldM (on_located g)
       (flat_map (fun '(i, x) => match nth_error (children p) i with
         | Some ch => map (fun '(a, n) => (i :: a, n)) (preorder ctx_kids fuel ch x) | None => [] end)
         (match o with Some c => [(k, c)] | None => [] end)) s2 in Ok (s, ch, Continue)).
    { destruct o as [x|]; cbn [flat_map].
      - rewrite Hk, app_nil_r, foldM_located_map. apply IH; auto.
      - destruct fuel; [lia|reflexivity]. }
    rewrite HR. destruct (foldM (on_located g) (flat_map _ (match o with Some c => _ | None => _ end)) s2) as [s3| |];
      cbn [bind]; try reflexivity.
    rewrite (IHl vs (Datatypes.S k) s3).
    - destruct (foldM _ _ s3); reflexivity.
    - cbn in Hl. lia.
    - intros i c' E. exact (Hc (Datatypes.S i) c' E).
    - intros i. specialize (Hp (Datatypes.S i)). cbn in Hp. rewrite Hp. f_equal. lia. }
  rewrite (G (children p) v 0 s1 Lv).
  - destruct (foldM (on_located g) _ s1) as [s2| |]; cbn [bind]; try reflexivity. now rewrite with_children_same.
  - intros i ch E. apply nth_error_In in E as E'. apply height_child in E'. pose proof (height_pos ch).
    split; [lia|]. split; [lia|]. intros x Ex. eapply Hch; eassumption.
  - reflexivity.
Qed.

(** Kids of the task count walks: all children. *)
Definition tc_kids (p : plan) (tc : nat) : list (nat * nat) :=
  combine (seq 0 (List.length (child_tcs p tc))) (child_tcs p tc).

Lemma tc_kids_nodup p tc : NoDup (map fst (tc_kids p tc)).
Proof.
  unfold tc_kids.
  assert (G : forall (l : list nat) k, map fst (combine (seq k (List.length l)) l) = seq k (List.length l)).
  { induction l as [|x l IH]; intros k; cbn; [reflexivity|]. now rewrite IH. }
  rewrite G. apply seq_NoDup.
Qed.

Lemma tc_kids_in p tc i x : In (i, x) (tc_kids p tc) <-> nth_error (child_tcs p tc) i = Some x.
Proof.
  unfold tc_kids. split.
  - intros H. destruct (In_nth_error _ _ H) as [j Ej]. rewrite nth_error_combine_seq in Ej.
    destruct (nth_error (child_tcs p tc) j) eqn:E; [|discriminate]. cbn in Ej. congruence.
  - intros H. apply nth_error_In with i. now rewrite nth_error_combine_seq, H.
Qed.

Lemma counts_reach p tc a n y : reach tc_kids p tc a n y <-> counts_at p tc a n y.
Proof.
  split.
  - intros H. induction H as [|p c i x ch a n y Hi E H IH]; [constructor|]. apply tc_kids_in in Hi.
    destruct p as [o cs|k m cs|b k t cs|k o vs|k]; cbn in Hi, E; try (destruct i; discriminate).
    + econstructor; [eassumption|].
      rewrite nth_error_repeat in Hi by (apply nth_error_Some; congruence). now injection Hi as ->.
    + econstructor; eassumption.
    + econstructor; [eassumption|].
      rewrite nth_error_repeat in Hi by (apply nth_error_Some; congruence). now injection Hi as ->.
  - intros H. induction H as [|o cs tc i c a n y E H IH|k m cs tc i c ctc a n y E Ec H IH|b k t cs tc i c a n y E H IH];
      [constructor| | |]; (econstructor; [|eassumption|exact IH]); apply tc_kids_in; cbn; try assumption;
      apply nth_error_repeat; apply nth_error_Some; congruence.
Qed.

Lemma kids_zip p (tcs : list nat) (ls : plan -> nat -> list (pos * (plan * nat))) :
  List.length tcs = List.length (children p) ->
  flat_map (fun '(i, (ch, d)) => map (fun '(a, n) => (i :: a, n)) (ls ch d))
    (combine (seq 0 (List.length (children p))) (combine (children p) tcs)) =
  flat_map (fun '(i, x) => match nth_error (children p) i with
       | Some ch => map (fun '(a, n) => (i :: a, n)) (ls ch x) | None => [] end)
    (combine (seq 0 (List.length tcs)) tcs).
Proof.
  intros Hl.
  assert (G : forall l ts k, List.length ts = List.length l -> (forall i, nth_error l i = nth_error (children p) (k + i)) ->
    flat_map (fun '(i, (ch, d)) => map (fun '(a, n) => (i :: a, n)) (ls ch d)) (combine (seq k (List.length l)) (combine l ts)) =
    flat_map (fun '(i, x) => match nth_error (children p) i with
       | Some ch => map (fun '(a, n) => (i :: a, n)) (ls ch x) | None => [] end) (combine (seq k (List.length ts)) ts)).
  { induction l as [|ch l IH]; intros [|t ts] k H Hp; try discriminate; cbn [List.length seq combine flat_map]; [reflexivity|].
    assert (Hk : nth_error (children p) k = Some ch) by (rewrite <- (Nat.add_0_r k), <- Hp; reflexivity).
    rewrite Hk. f_equal. apply IH; [cbn in H; lia|]. intros i. specialize (Hp (S i)). cbn in Hp. rewrite Hp. f_equal. lia. }
  now apply G.
Qed.

Lemma up_read_only {S} (g : S -> plan -> nat -> Res S) : forall fuel p tc s, height p <= fuel ->
  up_with_count fuel (read_only g) s p tc =
  let* s := foldM (on_located g) (postorder tc_kids fuel p tc) s in Ok (s, p, Continue).
Proof.
  induction fuel as [|fuel IH]; intros p tc s Hh; [pose proof (height_pos p); lia|].
  cbn [up_with_count postorder]. rewrite foldM_app.
  rewrite (each_child_fold g _ (postorder tc_kids fuel) (children p) (child_tcs p tc) 0 s (child_tcs_length p tc)).
  2:{ intros s1 ch d Hc. apply height_child in Hc. apply IH. lia. }
  unfold tc_kids at 2. rewrite (kids_zip p (child_tcs p tc) (postorder tc_kids fuel) (child_tcs_length p tc)).
  destruct (foldM _ _ s) as [s1| |]; cbn [bind]; try reflexivity.
  rewrite with_children_same. cbn [foldM]. unfold read_only, on_located. cbn [fst snd].
  destruct (g s1 p tc); reflexivity.
Qed.

Lemma down_tc_read_only {S} (g : S -> plan -> nat -> Res S) : forall fuel p tc s, height p <= fuel ->
  down_with_count fuel (read_only g) s p tc =
  let* s := foldM (on_located g) (preorder tc_kids fuel p tc) s in Ok (s, p, Continue).
Proof.
  induction fuel as [|fuel IH]; intros p tc s Hh; [pose proof (height_pos p); lia|].
  cbn [down_with_count preorder foldM]. unfold read_only at 1. unfold on_located at 1. cbn [fst snd].
  destruct (g s p tc) as [s1| |]; cbn [bind]; try reflexivity.
  rewrite (each_child_fold g _ (preorder tc_kids fuel) (children p) (child_tcs p tc) 0 s1 (child_tcs_length p tc)).
  2:{ intros s2 ch d Hc. apply height_child in Hc. apply IH. lia. }
  unfold tc_kids at 2. rewrite (kids_zip p (child_tcs p tc) (preorder tc_kids fuel) (child_tcs_length p tc)).
  destruct (foldM _ _ s1) as [s2| |]; cbn [bind]; try reflexivity.
  now rewrite with_children_same.
Qed.

(** Slot order, as used by visits. *)
Definition slot_kids (p : plan) (ctx : TaskCtx) : list (nat * TaskCtx) :=
  match p with
  | POp _ cs => map (fun i => (i, ctx)) (seq 0 (List.length cs))
  | PCiu _ m cs => match nth_error m (task_index ctx) with Some s => s | None => [] end
  | _ => []
  end.

Lemma positions_preorder : forall fuel p ctx, height p <= fuel ->
  positions p [] ctx = map (fun '(a, (n, c)) => (a, n, c)) (preorder slot_kids fuel p ctx).
Proof.
  induction fuel as [|fuel IH]; intros p ctx Hh; [pose proof (height_pos p); lia|].
  assert (Hc : forall i c, nth_error (children p) i = Some c -> height c <= fuel).
  { intros i c E. apply nth_error_In, height_child in E. lia. }
  cbn [preorder map]. destruct p as [o cs|k m cs|b k t cs|k o vs|k]; try reflexivity.
  - rewrite positions_op. f_equal. cbn [slot_kids children] in *. rewrite flat_map_map, map_flat_map.
    apply flat_map_ext. intros i. destruct (nth_error cs i) as [c|] eqn:E; [|reflexivity].
    rewrite (IH c ctx (Hc i c E)), !map_map. apply map_ext. now intros [a [n x]].
  - cbn [slot_kids children] in *. destruct (nth_error m (task_index ctx)) as [s|] eqn:Es.
    + rewrite (positions_union _ _ _ _ _ Es). f_equal. rewrite map_flat_map.
      apply flat_map_ext. intros [i y]. destruct (nth_error cs i) as [c|] eqn:E; [|reflexivity].
      rewrite (IH c y (Hc i c E)), !map_map. apply map_ext. now intros [a [n x]].
    + cbn. now rewrite Es.
Qed.

Lemma slot_kids_nodup p ctx : runnable p ctx -> NoDup (map fst (slot_kids p ctx)).
Proof.
  intros Hr. destruct p as [o cs|k m cs|b k t cs|k o vs|k]; cbn; try constructor.
  - rewrite map_map, map_id. apply seq_NoDup.
  - pose proof (Hr [] _ _ (runs_here _ _)) as (sl & -> & Hnd & Hin). assumption.
Qed.

Lemma slot_kids_runnable p c i x ch : runnable p c -> In (i, x) (slot_kids p c) ->
  nth_error (children p) i = Some ch -> runnable ch x.
Proof.
  intros Hr Hi E. destruct p as [o cs|k m cs|b k t cs|k o vs|k]; cbn in Hi, E; try destruct Hi.
  - apply in_map_iff in Hi. destruct Hi as (j & Ej & _). injection Ej as -> ->. eapply runnable_op; eassumption.
  - destruct (nth_error m (task_index c)) as [s|] eqn:Es; [|destruct Hi]. eapply runnable_union; eassumption.
Qed.
