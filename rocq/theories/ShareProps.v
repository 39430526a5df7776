(** Tasks of one stage that run in the same process (C74). *)
From Verif Require Import Base CiuModel CiuProofs NetModel EventsModel PlanModel PlanSpec PlanProofs PoolModel PoolSpec PoolProofs PoolProps CiuSpec CiuProps DynShown
  ShareModel ShareSpec ShareProofs.

(** * Sharing *)

Lemma received_local u t p ctx : received (Some u) u t p ctx = fst (held t p [] ctx false).
Proof. unfold received. now rewrite Nat.eqb_refl. Qed.

Lemma received_remote su u t p ctx x a : ~ local su u -> In (x, a) (received su u t p ctx) -> a = Made t x.
Proof.
  unfold local, received. intros Hl Hin.
  assert (E : forall l : list (pos * addr), In (x, a) (map (fun e => (fst e, Made t (fst e))) l) -> a = Made t x).
  { intros l H. apply in_map_iff in H. destruct H as (e & E & _). congruence. }
  destruct su as [v|]; [|now apply E in Hin]. destruct (Nat.eqb_spec v u) as [->|_]; [congruence|now apply E in Hin].
Qed.

Lemma received_made su u t p ctx x t' y : runnable p ctx -> In (x, Made t' y) (received su u t p ctx) -> t' = t.
Proof.
  intros Hr Hin. assert (Hd : local su u \/ ~ local su u).
  { unfold local. destruct su as [v|]; [|right; congruence]. destruct (Nat.eq_dec v u); [left|right]; congruence. }
  destruct Hd as [->|Hd].
  - rewrite received_local in Hin. exact (held_made _ _ _ _ _ _ _ _ Hr Hin).
  - apply (received_remote _ _ _ _ _ _ _ Hd) in Hin. congruence.
Qed.

(** Tasks that are not both run by the coordinator's own process have no operator instance in common. *)
Theorem C74_different_processes self_url ui uj i j p ctxi ctxj a :
  i <> j -> runnable p ctxi -> runnable p ctxj -> ~ (local self_url ui /\ local self_url uj) ->
  ~ in_common a (received self_url ui i p ctxi) (received self_url uj j p ctxj).
Proof.
  intros Hij Hri Hrj Hl [[x Hx] [y Hy]].
  assert (Hd : ~ local self_url ui \/ ~ local self_url uj).
  { unfold local in *. destruct self_url as [v|]; [|left; congruence].
    destruct (Nat.eq_dec v ui) as [->|Hv]; [right; intros E; apply Hl; auto|left; intros E; injection E; auto]. }
  destruct Hd as [Hd|Hd].
  - pose proof (received_remote _ _ _ _ _ _ _ Hd Hx) as ->. apply received_made in Hy; [congruence|assumption].
  - pose proof (received_remote _ _ _ _ _ _ _ Hd Hy) as ->. apply received_made in Hx; [congruence|assumption].
Qed.

(** In particular if they have different URLs. *)
Theorem C74_distinct_workers self_url ui uj i j p ctxi ctxj a :
  i <> j -> runnable p ctxi -> runnable p ctxj -> ui <> uj ->
  ~ in_common a (received self_url ui i p ctxi) (received self_url uj j p ctxj).
Proof.
  intros Hij Hri Hrj Hu. apply C74_different_processes; try assumption. unfold local. intros [-> H]. congruence.
Qed.

(** Exactly what two tasks run by the coordinator's own process have in common. *)
Theorem C74_same_process url i j p ctxi ctxj a :
  i <> j -> runnable p ctxi -> runnable p ctxj ->
  (in_common a (received (Some url) url i p ctxi) (received (Some url) url j p ctxj) <-> given_to_both p ctxi ctxj a).
Proof.
  intros Hij Hri Hrj. rewrite !received_local. split.
  - intros [[x Hx] [y Hy]]. apply held_found in Hx; [|assumption]. apply held_found in Hy; [|assumption].
    destruct a as [a|a v sub|t a]; cbn in *; [| |congruence].
    + destruct Hx as (_ & _ & rel & n & c & -> & H), Hy as (_ & _ & rel' & n' & c' & E & H'). cbn in E. subst rel'. split; eauto.
    + destruct Hx as (_ & _ & rel & k & o & vs & c & w & -> & Hr & Hv & Hw & Hs & Hn).
      destruct Hy as (_ & _ & rel' & k' & o' & vs' & c' & w' & E & Hr' & Hv' & Hw' & Hs' & Hn'). cbn in E. subst rel'. cbn.
      do 10 eexists. repeat (split; [eassumption|]). assumption.
  - destruct a as [a|a v sub|t a]; cbn; [| |intros []].
    + intros [(n & c & Hr & Hs & Hn) (n' & c' & Hr' & Hs' & Hn')]. split.
      * exists a. exact (base_held i p [] ctxi a n c Hri Hr Hs Hn).
      * exists a. exact (base_held j p [] ctxj a n' c' Hrj Hr' Hs' Hn').
    + intros (k & o & vs & c & k' & o' & vs' & c' & w & w' & Hr & Hn & Hr' & Hn' & -> & Hv & Hw & Hs & Hw' & Hs'). split.
      * exists (a ++ sub). exact (variant_held i p [] ctxi a k o vs c w sub Hri Hr Hw Hs Hn).
      * exists (a ++ sub). rewrite Hv in *. exact (variant_held j p [] ctxj a k' o' vs' c' w' sub Hrj Hr' Hw' Hs' Hn').
Qed.

Lemma adapted_below p : forall ctx, all_leaves_adapted p ctx -> ~ same_for_all_tasks p ctx.
Proof.
  induction p as [o cs IH|k m cs _|b k tt cs _|k o vs _ _|k] using plan_ind'; intros ctx Ha Hs;
    pose proof (runs_ordinary _ _ Hs) as Ho; destruct (Ha _ _ _ (runs_here _ _) Ho) as (o' & cs' & E & Hc); try discriminate.
  injection E as <- <-. destruct cs as [|c cs]; [congruence|]. rewrite Forall_forall in IH. apply (IH c (or_introl eq_refl) ctx).
  - intros a n nc H. apply (Ha (0 :: a) n nc). now apply runs_op with c.
  - intros a n nc H. apply (Hs (0 :: a) n nc). now apply runs_op with c.
Qed.

Lemma runs_trans p ctx a n c b n' c' : runs_at p ctx a n c -> runs_at n c b n' c' -> runs_at p ctx (a ++ b) n' c'.
Proof. induction 1; intros Hb; cbn; [assumption|eapply runs_op; eauto|eapply runs_union; eauto]. Qed.

Lemma numbers_differ p ctx at_ n c : runs_at p ctx at_ n c -> forall ctx' n' c',
  own_numbers_everywhere p ctx -> runs_at p ctx' at_ n' c' -> task_index ctx <> task_index ctx' -> task_index c <> task_index c'.
Proof.
  induction 1 as [p ctx|o cs ctx i ch a n nc Hi Hruns IH|k m cs ctx s i ch cctx a n nc Hs Hin Hi Hruns IH]; intros ctx' n' c' Ho Hr Hd.
  - inversion Hr; subst. assumption.
  - inversion Hr as [| ? ? ? ? ch' ? ? ? Hi' Hr' |]; subst. rewrite Hi in Hi'. injection Hi' as <-.
    apply (IH _ _ _ (fun a' k m cs' c0 H => Ho (i :: a') k m cs' c0 (runs_op _ _ _ _ _ _ _ _ Hi H)) Hr' Hd).
  - inversion Hr as [| |? ? ? ? s' ? ch' cctx' ? ? ? Hs' Hin' Hi' Hr']; subst. rewrite Hi in Hi'. injection Hi' as <-.
    apply (IH _ _ _ (fun a' k m cs' c0 H => Ho (i :: a') k m cs' c0 (runs_union _ _ _ _ _ _ _ _ _ _ _ Hs Hin Hi H)) Hr').
    exact (Ho [] _ _ _ _ (runs_here _ _) _ _ _ _ _ _ _ Hd Hs Hs' Hin Hin').
Qed.

(** Full claim: tasks never have an operator instance in common. It holds of stages whose leaves are all adapted to
    the task; missing are stages that read another stage (see [C74_no_sharing_refuted]). *)
Theorem C74_no_sharing_partial self_url ui uj i j p ctxi ctxj a :
  i <> j -> task_index ctxi <> task_index ctxj -> runnable p ctxi -> runnable p ctxj ->
  all_leaves_adapted p ctxi -> own_numbers_everywhere p ctxi ->
  ~ in_common a (received self_url ui i p ctxi) (received self_url uj j p ctxj).
Proof.
  intros Hij Hd Hri Hrj Ha Ho.
  destruct (Nat.eq_dec ui uj) as [<-|Hu]; [|now apply C74_distinct_workers].
  assert (Hl : self_url = Some ui \/ self_url <> Some ui).
  { destruct self_url as [v|]; [|right; congruence]. destruct (Nat.eq_dec v ui); [left|right]; congruence. }
  destruct Hl as [->|Hl]; [|apply C74_different_processes; try assumption; unfold local; tauto].
  rewrite C74_same_process by assumption. destruct a as [a|a v sub|t a]; cbn; [| |tauto].
  - intros [(n & c & Hr & Hs & _) _]. apply (adapted_below n c); [|assumption].
    intros b n' c' Hb. exact (Ha _ _ _ (runs_trans _ _ _ _ _ _ _ _ Hr Hb)).
  - intros (k & o & vs & c & k' & o' & vs' & c' & w & w' & Hr & _ & Hr' & _ & Hv & Hv' & _).
    apply (numbers_differ _ _ _ _ _ Hr _ _ _ Ho Hr' Hd). congruence.
Qed.

(** The numbering holds of the unions the planner builds. *)
Theorem C74_union_numbers weights budget m :
  planner_weights weights budget -> split_children weights budget = Ok m -> own_numbers m.
Proof.
  intros Hp Hm. destruct (planner_weights_good weights budget Hp) as (m' & Es & Hg). rewrite Hm in Es. injection Es as <-.
  assert (Hnd : forall ch, NoDup (map task_index (runs_of ch m)) ).
  { intros ch. destruct (nth_error weights ch) as [w|] eqn:Ew.
    - destruct (ga_exact _ _ _ Hg _ _ Ew) as (n & _ & _ & ->). unfold all_tasks. rewrite map_map. cbn. rewrite map_id. apply seq_NoDup.
    - replace (runs_of ch m) with (@nil TaskCtx); [constructor|]. unfold runs_of.
      destruct (filter (fun e => fst e =? ch) (List.concat m)) as [|e l] eqn:Ef; [reflexivity|]. exfalso.
      assert (He : In e (filter (fun e => fst e =? ch) (List.concat m))) by (rewrite Ef; now left).
      apply filter_In in He. destruct He as [He Hc]. apply in_concat in He. destruct He as (s & Hs & He). apply Nat.eqb_eq in Hc.
      pose proof (ga_known _ _ _ Hg _ _ Hs He). apply nth_error_None in Ew. lia. }
  assert (Hlt : forall i j si sj ch ci cj, i < j -> nth_error m i = Some si -> nth_error m j = Some sj ->
    In (ch, ci) si -> In (ch, cj) sj -> task_index ci <> task_index cj).
  { intros i j si sj ch ci cj Hij Hi Hj Hci Hcj E. specialize (Hnd ch). apply nth_error_split in Hi. destruct Hi as (l1 & l2 & -> & Hl1).
    rewrite nth_error_app2 in Hj by lia. destruct (j - List.length l1) as [|d] eqn:Ed; [lia|]. cbn in Hj. apply nth_error_In in Hj.
    unfold runs_of in Hnd. rewrite concat_app, filter_app, map_app, map_app in Hnd. apply NoDup_app_r in Hnd. cbn in Hnd.
    rewrite filter_app, map_app, map_app in Hnd.
    refine (NoDup_app_not _ _ Hnd (task_index ci) _ _).
    - apply in_map, (in_map snd _ (ch, ci)). apply filter_In. split; [assumption|apply Nat.eqb_refl].
    - rewrite E. apply in_map, (in_map snd _ (ch, cj)). apply filter_In. split; [apply in_concat; eauto|apply Nat.eqb_refl]. }
  intros i j si sj ch ci cj Hij Hi Hj Hci Hcj. destruct (Nat.lt_trichotomy i j) as [H|[H|H]]; [eauto|contradiction|].
  intros E. exact (Hlt _ _ _ _ _ _ _ H Hj Hi Hcj Hci (eq_sym E)).
Qed.

(** * What sharing does *)

Lemma Forall2_in_right {A B} (R : A -> B -> Prop) l l' y : Forall2 R l l' -> In y l' -> exists x, In x l /\ R x y.
Proof. induction 1 as [|a b l l' H _ IH]; [intros []|]. intros [<-|Hy]; [exists a; cbn; auto|]. destruct (IH Hy) as (x & ? & ?). exists x. cbn. auto. Qed.

(** Two tasks that read the same output partition of a shuffle they share: at most one of them gets a stream from
    each producer task, whatever the schedule. *)
Theorem C74_shared_shuffle_one_reader {row stream err : Type} workers n (pl : pool row stream err) (s : shuffle row)
    ctxi ctxj q li lj c c' r r' t t' k k' si sj :
  pool_reachable workers n pl ->
  shuffle_requests s workers ctxi q = Ok li -> shuffle_requests s workers ctxj q = Ok lj ->
  In r li -> In r' lj -> rq_task r = rq_task r' -> c <> c' ->
  outcome_of pl c r (Got t k si) -> ~ outcome_of pl c' r' (Got t' k' sj).
Proof.
  intros Hreach Hli Hlj Hr Hr' Ht Hc Ho Ho'.
  assert (Hin : forall ctx l x, shuffle_requests s workers ctx q = Ok l -> In x l -> rq_target x - rq_start x = q).
  { intros ctx l x Hl Hx. unfold shuffle_requests in Hl. apply mapM_ok_inv in Hl. destruct (Forall2_in_right _ _ _ _ Hl Hx) as (i & _ & E).
    destruct (shuffle_producer_head s (task_count ctx)); cbn in E; try discriminate. injection E as <-. cbn. lia. }
  destruct (C29_right_stream _ _ _ Hreach _ _ _ _ _ Ho) as (-> & _ & -> & _).
  destruct (C29_right_stream _ _ _ Hreach _ _ _ _ _ Ho') as (-> & _ & -> & _).
  rewrite (Hin _ _ _ Hli Hr) in Ho. rewrite (Hin _ _ _ Hlj Hr'), <- Ht in Ho'.
  apply Hc. exact (C29_streams_handed_out_once _ _ _ Hreach _ _ _ _ _ _ _ _ Ho Ho').
Qed.

(** The answer of a producer task to a request: one stream per partition of the range, here named by the partition. *)
Definition answers_the_request {row} (r : request row) : list nat := seq (rq_start r) (rq_end r - rq_start r).

(** The full claim is false: both tasks of a stage that aggregates what it reads from a shuffle are given the same
    two operators if both are routed to the coordinator's own URL. The shuffle then asks the producer for the range of
    whichever task comes first; task 1, which has to read partition 1, is given partition 0, and task 0 an error. *)
Theorem C74_no_sharing_refuted :
  exists p url ctx0 ctx1, runnable p ctx0 /\ runnable p ctx1 /\
    ctx0 = mkCtx 0 2 /\ ctx1 = mkCtx 1 2 /\
    p = POp (mkOp 7 1 None) [PBoundary 0 1 1 []] /\
    (forall at_, In at_ [[]; [0]] -> in_common (ShareModel.Base at_) (received (Some url) url 0 p ctx0) (received (Some url) url 1 p ctx1)) /\
    exists (s : shuffle nat) r0 r1 (pl : pool nat nat string),
      shuffle_requests s 1 ctx0 0 = Ok [r0] /\ shuffle_requests s 1 ctx1 0 = Ok [r1] /\
      pool_reachable 1 1 pl /\ pl_answers pl = [(0, inl (answers_the_request r0))] /\
      rq_target r1 = 1 /\ outcome_of pl 1 r1 (Got 0 0 0) /\ outcome_of pl 0 r0 Consumed.
Proof.
  exists (POp (mkOp 7 1 None) [PBoundary 0 1 1 []]), 5, (mkCtx 0 2), (mkCtx 1 2).
  assert (Hr : forall ctx, runnable (POp (mkOp 7 1 None) [PBoundary 0 1 1 []]) ctx).
  { intros ctx a n c H. inversion H as [| ? ? ? i ch ? ? ? Hi H' |]; subst; [exact I|].
    destruct i as [|[|i]]; cbn in Hi; try discriminate. injection Hi as <-. inversion H'; subst. exact I. }
  do 5 (split; [first [apply Hr|reflexivity]|]). split.
  - intros a [<-|[<-|[]]]; split; eexists; cbn; [left|left|right; left|right; left]; reflexivity.
  - exists (mkShuffle (HashP (fun r => r) 1) (Remote 1) 1).
    do 2 eexists. exists (mkPool [Some (mkGroup (mkReq 0 1 0 0 (HRepartition (HashP (fun r => r) 2))) (Some (inl [None])))]
      [(mkReq 0 1 0 0 (HRepartition (HashP (fun r => r) 2)), Some Consumed); (mkReq 1 2 0 1 (HRepartition (HashP (fun r => r) 2)), Some (Got 0 0 0))]
      [mkReq 0 1 0 0 (HRepartition (HashP (fun r => r) 2))] [(0, inl [0])]).
    split; [reflexivity|]. split; [reflexivity|]. split; [|repeat (split; [reflexivity|]); reflexivity].
    unfold pool_reachable, pool_new. cbn [repeat].
    eapply steps_trans; [apply steps_one; apply (call_step 1 _ (mkReq 0 1 0 0 (HRepartition (HashP (fun r => r) 2))))|cbn].
    eapply steps_trans; [apply steps_one; apply (call_step 1 _ (mkReq 1 2 0 1 (HRepartition (HashP (fun r => r) 2))))|cbn].
    eapply steps_trans; [apply steps_one; eapply (resolve_step 1 _ 0 _ (inl [0])); reflexivity|cbn].
    eapply steps_trans; [apply steps_one; eapply (poll_step 1 _ 1); reflexivity|cbn].
    eapply steps_trans; [apply steps_one; eapply (poll_step 1 _ 0); reflexivity|cbn].
    apply steps_refl.
Qed.

(** * Cases meeting the hypotheses *)

(** A stage that sorts the union of two tables, one split over two tasks and one read by a single task, below a
    filter; three tasks. *)
Definition ex_file (i : nat) : plan := POp (mkOp i 1 None) [].
Definition ex_union : plan :=
  POp (mkOp 1 1 None)
    [PCiu 2 [[(0, mkCtx 0 2)]; [(0, mkCtx 1 2)]; [(1, mkCtx 0 1)]]
       [POp (mkOp 2 1 None) [PDle 1 (ex_file 3) [ex_file 4; ex_file 5]]; PDle 1 (ex_file 6) [ex_file 7]]].

Ltac walk := repeat match goal with
  | H : runs_at (POp _ _) _ _ _ _ |- _ => inversion H; subst; clear H
  | H : runs_at (PCiu _ _ _) _ _ _ _ |- _ => inversion H; subst; clear H
  | H : runs_at (PDle _ _ _) _ _ _ _ |- _ => inversion H; subst; clear H
  | H : nth_error _ ?i = Some _ |- _ => is_var i; destruct i; cbn in H; try discriminate
  | H : nth_error _ (Datatypes.S ?i) = Some _ |- _ => is_var i; destruct i; cbn in H; try discriminate
  | H : Some _ = Some _ |- _ => injection H; clear H; intros; subst
  | H : nth_error _ _ = Some _ |- _ => cbn in H; try discriminate
  | H : In _ _ |- _ => cbn in H
  | H : _ \/ _ |- _ => destruct H
  | H : False |- _ => destruct H
  | H : 0 = Datatypes.S _ |- _ => discriminate H
  | H : Datatypes.S _ = 0 |- _ => discriminate H
  | H : (_, _) = (_, _) |- _ => injection H; clear H; intros; subst
  end.

Example C74_no_sharing_hypotheses_met :
  runnable ex_union (mkCtx 0 3) /\ runnable ex_union (mkCtx 1 3) /\ all_leaves_adapted ex_union (mkCtx 0 3) /\
  own_numbers_everywhere ex_union (mkCtx 0 3) /\
  (exists at_, in_common (OfVariant at_ 0 []) (received (Some 9) 9 0 ex_union (mkCtx 0 3)) (received (Some 9) 9 0 ex_union (mkCtx 0 3))).
Proof.
  assert (Hn : own_numbers [[(0, mkCtx 0 2)]; [(0, mkCtx 1 2)]; [(1, mkCtx 0 1)]]).
  { intros i j si sj ch ci cj Hij Hi Hj Hci Hcj. do 3 (destruct i as [|i]; [do 3 (destruct j as [|j]; [cbn in Hi, Hj; injection Hi as <-; injection Hj as <-;
      cbn in Hci, Hcj; destruct Hci as [Hci|[]], Hcj as [Hcj|[]]; inversion Hci; inversion Hcj; subst; cbn; congruence|]); destruct j; discriminate|]).
    destruct i; discriminate. }
  split; [|split; [|split; [|split]]].
  - intros a n c H. unfold ex_union in H. walk; cbn; try exact I;
      eexists; (split; [reflexivity|]); try (split; [repeat (constructor; [cbn; intuition discriminate|]); constructor|]); repeat constructor; cbn; lia.
  - intros a n c H. unfold ex_union in H. walk; cbn; try exact I;
      eexists; (split; [reflexivity|]); try (split; [repeat (constructor; [cbn; intuition discriminate|]); constructor|]); repeat constructor; cbn; lia.
  - intros a n c H Ho. unfold ex_union in H. walk; cbn in Ho; try destruct Ho; do 2 eexists; (split; [reflexivity|discriminate]).
  - intros a k m cs c H. unfold ex_union in H. walk; assumption.
  - exists [0; 0; 0]. split; eexists; cbn; do 3 right; left; reflexivity.
Qed.

(** Two tasks routed to the coordinator itself share the operators above a boundary but not those above the file. *)
Example C74_same_process_case :
  let p := POp (mkOp 1 1 None) [POp (mkOp 2 1 None) [PBoundary 0 1 1 []]; PDle 1 (ex_file 3) [ex_file 4; ex_file 5]] in
  map snd (received (Some 9) 9 0 p (mkCtx 0 2)) =
    [Made 0 []; ShareModel.Base [0]; ShareModel.Base [0; 0]; OfVariant [1] 0 []] /\
  map snd (received (Some 9) 9 1 p (mkCtx 1 2)) =
    [Made 1 []; ShareModel.Base [0]; ShareModel.Base [0; 0]; OfVariant [1] 1 []] /\
  map snd (received (Some 9) 8 1 p (mkCtx 1 2)) = [Made 1 []; Made 1 [0]; Made 1 [0; 0]; Made 1 [1]].
Proof. repeat split. Qed.

Print Assumptions C74_different_processes.
Print Assumptions C74_distinct_workers.
Print Assumptions C74_same_process.
Print Assumptions C74_no_sharing_partial.
Print Assumptions C74_union_numbers.
Print Assumptions C74_shared_shuffle_one_reader.
Print Assumptions C74_no_sharing_refuted.
