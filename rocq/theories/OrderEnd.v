(** The order of rows in whole plans and in the scans that the default handlers split. *)
From Verif Require Import Base NetModel NetSpec CiuModel EventsModel EventsSpec EventsProofs JoinModel JoinSpec PlannerModel
  PlannerSpec PlannerProofs ExecModel ExecSpec ExecProofs ExecPasses ExecEnd OrderModel OrderSpec OrderProofs.
From Coq Require Import Sorting.Sorted.

Section End_.
Context {row : Type}.
Notation tree := (tree row).
Variable acts : op row -> list row -> list row -> Prop.
Variable needs : op row -> option (row -> row -> Prop).
Notation promises := (promises acts).
Notation serves := (serves acts needs).

Lemma distributed_serves cfg most (t d : tree) D :
  typed (partial_reduce cfg) t (@Permutation row) D -> ordinary t -> fed t -> is_round_robin t = false ->
  0 < target_partitions cfg -> dynamic_task_count cfg = false ->
  max_tasks cfg = Ok most -> sane_handlers cfg -> leaf_handlers cfg -> fits most t ->
  serves false t -> every_scan (order_kept cfg) t ->
  distribute cfg t = Ok (TDistributed d) ->
  serves false d /\ forall le, one_part t -> promises false t le -> promises false d le.
Proof.
  intros Ht Ho Hf Hr Htp Hdyn Hmost Hsane Hleaf Hfits Hs Hk H.
  destruct (distribute_inv cfg most t _ (ordinary_no_net t Ho) Hdyn Hfits H)
    as (p & q & a & d1 & id & Hp & Hq & Hd1 & Np & Fp & Hres).
  destruct Hres as [[_ Hres]|(_ & d' & Ha & Hres)]; [discriminate|]. injection Hres as <-.
  destruct (before_keeps cfg (partial_reduce cfg) Htp (order_kept cfg) t p D Ht Ho Hf Hr Hp) as ((D' & T) & _ & _ & Sk).
  specialize (Sk Hk).
  destruct (before_serves acts needs cfg t p Hs Hp) as [Sp Pp].
  destruct (inject_deployed cfg most Hmost Hsane Hleaf p q a d1 id Hdyn Np Fp Hq Hd1) as [_ HD].
  assert (Hn : no_fetch d1).
  { eapply dchild_no_fetch; [|exact HD]. intros. eapply deployed_no_fetch; eauto. eapply typed_no_fetch; eauto. }
  unfold after_prepare in Ha. fold (red (partial_reduce cfg) d1) in Ha.
  rewrite push_fetch_id in Ha.
  2: { unfold red. destruct (partial_reduce cfg); [now apply reduce_no_fetch|exact Hn]. }
  injection Ha as <-.
  assert (S1 : serves false d1).
  { eapply dchild_serves; [|exact HD]. eapply deployed_serves; eauto. }
  split; [unfold red; destruct (partial_reduce cfg); [now apply reduce_serves|exact S1]|].
  intros le Hone Hle.
  assert (P1 : promises false d1 le).
  { assert (Hle' : promises false p le).
    { apply Pp; [|exact Hle]. intros t1 E1.
      destruct (normalize_keeps cfg (partial_reduce cfg) Htp (order_kept cfg) t _ _ Ht t1 Ho Hf E1) as ((A1 & _ & A3 & _) & _).
      rewrite (one_part_tparts _ _ _ _ A1 (A3 Hone)). lia. }
    eapply dchild_promises; [exact Hle'| |exact HD]. apply deployed_promises; auto. }
  unfold red. destruct (partial_reduce cfg); [now apply reduce_promises|exact P1].
Qed.
End End_.

(** ** File scans *)

Inductive subseq {A} : list A -> list A -> Prop :=
| ss_nil l : subseq [] l
| ss_take x s l : subseq s l -> subseq (x :: s) (x :: l)
| ss_skip x s l : subseq s l -> subseq s (x :: l).

Section Files.
Context {A : Type}.

Lemma subseq_in (s l : list A) x : subseq s l -> In x s -> In x l.
Proof. induction 1; intros H0; [destruct H0|destruct H0 as [->|H0]; [now left|right; auto]|right; auto]. Qed.
Lemma subseq_sorted le (s l : list A) : subseq s l -> StronglySorted le l -> StronglySorted le s.
Proof.
  induction 1 as [l|x s l Hs IH|x s l Hs IH]; intros H; [constructor| |].
  - apply StronglySorted_inv in H as [H Hx]. constructor; [auto|]. rewrite Forall_forall in *. intros y Hy.
    apply Hx. eapply subseq_in; eauto.
  - apply StronglySorted_inv in H as [H _]. auto.
Qed.
Lemma subseq_refl (l : list A) : subseq l l.
Proof. induction l; constructor; auto. Qed.
Lemma subseq_app_l (a s l : list A) : subseq s l -> subseq (a ++ s) (a ++ l).
Proof. intros H. induction a; cbn; [exact H|now constructor]. Qed.
Lemma subseq_skip_l (a s l : list A) : subseq s l -> subseq s (a ++ l).
Proof. intros H. induction a; cbn; [exact H|now constructor]. Qed.

Lemma bin_push_get (bins : list (list A)) i x j : nth j (bin_push bins i x) [] = nth j bins [] \/
  nth j (bin_push bins i x) [] = nth j bins [] ++ [x].
Proof.
  revert i j. induction bins as [|b bins IH]; intros i j; [left; now destruct i|]. destruct i, j; cbn; auto.
Qed.
Lemma deal_subseq n (items : list A) : forall bins idx out, deal n bins idx items = Ok out ->
  forall j, exists s, nth j out [] = nth j bins [] ++ s /\ subseq s items.
Proof.
  induction items as [|x items IH]; intros bins idx out H j; cbn in H.
  - injection H as <-. exists []. split; [now rewrite app_nil_r|constructor].
  - destruct n as [|n]; [discriminate|]. destruct (IH _ _ _ H j) as (s & E & Hs). rewrite E.
    destruct (bin_push_get bins (idx mod S n) x j) as [-> | ->].
    + exists s. split; [reflexivity|now constructor].
    + exists (x :: s). split; [now rewrite <- app_assoc|now constructor].
Qed.
Lemma deal_from n (items : list A) out : deal n (repeat [] n) 0 items = Ok out ->
  forall b, In b out -> subseq b items.
Proof.
  intros H b Hb. apply (In_nth _ _ []) in Hb as (j & _ & <-). destruct (deal_subseq n items _ _ _ H j) as (s & -> & Hs).
  replace (nth j (repeat [] n) []) with (@nil A); [exact Hs|]. clear. revert j. induction n; intros [|j]; cbn; auto.
Qed.
End Files.

Lemma subseq_concat {A} (s l : list (list A)) : subseq s l -> subseq (List.concat s) (List.concat l).
Proof. induction 1; cbn; [constructor|now apply subseq_app_l|now apply subseq_skip_l]. Qed.

Lemma nth_scan {row : Type} schema (groups : list (list (list row))) p rows : lf_exec (scan schema groups) p = Ok rows ->
  exists g, In g groups /\ rows = List.concat g.
Proof.
  cbn. destruct (nth_error groups p) as [g|] eqn:E; [|discriminate]. intros [= <-]. exists g. split; [|reflexivity].
  eapply nth_error_In; eauto.
Qed.

Lemma check_variants_from {row : Type} (vs : list (leaf row)) o (d : dle row) : dle_try_new o vs = Ok d ->
  dle_original d = o /\ dle_variants d = vs.
Proof.
  unfold dle_try_new. destruct (check_variants None vs) as [[v|]| |]; cbn; try discriminate. now intros [= <-].
Qed.

(** Every group that a task of a split scan reads is one of the rebalanced groups. *)
Lemma split_groups {row : Type} partitioner schema (groups : list (list (list row))) P preset T d :
  file_scan_scale_up partitioner schema groups P preset T = Ok d ->
  exists rebalanced, 
    (if preset then rebalance_round_robin (List.concat groups) (P * T) = Ok rebalanced
     else rebalanced = match partitioner (P * T) groups with Some gs => gs | None => groups end) /\
    dle_original d = scan schema groups /\
    forall v p rows, In v (dle_variants d) -> lf_exec v p = Ok rows -> exists g, In g rebalanced /\ rows = List.concat g.
Proof.
  intros H. unfold file_scan_scale_up in H. destruct (if preset then _ else _) as [rb| |] eqn:Erb; cbn [bind] in H; try discriminate.
  destruct (deal T (repeat [] T) 0 rb) as [pt| |] eqn:Ed; cbn [bind] in H; try discriminate.
  apply check_variants_from in H as [Ho Hv]. exists rb. split; [|split; [exact Ho|]].
  - destruct preset; [exact Erb|]. now injection Erb as <-.
  - intros v p rows Hin E. rewrite Hv in Hin. apply in_map_iff in Hin as (gs & <- & Hin).
    apply nth_scan in E as (g & Hg & ->). exists g. split; [|reflexivity].
    eapply subseq_in; [|exact Hg]. eapply deal_from; eauto.
Qed.

Lemma split_sorted {row : Type} (d : dle row) le :
  (forall p rows, lf_exec (dle_original d) p = Ok rows -> StronglySorted le rows) ->
  (forall v p rows, In v (dle_variants d) -> lf_exec v p = Ok rows -> StronglySorted le rows) ->
  leaf_sorted (LTasks d) le.
Proof.
  intros Ho Hv remote ctx p rows H. unfold leaf_runs in H. destruct remote.
  - destruct H as (v & Ev & E). unfold dle_to_task_specialized in Ev. destruct (nth_error _ _) eqn:En; [|discriminate].
    injection Ev as ->. eapply Hv; [eapply nth_error_In; eauto|exact E].
  - unfold dle_execute in H. destruct (task_count ctx =? 1); [eauto|]. destruct (nth_error _ _) eqn:En; [|discriminate].
    eapply Hv; [eapply nth_error_In; eauto|exact H].
Qed.
