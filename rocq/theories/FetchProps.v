(** Properties C19 and C20: limits below the network. *)
From Verif Require Import Base NetModel NetSpec CiuModel EventsModel EventsSpec JoinModel JoinSpec PlannerModel PlannerSpec
  PlannerProofs ExecModel ExecSpec ExecProofs ExecPasses ExecEnd ExecProps FetchSpec FetchProofs FetchEnd FetchSort FetchMore.
From Coq Require Import Sorting.Sorted NArith.

Section Props.
Context {row : Type}.
Notation tree := (tree row).
Notation table := (nat -> nat -> list row).

(** ** C19: the pass on its own *)

(** Every execution of the plan with the limits pushed into the stages is an execution of the plan
    without: nothing is returned that could not have been returned before. *)
Theorem C19_push_keeps_results (t d : tree) remote tasks f :
  limitable t -> push_fetch t = Ok d -> runs remote d tasks f -> tparts d = tparts t /\ runs remote t tasks f.
Proof. intros Hl H R. split; [exact (push_tparts _ _ _ H)|exact (push_refines _ _ _ _ _ _ Hl H R)]. Qed.

(** The limit does reach the stage below: each of its partitions has at most that many rows, and so it
    does for an operator that had a larger limit or none. The offset counts. *)
Theorem C19_stages_are_limited k (part : partitioning row) q num tasks (x d : tree) n :
  limitable (Node k [Net BCoalesce part q num tasks x]) ->
  (exists spm, k = KCoalesce spm (Some n)) \/
  (exists skip fetch, k = KOp (OGlobalLimit skip (Some fetch)) /\ n = fetch + skip /\ (N.of_nat n <= usize_max)%N) ->
  push_fetch (Node k [Net BCoalesce part q num tasks x]) = Ok d ->
  exists i, d = Node k [Net BCoalesce part q num tasks i] /\ tparts i = tparts x /\
    forall N f, runs true i N f -> forall a p, a < N -> p < tparts i -> List.length (f a p) <= n.
Proof.
  intros Hl Hk H. assert (Hn : fetch_required (Node k [Net BCoalesce part q num tasks x]) = Some n).
  { destruct Hk as [(spm & ->)|(skip & fetch & -> & -> & Hu)]; cbn [fetch_required fetch_of]; [reflexivity|].
    rewrite <- Nat2N.inj_add. destruct (N.leb_spec (N.of_nat (fetch + skip)) usize_max); [reflexivity|lia]. }
  destruct (push_under _ k part q num tasks x d n Hn Hl H) as (i & -> & Ht & Hr).
  exists i. split; [reflexivity|]. split; [exact Ht|]. now rewrite Ht.
Qed.

(** A limit whose sum with the offset overflows is not pushed. *)
Theorem C19_overflow_not_pushed skip fetch (part : partitioning row) q num tasks (x d : tree) :
  (usize_max < N.of_nat (fetch + skip))%N -> no_fetch x ->
  push_fetch (Node (KOp (OGlobalLimit skip (Some fetch))) [Net BCoalesce part q num tasks x]) = Ok d ->
  d = Node (KOp (OGlobalLimit skip (Some fetch))) [Net BCoalesce part q num tasks x].
Proof.
  intros Hu Hx H. refine (push_no_fetch _ _ _ _ H). apply no_fetch_node. split.
  - cbn [fetch_required]. rewrite <- Nat2N.inj_add. destruct (N.leb_spec (N.of_nat (fetch + skip)) usize_max); [lia|reflexivity].
  - intros c [<-|[]]. now split.
Qed.

(** An operator with a smaller limit keeps it. *)
Theorem C19_smaller_limit_kept n m (x : tree) : fetch_of x = Some m -> m <= n -> bounded x n = x.
Proof. intros E H. unfold bounded. rewrite E. destruct (Nat.leb_spec m n); [reflexivity|lia]. Qed.

(** ** C19: from the query to the rows *)

Section Planned.
Variable cfg : settings row.
Variable most : nat.
Hypothesis Hmost : max_tasks cfg = Ok most.
Hypothesis Hstatic : dynamic_task_count cfg = false.
Hypothesis Htarget : 0 < target_partitions cfg.
Hypothesis Hsane : sane_handlers cfg.
Hypothesis Hleaf : leaf_handlers cfg.

(** LIMIT [n] of a plan [t0] that qualifies for C48: the rows of the distributed plan are the first [n]
    of the rows of [t0] on a single node, in some order. *)
Theorem C19_limit spm n (t0 : tree) D r :
  typed (partial_reduce cfg) t0 (@Permutation row) D -> is_round_robin t0 = false ->
  ordinary t0 -> fed t0 -> spreadable t0 ->
  every_scan (faithful_scan cfg most) t0 -> fits most (Node (KCoalesce spm (Some n)) [t0]) ->
  create_distributed_plan cfg (TPlan (Node (KCoalesce spm (Some n)) [t0])) = Ok r ->
  match r with
  | TDistributed d => forall f g, runs false d 1 f -> runs false t0 1 g ->
      window 0 (Some n) (all_rows t0 1 g) (all_rows d 1 f)
  | r => r = TPlan (Node (KCoalesce spm (Some n)) [t0])
  end.
Proof using Hmost Hstatic Htarget Hsane Hleaf.
  intros Ht Hr Ho Hf Hsp Hs Hfits H. pose proof H as H'.
  assert (Hop : ordinary (Node (KCoalesce spm (Some n)) [t0])) by now repeat constructor.
  destruct (distribute_inv cfg most _ _ (ordinary_no_net _ Hop) Hstatic Hfits H)
    as (p & q & a & d0 & id & _ & _ & _ & _ & _ & [[_ ->]|(_ & d & _ & ->)]); [reflexivity|]. intros f g Rd Rt.
  destruct (limit_refined cfg most Hmost Hstatic Htarget Hsane Hleaf [] spm (Some n) t0 d Anyhow f) as (E & x & Rx & Hx);
    auto; [now left|eapply ty_coalesce; eauto|].
  destruct (runs_gathered spm (Some n) x f _ Hx Rx) as (l & Hl & El).
  exists l. rewrite (all_rows_one d f E), El. split; [|reflexivity].
  rewrite Hl. symmetry. eapply single_rows; eauto.
Qed.

(** The same with OFFSET [skip] above the gathering operator, whose own limit, if any, leaves enough. *)
Theorem C19_offset skip fetch spm need (t0 : tree) D r : enough need skip fetch ->
  typed (partial_reduce cfg) t0 (@Permutation row) D -> is_round_robin t0 = false ->
  ordinary t0 -> fed t0 -> spreadable t0 -> every_scan (faithful_scan cfg most) t0 ->
  let t := Node (KOp (OGlobalLimit skip fetch)) [Node (KCoalesce spm need) [t0]] in
  fits most t -> create_distributed_plan cfg (TPlan t) = Ok r ->
  match r with
  | TDistributed d => forall f g, runs false d 1 f -> runs false t0 1 g ->
      exists out, Permutation (all_rows d 1 f) out /\ window skip fetch (all_rows t0 1 g) out
  | r => r = TPlan t
  end.
Proof using Hmost Hstatic Htarget Hsane Hleaf.
  intros He Ht Hr Ho Hf Hsp Hs t Hfits H. pose proof H as H'.
  assert (Hop : ordinary t) by now repeat constructor.
  destruct (distribute_inv cfg most _ _ (ordinary_no_net _ Hop) Hstatic Hfits H)
    as (p & q & a & d0 & id & _ & _ & _ & _ & _ & [[_ ->]|(_ & d & _ & ->)]); [reflexivity|]. intros f g Rd Rt.
  destruct (limit_refined cfg most Hmost Hstatic Htarget Hsane Hleaf [KOp (OGlobalLimit skip fetch)] spm need t0 d Anyhow f)
    as (E & x & Rx & Hx); auto; [right; eauto|eapply ty_coalesce; eauto|].
  cbn [nest] in Rx. apply runs_op in Rx as (h & Rh & Rx). destruct (runs_gathered spm need x h _ Hx Rh) as (l & Hl & El).
  destruct (Rx 0 0) as (l' & Hl' & E'); [lia|cbn; lia|]. rewrite (all_rows_one d f E). rewrite El in Hl'.
  exists (op_fun (OGlobalLimit skip fetch) l'). split; [exact E'|].
  destruct (limit_reorder need l l' Hl') as (l'' & Hl'' & <-). exists l''. cbn [op_fun]. rewrite limit_window by exact He.
  split; [|reflexivity]. rewrite Hl'', Hl. symmetry. eapply single_rows; eauto.
Qed.

(** ORDER BY and LIMIT: partitions are sorted, each keeping as many rows as are needed, and merged. *)
Variable le : row -> row -> Prop.
Hypothesis total : forall a b, le a b \/ le b a.
Hypothesis trans : forall a b c, le a b -> le b c -> le a c.

Theorem C19_order_by_limit s need fetch (t0 : tree) D r :
  (forall l, Permutation (s l) l /\ StronglySorted le (s l)) -> keeps fetch need ->
  typed (partial_reduce cfg) t0 (@Permutation row) D ->
  ordinary t0 -> fed t0 -> spreadable t0 -> every_scan (faithful_scan cfg most) t0 ->
  let t := Node (KCoalesce (Some le) need) [Node (KOp (OSort s fetch)) [t0]] in
  fits most t -> create_distributed_plan cfg (TPlan t) = Ok r ->
  match r with
  | TDistributed d => forall f g, ordered false d 1 f -> runs false t0 1 g ->
      sorted_window le 0 need (all_rows t0 1 g) (f 0 0)
  | r => r = TPlan t
  end.
Proof using Hmost Hstatic Htarget Hsane Hleaf total trans.
  intros Hsort Hk Ht Ho Hf Hsp Hs t Hfits H. pose proof H as H'.
  assert (Hop : ordinary t) by now repeat constructor.
  destruct (distribute_inv cfg most _ _ (ordinary_no_net _ Hop) Hstatic Hfits H)
    as (p & q & a & d0 & id & _ & _ & _ & _ & _ & [[_ ->]|(_ & d & _ & ->)]); [reflexivity|]. intros f g Rd Rt.
  destruct (sort_limit_rows le cfg most Hmost Hstatic Htarget Hsane Hleaf total trans [] s need fetch t0 d D f) as (l & Hl & Hsl & El);
    auto; [now left|].
  exists l. split; [|split; [exact Hsl|rewrite El; now destruct need]].
  rewrite Hl. symmetry. eapply single_rows; eauto.
Qed.

Theorem C19_order_by_offset skip lim s need fetch (t0 : tree) D r : enough need skip lim ->
  (forall l, Permutation (s l) l /\ StronglySorted le (s l)) -> keeps fetch need ->
  typed (partial_reduce cfg) t0 (@Permutation row) D ->
  ordinary t0 -> fed t0 -> spreadable t0 -> every_scan (faithful_scan cfg most) t0 ->
  let t := Node (KOp (OGlobalLimit skip lim)) [Node (KCoalesce (Some le) need) [Node (KOp (OSort s fetch)) [t0]]] in
  fits most t -> create_distributed_plan cfg (TPlan t) = Ok r ->
  match r with
  | TDistributed d => forall f g, ordered false d 1 f -> runs false t0 1 g ->
      sorted_window le skip lim (all_rows t0 1 g) (f 0 0)
  | r => r = TPlan t
  end.
Proof using Hmost Hstatic Htarget Hsane Hleaf total trans.
  intros He Hsort Hk Ht Ho Hf Hsp Hs t Hfits H. pose proof H as H'.
  assert (Hop : ordinary t) by now repeat constructor.
  destruct (distribute_inv cfg most _ _ (ordinary_no_net _ Hop) Hstatic Hfits H)
    as (p & q & a & d0 & id & _ & _ & _ & _ & _ & [[_ ->]|(_ & d & _ & ->)]); [reflexivity|]. intros f g Rd Rt.
  destruct (sort_limit_rows le cfg most Hmost Hstatic Htarget Hsane Hleaf total trans
    [KOp (OGlobalLimit skip lim)] s need fetch t0 d D f) as (l & Hl & Hsl & El); auto; [right; eauto|].
  exists l. split; [|split; [exact Hsl|rewrite El, limit_window by exact He; now destruct lim]].
  rewrite Hl. symmetry. eapply single_rows; eauto.
Qed.
End Planned.

(** ** C20: the limit of a broadcast build side *)

(** Every consumer task joins against the first rows of the build side in some order, so all of them
    against the same number of rows, and against all rows where the limit does not cut any off. Missing:
    that it is the same order in every consumer task; see [C20_limited_build_refuted]. *)
Theorem C20_limited_build_partial spm fetch part q num tasks consumers (c : tree) remote f :
  0 < tparts c -> partition_count part = tparts c ->
  runs remote (Node (KCoalesce spm fetch) [Net BBroadcast part q num tasks (Node (KBcast consumers) [c])]) consumers f ->
  exists g, runs true c tasks g /\
    forall i, i < consumers -> window 0 fetch (all_rows c tasks g) (f i 0).
Proof.
  intros HP Hp H. apply runs_coalesce in H as (h & Rh & _ & H). destruct Rh as (g & Rg & Ho). exists g. split; [exact Rg|].
  intros i Hi. destruct (H i Hi) as (l & Hl & E). exists l. split; [|rewrite E; now destruct fetch].
  rewrite Hl. cbn [tparts]. rewrite Hp in *. unfold all_rows.
  exact (boundary_broadcast part tasks (tparts c) consumers consumers g h HP Hp Ho i Hi).
Qed.
End Props.
Print Assumptions C19_push_keeps_results.
Print Assumptions C19_stages_are_limited.
Print Assumptions C19_overflow_not_pushed.
Print Assumptions C19_smaller_limit_kept.
Print Assumptions C19_limit.
Print Assumptions C19_offset.
Print Assumptions C19_order_by_limit.
Print Assumptions C19_order_by_offset.
Print Assumptions C20_limited_build_partial.

(** ** Concrete cases *)

Module FetchEx.
Import Ex.
Definition key (r : row) : nat := if fst r =? 1 then 0 else 1.
Definition le (a b : row) : Prop := key a <= key b.
Fixpoint insert (r : row) (l : list row) : list row :=
  match l with [] => [r] | x :: l' => if key r <=? key x then r :: l else x :: insert r l' end.
Definition sort (l : list row) : list row := fold_right insert [] l.

Lemma insert_perm r l : Permutation (insert r l) (r :: l).
Proof. induction l as [|y l IH]; [reflexivity|]. cbn. destruct (key r <=? key y); [reflexivity|]. rewrite IH. constructor. Qed.
Lemma insert_sorted r l : StronglySorted le l -> StronglySorted le (insert r l).
Proof.
  induction 1 as [|y l Hl IH Hy]; [repeat constructor|]. cbn. destruct (Nat.leb_spec (key r) (key y)) as [E|E].
  - constructor; [now constructor|]. constructor; [exact E|]. eapply Forall_impl; [|exact Hy]. unfold le. intros. lia.
  - constructor; [exact IH|]. rewrite insert_perm. constructor; [unfold le; lia|exact Hy].
Qed.
Lemma sort_sorts l : Permutation (sort l) l /\ StronglySorted le (sort l).
Proof.
  induction l as [|r l [IH1 IH2]]; [repeat constructor|]. cbn [sort fold_right]. split; [|now apply insert_sorted].
  etransitivity; [apply insert_perm|now constructor].
Qed.
Lemma total a b : le a b \/ le b a.
Proof. unfold le. lia. Qed.
Lemma trans a b c : le a b -> le b c -> le a c.
Proof. unfold le. lia. Qed.

Definition plan_of (t : tree row) : tree row :=
  match create_distributed_plan (cfg false) (TPlan t) with Ok (TDistributed d) => d | _ => Node KUnion [] end.
Definition limited : tree row := Node (KCoalesce None (Some 2)) [file_scan 5].
Definition page : tree row := Node (KOp (OGlobalLimit 1 (Some 2))) [Node (KCoalesce None (Some 3)) [file_scan 5]].
Definition top_rows : tree row :=
  Node (KOp (OGlobalLimit 1 (Some 1))) [Node (KCoalesce (Some le) (Some 2)) [Node (KOp (OSort sort (Some 2))) [file_scan 5]]].

(** The hypotheses of the four theorems hold and all plans are distributed over three tasks, with the
    limit below the network. *)
Example limits_admissible :
  typed false (file_scan 5) (@Permutation row) Anyhow /\ is_round_robin (file_scan 5) = false /\
  ordinary (file_scan 5) /\ fed (file_scan 5) /\ spreadable (file_scan 5) /\
  every_scan (faithful_scan (cfg false) 3) (file_scan 5) /\
  fits 3 limited /\ fits 3 page /\ fits 3 top_rows /\
  enough (Some 3) 1 (Some 2) /\ enough (Some 2) 1 (Some 1) /\ keeps (Some 2) (Some 2) /\
  create_distributed_plan (cfg false) (TPlan limited) = Ok (TDistributed (plan_of limited)) /\
  create_distributed_plan (cfg false) (TPlan page) = Ok (TDistributed (plan_of page)) /\
  create_distributed_plan (cfg false) (TPlan top_rows) = Ok (TDistributed (plan_of top_rows)) /\
  stage_tasks (plan_of limited) = [3] /\ stage_tasks (plan_of page) = [3] /\ stage_tasks (plan_of top_rows) = [3].
Proof.
  split; [constructor|]. split; [reflexivity|]. split; [cbn; repeat constructor|].
  split; [cbn; repeat split; repeat constructor; discriminate|].
  split; [cbn; repeat split; repeat constructor; cbn; lia|].
  split; [cbn; repeat constructor; apply scans|].
  do 3 (split; [vm_compute; repeat constructor|]).
  split; [cbn; lia|]. split; [cbn; lia|]. split; [exists 2; auto|].
  repeat split; vm_compute; reflexivity.
Qed.

(** The files of a scan in the partitions of three or two tasks. *)
Definition task_scan (k n : nat) : dle row :=
  match file_scan_scale_up (fun _ _ => None) k (files k) 2 true n with Ok d => d | _ => mkDle (scan k []) 0 [] end.
Definition task_leaf (k n : nat) : tree row := Node (KLeaf (LTasks (task_scan k n))) [].
Definition table_of (rows : list (list (list row))) (i p : nat) : list row := nth p (nth i rows []) [].

Lemma merged (ss : list (list row)) out : List.concat ss = out -> merge_of ss out.
Proof. intros <-. apply merge_concat. Qed.

Definition three (k : nat) := table_of [[[(0, k); (1, k)]; []]; [[(2, k)]; []]; [[(0, k + 1)]; []]].
Lemma three_runs k : k = 5 \/ k = 7 -> runs true (task_leaf k 3) 3 (three k).
Proof.
  intros Hk. exists []. split; [constructor|]. intros i p Hi Hp.
  assert (Hp' : p < 2) by (destruct Hk as [-> | ->]; exact Hp). clear Hp.
  destruct Hk as [-> | ->]; destruct i as [|[|[|]]]; try lia; destruct p as [|[|]]; try lia;
    (eexists; split; vm_compute; reflexivity).
Qed.

(** ** C19 and sorts above boundaries placed by hand *)

(** SortExec(fetch=1) directly above a NetworkCoalesceExec that the caller put into the plan. *)
Definition sort_above : tree row :=
  Node (KCoalesce (Some le) (Some 1)) [Node (KOp (OSort sort (Some 1))) [Net BCoalesce (UnknownP 4) 0 0 2 (file_scan 5)]].
Definition two := table_of [[[(0, 5); (1, 5)]; [(0, 6)]]; [[(2, 5)]; []]].
Lemma two_runs : runs true (task_leaf 5 2) 2 two.
Proof.
  exists []. split; [constructor|]. intros i p Hi Hp. change (p < 2) in Hp.
  destruct i as [|[|]]; try lia; destruct p as [|[|]]; try lia; (eexists; split; vm_compute; reflexivity).
Qed.
End FetchEx.

(** The limit of the sort is pushed below it, where rows are not sorted yet: the plan may return a row that
    is not the first one in the order. *)
Theorem C19_sort_above_boundary_refuted : exists (cfg : settings Ex.row) le s (t d t0 : tree Ex.row) part q num tasks f g,
  (forall a b, le a b \/ le b a) /\ (forall a b c, le a b -> le b c -> le a c) /\
  (forall l, Permutation (s l) l /\ StronglySorted le (s l)) /\
  t = Node (KCoalesce (Some le) (Some 1)) [Node (KOp (OSort s (Some 1))) [Net BCoalesce part q num tasks t0]] /\
  create_distributed_plan cfg (TPlan t) = Ok (TDistributed d) /\
  ordered false d 1 f /\ runs false t0 1 g /\
  ~ sorted_window le 0 (Some 1) (all_rows t0 1 g) (f 0 0).
Proof.
  exists (Ex.cfg false), FetchEx.le, FetchEx.sort, FetchEx.sort_above, (FetchEx.plan_of FetchEx.sort_above), (Ex.file_scan 5).
  exists (UnknownP 4), 0, 0, 2, (fun _ _ => [(0, 5)]), (fun _ => fun p => List.concat (nth p (Ex.files 5) [])).
  split; [apply FetchEx.total|]. split; [apply FetchEx.trans|]. split; [apply FetchEx.sort_sorts|].
  split; [reflexivity|]. split; [vm_compute; reflexivity|].
  assert (E : FetchEx.plan_of FetchEx.sort_above =
    Node (KCoalesce (Some FetchEx.le) (Some 1)) [Node (KOp (OSort FetchEx.sort (Some 1))) [Net BCoalesce (UnknownP 4) 77 1 2
      (Node (KOp (OLocalLimit 1)) [FetchEx.task_leaf 5 2])]]) by (vm_compute; reflexivity).
  split; [rewrite E; clear E|split].
  - set (F := FetchEx.table_of [[[(0, 5)]; [(0, 6)]; [(2, 5)]; []]]).
    exists F. split.
    + exists F. split.
      * exists (fun i p => firstn 1 (FetchEx.two i p)). split.
        -- exists FetchEx.two. split; [exact FetchEx.two_runs|]. reflexivity.
        -- intros i p Hi Hp. assert (i = 0) by lia. subst i. change (p < 4) in Hp.
           destruct p as [|[|[|[|]]]]; try lia; (eexists; split; [vm_compute; reflexivity|]); apply FetchEx.merged; reflexivity.
      * intros i p Hi Hp. assert (i = 0) by lia. subst i. change (p < 4) in Hp.
        destruct p as [|[|[|[|]]]]; try lia; reflexivity.
    + split; [cbn; lia|]. intros i Hi. assert (i = 0) by lia. subst i. exists [(0, 5); (0, 6); (2, 5)]. split; [|reflexivity].
      split; [apply FetchEx.merged; reflexivity|]. repeat constructor.
  - exists []. split; [constructor|]. intros i p Hi Hp. change (p < 2) in Hp. destruct p as [|[|]]; try lia; reflexivity.
  - intros (l & Hl & Hs & H). cbn [skipn] in H. destruct l as [|x l]; [discriminate|]. injection H as <-.
    assert (Hin : In (1, 5) ((0, 5) :: l)) by (rewrite Hl; vm_compute; auto).
    destruct Hin as [Hin|Hin]; [discriminate|]. inversion Hs as [|? ? _ Hf]; subst.
    rewrite Forall_forall in Hf. specialize (Hf _ Hin). vm_compute in Hf. lia.
Qed.
Print Assumptions C19_sort_above_boundary_refuted.

(** A join whose build side has a limit is distributed with the limit in every consumer task: they may join
    against different rows, and the result is none that the query can have on a single node. *)
Theorem C20_limited_build_refuted : exists (cfg : settings Ex.row) (t d : tree Ex.row) f,
  create_distributed_plan cfg (TPlan t) = Ok (TDistributed d) /\ runs false d 1 f /\
  forall g, runs false t 1 g -> ~ Permutation (all_rows d 1 f) (all_rows t 1 g).
Proof.
  set (J := KJoin (HashJoin true false Inner) Ex.cond fst fst (fun l _ => l)).
  set (t := Node J [Node (KCoalesce None (Some 1)) [Ex.file_scan 5]; Ex.file_scan 7]).
  exists (Ex.cfg false), t, (FetchEx.plan_of t), (fun _ _ => [(0, 12); (2, 12); (0, 14)]).
  split; [vm_compute; reflexivity|].
  assert (E : FetchEx.plan_of t =
    Node (KCoalesce None None) [Net BCoalesce (UnknownP 6) 77 2 3 (Node J
      [Node (KCoalesce None (Some 1)) [Net BBroadcast (UnknownP 2) 77 1 3 (Node (KBcast 3) [FetchEx.task_leaf 5 3])];
       FetchEx.task_leaf 7 3])]) by (vm_compute; reflexivity).
  rewrite E. clear E. split.
  - exists [FetchEx.table_of [[[(0, 12)]; []; [(2, 12)]; []; [(0, 14)]; []]]]. split; [constructor; [|constructor]|].
    + set (O := FetchEx.table_of [[[(0, 12)]; []]; [[(2, 12)]; []]; [[(0, 14)]; []]]).
      exists O. split.
      * exists [FetchEx.table_of [[[(0, 5)]]; [[(2, 5)]]; [[(0, 6)]]]; FetchEx.three 7]. split.
        -- constructor; [|constructor; [apply FetchEx.three_runs; auto|constructor]].
           exists [fun _ p => match p with 0 => [(0, 5); (1, 5); (2, 5); (0, 6)] | _ => [] end]. split; [constructor; [|constructor]|].
           ++ exists (FetchEx.three 5). split; [apply FetchEx.three_runs; auto|]. intros i p Hi Hp. change (p < 2) in Hp.
              destruct i as [|[|[|]]]; try lia; destruct p as [|[|]]; try lia;
              (eexists; split; [vm_compute; reflexivity|apply FetchEx.merged; reflexivity]).
           ++ split; [cbn; lia|]. intros i Hi. destruct i as [|[|[|]]]; [| | |lia].
              ** exists [(0, 5); (1, 5); (2, 5); (0, 6)]. split; reflexivity.
              ** exists [(2, 5); (0, 5); (1, 5); (0, 6)]. split; [|reflexivity]. cbn.
                 change [(2, 5); (0, 5); (1, 5); (0, 6)] with ([(2, 5)] ++ [(0, 5); (1, 5)] ++ [(0, 6)]).
                 change [(0, 5); (1, 5); (2, 5); (0, 6)] with ([(0, 5); (1, 5)] ++ [(2, 5)] ++ [(0, 6)]).
                 apply Permutation_app_swap_app.
              ** exists [(0, 6); (0, 5); (1, 5); (2, 5)]. split; [|reflexivity]. cbn.
                 change [(0, 5); (1, 5); (2, 5); (0, 6)] with ([(0, 5); (1, 5); (2, 5)] ++ [(0, 6)]).
                 apply (Permutation_app_comm [(0, 6)]).
        -- intros i Hi. split; [reflexivity|]. intros p Hp. change (p < 2) in Hp. 
           destruct i as [|[|[|]]]; try lia; destruct p as [|[|]]; try lia; vm_compute; reflexivity.
      * intros i p Hi Hp. assert (i = 0) by lia. subst i. change (p < 6) in Hp. 
        destruct p as [|[|[|[|[|[|]]]]]]; try lia; (eexists; split; [vm_compute; reflexivity|apply FetchEx.merged; reflexivity]).
    + split; [cbn; lia|]. intros i Hi. assert (i = 0) by lia. subst i. eexists. split; [|reflexivity]. vm_compute. reflexivity.
  - intros g (fs & HF & H) HP. inversion HF as [|? L ? ? HL HF']; subst. inversion HF' as [|? R ? ? HR HF'']; subst.
    inversion HF''; subst. destruct HL as (fl & _ & HL). destruct fl as [|gl [|]]; try contradiction.
    destruct (proj2 HL 0) as (l & _ & El); [lia|]. destruct HR as (fr & Hfr & HR). inversion Hfr; subst.
    pose proof (HR 0 0 ltac:(lia) ltac:(cbn; lia)) as R0. pose proof (HR 0 1 ltac:(lia) ltac:(cbn; lia)) as R1.
    vm_compute in R0, R1. injection R0 as R0. injection R1 as R1.
    destruct (H 0) as [_ J']; [lia|]. pose proof (J' 0 ltac:(cbn; lia)) as J0. pose proof (J' 1 ltac:(cbn; lia)) as J1.
    apply Permutation_length in HP. assert (Hlen : List.length (all_rows t 1 g) = List.length (g 0 0) + List.length (g 0 1)).
    { cbn. now rewrite !app_nil_r, app_length. }
    rewrite Hlen, (Permutation_length J0), (Permutation_length J1), El, <- R0, <- R1 in HP.
    destruct l as [|[k v] l]; [discriminate|]. destruct k as [|[|[|k]]]; discriminate.
Qed.
Print Assumptions C20_limited_build_refuted.
