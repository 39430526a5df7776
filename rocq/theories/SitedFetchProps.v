(** C100 for queries with a limit: a plan whose boundaries were placed by the user, below LIMIT and OFFSET,
    with and without ORDER BY. Pushing the limit below the boundaries (C19) does not change which windows of
    the rows may be returned. *)
From Verif Require Import Base NetModel NetSpec CiuModel EventsModel JoinModel JoinSpec PlannerModel PlannerSpec
  ExecModel ExecSpec ExecEnd FetchSpec FetchProofs FetchEnd FetchSort FetchMore SitedModel SitedSpec SitedProofs SitedFetchProofs SitedProps.
From Coq Require Import Sorting.Sorted.

Section Props.
Context {row : Type}.
Notation tree := (tree row).
Variable cfg : settings row.

(** LIMIT [n] above a plan that qualifies for C100 and in which no sort reads from a gathering boundary
    directly ([limitable]; C19_sort_above_boundary_refuted tells why). *)
Theorem C100_limit spm n (t0 : tree) D r :
  sited cfg 1 t0 (@Permutation row) D -> has_net t0 = true -> limitable t0 ->
  create_distributed_plan cfg (TPlan (Node (KCoalesce spm (Some n)) [t0])) = Ok r ->
  exists d, body r = Some d /\ forall f g, runs false d 1 f -> runs false (without_boundaries t0) 1 g ->
    exists rows, client_reads r f = Ok rows /\ window 0 (Some n) (all_rows (without_boundaries t0) 1 g) rows.
Proof.
  intros Hs Hn Hl H. destruct (planned_body cfg (Node (KCoalesce spm (Some n)) [t0]) r) as (d & Hb); [cbn; now rewrite Hn|exact H|].
  exists d. split; [exact Hb|]. intros f g Rf Rg.
  destruct (limited_rows cfg [] spm (Some n) t0 D r d f (or_introl eq_refl) Hs Hl Hn H Hb Rf) as (E & x & Rx & Hx).
  exists (f 0 0). split; [exact (reads_one r d f Hb E)|].
  destruct (runs_gathered spm (Some n) x f _ Hx Rx) as (l & Hp & El). exists l. split; [|exact El].
  rewrite Hp. symmetry. exact (plain_rows cfg 1 t0 D g Hs Rg).
Qed.

(** The same with OFFSET [skip]. *)
Theorem C100_offset skip fetch spm need (t0 : tree) D r : enough need skip fetch ->
  sited cfg 1 t0 (@Permutation row) D -> has_net t0 = true -> limitable t0 ->
  create_distributed_plan cfg
    (TPlan (Node (KOp (OGlobalLimit skip fetch)) [Node (KCoalesce spm need) [t0]])) = Ok r ->
  exists d, body r = Some d /\ forall f g, runs false d 1 f -> runs false (without_boundaries t0) 1 g ->
    exists rows out, client_reads r f = Ok rows /\ Permutation rows out /\
      window skip fetch (all_rows (without_boundaries t0) 1 g) out.
Proof.
  intros He Hs Hn Hl H.
  destruct (planned_body cfg (Node (KOp (OGlobalLimit skip fetch)) [Node (KCoalesce spm need) [t0]]) r) as (d & Hb);
    [cbn; now rewrite Hn|exact H|].
  exists d. split; [exact Hb|]. intros f g Rf Rg.
  destruct (limited_rows cfg [KOp (OGlobalLimit skip fetch)] spm need t0 D r d f (or_intror (ex_intro _ skip (ex_intro _ fetch eq_refl)))
    Hs Hl Hn H Hb Rf) as (E & x & Rx & Hx).
  exists (f 0 0). cbn [nest] in Rx. apply runs_op in Rx as (h & Rh & Rx). destruct (runs_gathered spm need x h _ Hx Rh) as (l & Hp & El).
  destruct (Rx 0 0) as (l' & Hl' & E'); [lia|cbn; lia|]. rewrite El in Hl'.
  exists (op_fun (OGlobalLimit skip fetch) l'). split; [exact (reads_one r d f Hb E)|]. split; [exact E'|].
  destruct (limit_reorder need l l' Hl') as (l'' & Hl'' & <-). exists l''. cbn [op_fun]. rewrite limit_window by exact He.
  split; [|reflexivity]. rewrite Hl'', Hp. symmetry. exact (plain_rows cfg 1 t0 D g Hs Rg).
Qed.

Variable le : row -> row -> Prop.
Hypothesis total : forall a b, le a b \/ le b a.
Hypothesis trans : forall a b c, le a b -> le b c -> le a c.

Lemma gathers_one_task s fetch (t0 nc : tree) tasks : 1 <= tasks ->
  network_coalesce (Node (KOp (OSort s fetch)) [t0]) tasks 1 = Ok nc ->
  exists part, nc = Net BCoalesce part 0 0 tasks (Node (KOp (OSort s fetch)) [t0]) /\ partition_count part = tparts t0 * tasks.
Proof using.
  intros Ht H.
  change (Ok (Net BCoalesce (UnknownP (tparts t0 * Nat.max (div_ceil tasks 1) 1)) 0 0 tasks (Node (KOp (OSort s fetch)) [t0])) = Ok nc) in H.
  assert (E : div_ceil tasks 1 = tasks) by (unfold div_ceil; now rewrite Nat.add_sub, Nat.div_1_r).
  rewrite E, Nat.max_l in H by exact Ht. injection H as <-. eexists. split; reflexivity.
Qed.

(** ORDER BY and LIMIT: every task of the stage below the boundary sorts its partitions, keeping as many rows
    as are needed, and the coordinator merges what it gathers. *)
Theorem C100_order_by_limit s need fetch tasks (t0 nc : tree) D r :
  (forall l, Permutation (s l) l /\ StronglySorted le (s l)) -> keeps fetch need -> 1 <= tasks ->
  sited cfg tasks t0 (@Permutation row) D -> is_net_coalesce t0 = false ->
  network_coalesce (Node (KOp (OSort s fetch)) [t0]) tasks 1 = Ok nc ->
  create_distributed_plan cfg (TPlan (Node (KCoalesce (Some le) need) [nc])) = Ok r ->
  exists d, body r = Some d /\ forall f g, ordered false d 1 f -> runs false (without_boundaries t0) 1 g ->
    exists rows, client_reads r f = Ok rows /\ sorted_window le 0 need (all_rows (without_boundaries t0) 1 g) rows.
Proof using total trans.
  intros Hsort Hk Ht Hs Hc Hnc H. destruct (gathers_one_task s fetch t0 nc tasks Ht Hnc) as (part & -> & Hp).
  destruct (planned_body cfg (Node (KCoalesce (Some le) need) [Net BCoalesce part 0 0 tasks (Node (KOp (OSort s fetch)) [t0])]) r eq_refl H)
    as (d & Hb). exists d. split; [exact Hb|]. intros f g Rf Rg.
  destruct (sorted_rows cfg le total trans [] s need fetch tasks part 0 0 t0 D r d f (or_introl eq_refl) Hsort Hk Ht Hs Hc Hp H Hb Rf)
    as (E & l & Hl & Hsl & El).
  exists (f 0 0). split; [exact (reads_one r d f Hb E)|]. exists l.
  split; [rewrite Hl; symmetry; exact (plain_rows cfg tasks t0 D g Hs Rg)|]. split; [exact Hsl|]. rewrite El. now destruct need.
Qed.

Theorem C100_order_by_offset skip lim s need fetch tasks (t0 nc : tree) D r : enough need skip lim ->
  (forall l, Permutation (s l) l /\ StronglySorted le (s l)) -> keeps fetch need -> 1 <= tasks ->
  sited cfg tasks t0 (@Permutation row) D -> is_net_coalesce t0 = false ->
  network_coalesce (Node (KOp (OSort s fetch)) [t0]) tasks 1 = Ok nc ->
  create_distributed_plan cfg (TPlan (Node (KOp (OGlobalLimit skip lim)) [Node (KCoalesce (Some le) need) [nc]])) = Ok r ->
  exists d, body r = Some d /\ forall f g, ordered false d 1 f -> runs false (without_boundaries t0) 1 g ->
    exists rows, client_reads r f = Ok rows /\ sorted_window le skip lim (all_rows (without_boundaries t0) 1 g) rows.
Proof using total trans.
  intros He Hsort Hk Ht Hs Hc Hnc H. destruct (gathers_one_task s fetch t0 nc tasks Ht Hnc) as (part & -> & Hp).
  destruct (planned_body cfg (Node (KOp (OGlobalLimit skip lim)) [Node (KCoalesce (Some le) need)
    [Net BCoalesce part 0 0 tasks (Node (KOp (OSort s fetch)) [t0])]]) r eq_refl H)
    as (d & Hb). exists d. split; [exact Hb|]. intros f g Rf Rg.
  destruct (sorted_rows cfg le total trans [KOp (OGlobalLimit skip lim)] s need fetch tasks part 0 0 t0 D r d f
    (or_intror (ex_intro _ skip (ex_intro _ lim eq_refl))) Hsort Hk Ht Hs Hc Hp H Hb Rf) as (E & l & Hl & Hsl & El).
  exists (f 0 0). split; [exact (reads_one r d f Hb E)|]. exists l.
  split; [rewrite Hl; symmetry; exact (plain_rows cfg tasks t0 D g Hs Rg)|]. split; [exact Hsl|].
  rewrite El, limit_window by exact He. now destruct lim.
Qed.
End Props.
Print Assumptions C100_limit.
Print Assumptions C100_offset.
Print Assumptions C100_order_by_limit.
Print Assumptions C100_order_by_offset.

(** The two smallest of four numbers, sorted by two tasks: each keeps two. *)
Module Top.
Import SitedProps.Bad.
Fixpoint insert (x : nat) (l : list nat) : list nat :=
  match l with [] => [x] | y :: l' => if x <=? y then x :: l else y :: insert x l' end.
Definition sort (l : list nat) : list nat := fold_right insert [] l.
Lemma insert_perm x l : Permutation (insert x l) (x :: l).
Proof. induction l as [|y l IH]; [reflexivity|]. cbn. destruct (x <=? y); [reflexivity|]. rewrite IH. constructor. Qed.
Lemma insert_sorted x l : StronglySorted Nat.le l -> StronglySorted Nat.le (insert x l).
Proof.
  induction 1 as [|y l Hl IH Hy]; [repeat constructor|]. cbn. destruct (Nat.leb_spec x y).
  - constructor; [now constructor|]. constructor; [assumption|]. eapply Forall_impl; [|exact Hy]. cbn. intros; lia.
  - constructor; [exact IH|]. rewrite insert_perm. constructor; [lia|exact Hy].
Qed.
Lemma sorts l : Permutation (sort l) l /\ StronglySorted Nat.le (sort l).
Proof.
  induction l as [|x l [IH1 IH2]]; [repeat constructor|]. cbn. split; [|now apply insert_sorted].
  rewrite insert_perm. now constructor.
Qed.
Definition numbers : leaf nat := table_scan [[4; 1; 3; 2]].
Definition halves (l : leaf nat) (n : nat) : dle nat :=
  mkDle l 1 (if n =? 2 then [table_scan [[4; 1]]; table_scan [[3; 2]]] else [l]).
Definition nc : tree nat := ok (network_coalesce (Node (KOp (OSort sort None)) [on numbers]) 2 1).
Definition top : tree nat := Node (KCoalesce (Some Nat.le) (Some 2)) [nc].
Definition stage (d : tree nat) : option (tree nat) :=
  match d with Node _ [Net _ _ _ _ _ i] => Some i | _ => None end.
Definition out : nat -> nat -> list nat := fun _ _ => [1; 2].

Example C100_limit_case :
  sited (with_handler halves) 2 (on numbers) (@Permutation nat) Anyhow /\
  network_coalesce (Node (KOp (OSort sort None)) [on numbers]) 2 1 = Ok nc /\
  create_distributed_plan (with_handler halves) (TPlan top) = Ok (TDistributed (planned (with_handler halves) top)) /\
  stage (planned (with_handler halves) top) = Some (Node (KOp (OSort sort (Some 2))) [Node (KLeaf (LTasks (halves numbers 2))) []]) /\
  ordered false (planned (with_handler halves) top) 1 out /\
  client_reads (TDistributed (planned (with_handler halves) top)) out = Ok [1; 2] /\
  sorted_window Nat.le 0 (Some 2) [4; 1; 3; 2] [1; 2].
Proof.
  split.
  { apply si_leaf. apply variants_site. cbn [with_handler scale_up_leaf].
    split; [reflexivity|]. split; [reflexivity|]. split; [reflexivity|]. split.
    - intros v [<-|[<-|[]]]; reflexivity.
    - eexists. split; reflexivity. }
  split; [reflexivity|]. split; [vm_compute; reflexivity|]. split; [vm_compute; reflexivity|]. split.
  { exists (fun _ p => if p =? 0 then [1; 4] else [2; 3]). split; [|split; [cbn; lia|]].
    - exists (fun t _ => if t =? 0 then [1; 4] else [2; 3]). split.
      + exists (fun t _ => if t =? 0 then [4; 1] else [3; 2]). split.
        * exists []. split; [constructor|]. intros i p Hi Hp. cbn in Hi, Hp. assert (p = 0) as -> by lia.
          destruct i as [|[|i]]; [| |lia]; eexists; split; reflexivity.
        * intros i p Hi Hp. destruct i as [|[|i]]; [| |cbn in Hi; lia]; reflexivity.
      + intros c j Hc Hj. assert (c = 0) as -> by lia. cbn in Hj.
        destruct j as [|[|j]]; [exists [[1; 4]]|exists [[2; 3]]|lia]; (split; [vm_compute; reflexivity|]);
          [exact (merge_concat [[1; 4]])|exact (merge_concat [[2; 3]])].
    - intros i Hi. exists [1; 2; 3; 4]. split; [|reflexivity]. split; [|repeat constructor; lia].
      apply (merge_step [] 1 [4] [[2; 3]]). apply (merge_step [[4]] 2 [3] []). apply (merge_step [[4]] 3 [] []).
      apply (merge_step [] 4 [] [[]]). repeat constructor. }
  split; [reflexivity|]. exists [1; 2; 3; 4]. split; [|split; [repeat constructor; lia|reflexivity]].
  change [1; 2; 3; 4] with (sort [4; 1; 3; 2]). exact (proj1 (sorts [4; 1; 3; 2])).
Qed.
End Top.
