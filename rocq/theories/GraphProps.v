(** C93: the picture of a distributed plan. *)
From Coq Require Import Permutation String.
From Verif Require Import Base NetModel GraphModel GraphSpec GraphProofs.
Open Scope string_scope.

(** For each task of each stage the picture has a box for each operator of the stage, with a port for each of its
    partitions. *)
Theorem C93_boxes : forall p s i, numbered p -> In s (drawn_stages p) -> i < vs_tasks s ->
  Permutation
    (map (fun n => (id_name (vn_id n), vn_top n)) (filter (fun n => (id_stage (vn_id n) =? vs_num s)%nat && (id_task (vn_id n) =? i)%nat) (graph_nodes p)))
    (map (fun q => (vname q, vparts q)) (operators (vs_plan s))).
Proof.
  intros p s i Hn Hs Hi. rewrite graph_nodes_of by assumption. unfold plan_nodes. rewrite map_map.
  rewrite <- (Permutation_map (fun q => (vname q, vparts q)) (visit_operators (vs_plan s))). rewrite map_map.
  apply Permutation_refl'. apply map_ext. intros [[index q] o]. reflexivity.
Qed.

(** No two boxes have the same name. *)
Theorem C93_names : forall p, numbered p -> NoDup (map vn_id (graph_nodes p)).
Proof. exact graph_nodes_NoDup. Qed.

(** Within a task, arrows lead from each partition of an operator to its parent, and there are no others. *)
Theorem C93_arrows_within_tasks : forall p,
  (forall e, In e (graph_inner p) -> exists s i ci c pi q x, In s (drawn_stages p) /\ i < vs_tasks s /\
     drawn_as s ci c /\ drawn_as s pi q /\ In c (next_drawn q) /\ x < vparts c /\
     e = mkVEdge (mkVid (vname c) (vs_num s) i ci) x (mkVid (vname q) (vs_num s) i pi) x) /\
  (forall s i pi n parts cs c x, In s (drawn_stages p) -> i < vs_tasks s -> drawn_as s pi (VOp n parts cs) -> In c cs -> x < vparts c ->
     exists ci, drawn_as s ci c /\ In (mkVEdge (mkVid (vname c) (vs_num s) i ci) x (mkVid n (vs_num s) i pi) x) (graph_inner p)).
Proof.
  intros p. split.
  - intros e H. apply in_flat_map in H as (s & Hs & H). apply in_flat_map in H as (i & Hi & H). apply in_seq in Hi.
    apply in_flat_map in H as ([[ci c] par] & Hc & H). destruct par as [pi|]; [|contradiction]. apply in_map_iff in H as (x & <- & Hx). apply in_seq in Hx.
    destruct (visit_parent _ _ _ _ Hc) as (q & o & Hq & Hcq).
    exists s, i, ci, c, pi, q, x. rewrite (name_at_in _ _ _ _ Hq). split; [exact Hs|]. split; [lia|]. split; [now exists (Some pi)|]. split; [now exists o|].
    split; [exact Hcq|]. split; [lia|reflexivity].
  - intros s i pi n parts cs c x Hs Hi [o Hq] Hc Hx. destruct (visit_children _ _ _ _ _ Hq Hc) as [ci Hci]. exists ci. split; [now exists (Some pi)|].
    apply in_flat_map. exists s. split; [exact Hs|]. apply in_flat_map. exists i. split; [apply in_seq; lia|].
    apply in_flat_map. exists (ci, c, Some pi). split; [exact Hci|]. apply in_map_iff. exists x. rewrite (name_at_in _ _ _ _ Hq). split; [reflexivity|apply in_seq; lia].
Qed.

(** Between tasks, arrows lead from a partition of a task of an input stage to a partition of a boundary if and only if
    the boundary asks for it when the plan is executed. Missing: broadcasts, stages whose head is a boundary and
    coalesces into several tasks, see the refutations. *)
Theorem C93_arrows_between_tasks_partial : forall p, numbered p -> Forall simple_stage (drawn_stages p) ->
  forall e, In e (graph_between p) <-> exists s i index k parts num tasks input t x y,
    In s (drawn_stages p) /\ i < vs_tasks s /\ drawn_as s index (VBoundary k parts num tasks input) /\ t < tasks /\ x < parts /\
    asks k parts tasks i (vs_tasks s) x t y /\
    e = mkVEdge (mkVid (vname input) num t 1) y (mkVid (bname k) (vs_num s) i index) x.
Proof.
  intros p Hn Hsimple e. rewrite Forall_forall in Hsimple. split.
  - intros H. apply in_flat_map in H as (s & Hs & H). pose proof (Hsimple s Hs) as Hsi.
    apply in_flat_map in H as (t & Ht & H). apply (input_stages_simple _ _ Hsi) in Ht as (k & parts & Hk).
    apply in_flat_map in H as (i & Hi & H). apply in_seq in Hi. apply in_flat_map in H as (j & Hj & H). apply in_seq in Hj.
    unfold inter_task_edges in H. rewrite (visit_linked s Hsi) in H. apply in_flat_map in H as ([[index q] o] & Hq & H).
    destruct q as [n ps cs|k' parts' num' tasks' input']; [contradiction|].
    assert (Hd : drawn_as s index (VBoundary k' parts' num' tasks' input')) by now exists o.
    pose proof (drawn_nested _ _ _ _ _ _ _ Hs (drawn_operator _ _ _ Hd)) as St.
    pose proof (drawn_nested _ _ _ _ _ _ _ Hs Hk) as St'.
    assert (E : forall a, num' = vs_num t -> In a [mkVStage num' tasks' input'] -> a = mkVStage (vs_num t) (vs_tasks t) (vs_plan t)).
    { intros a En [<-|[]]. refine (NoDup_key vs_num _ _ _ Hn St St' _). exact En. }
    destruct (proj2 Hsi _ _ _ _ _ (drawn_operator _ _ _ Hd)) as [-> |[-> H1]]; (destruct (Nat.eqb_spec num' (vs_num t)) as [En|]; [|contradiction]);
      specialize (E _ En (or_introl eq_refl)); injection E as _ Et Ei; apply in_map_iff in H as (y & <- & Hy); apply in_seq in Hy.
    + exists s, i, index, BShuffle, parts', num', tasks', input', j, y, (y + i * parts'). split; [exact Hs|]. split; [lia|]. split; [exact Hd|].
      split; [lia|]. split; [lia|]. split; [apply asks_shuffle; lia|]. rewrite Ei, En. reflexivity.
    + exists s, i, index, BCoalesce, parts', num', tasks', input', j, (y + j * (parts' / vs_tasks t)), y.
      split; [exact Hs|]. split; [lia|]. split; [exact Hd|]. split; [lia|].
      assert (Hm : parts' / vs_tasks t * vs_tasks t <= parts') by (rewrite Nat.mul_comm; apply Nat.mul_div_le; lia).
      assert (Hx : y + j * (parts' / vs_tasks t) < parts') by nia.
      split; [exact Hx|]. split; [|rewrite Ei, En; reflexivity]. replace i with 0 by lia. rewrite H1, Et. apply asks_coalesce; [lia|exact Hx|]. lia.
  - intros (s & i & index & k & parts & num & tasks & input & t & x & y & Hs & Hi & Hd & Ht & Hx & Ha & ->).
    pose proof (Hsimple s Hs) as Hsi. pose proof (drawn_operator _ _ _ Hd) as Hop.
    apply in_flat_map. exists s. split; [exact Hs|]. apply in_flat_map. exists (mkVStage num tasks input).
    split; [apply (input_stages_simple _ _ Hsi); exists k, parts; exact Hop|]. apply in_flat_map. exists i. split; [apply in_seq; lia|].
    apply in_flat_map. exists t. split; [apply in_seq; cbn; lia|]. unfold inter_task_edges. rewrite (visit_linked s Hsi).
    destruct Hd as [o Hd]. apply in_flat_map. exists (index, VBoundary k parts num tasks input, o). split; [exact Hd|]. cbn [vs_num vs_tasks vs_plan].
    destruct (proj2 Hsi _ _ _ _ _ Hop) as [-> |[-> H1]]; rewrite Nat.eqb_refl; apply in_map_iff.
    + apply asks_shuffle in Ha; [|assumption|assumption]. destruct Ha as [_ ->]. exists x. split; [|apply in_seq; lia]. f_equal. lia.
    + rewrite H1 in *. replace i with 0 in * by lia. apply asks_coalesce in Ha; [|lia|assumption]. destruct Ha as (_ & Hy & ->).
      exists y. split; [reflexivity|]. apply in_seq. lia.
Qed.

(** Every arrow joins two ports that are drawn. Missing: the same as above, and operators whose children have different
    numbers of partitions. *)
Theorem C93_ports_partial : forall p, numbered p -> Forall simple_stage (drawn_stages p) -> Forall fitting_stage (drawn_stages p) ->
  Forall (joins_ports (graph_nodes p)) (graph_inner p ++ graph_between p).
Proof.
  intros p Hn Hsimple Hfit. apply Forall_app. split; apply Forall_forall; intros e He.
  - apply C93_arrows_within_tasks in He as (s & i & ci & c & pi & q & x & Hs & Hi & Hc & Hq & Hin & Hx & ->).
    rewrite Forall_forall in Hfit. destruct (Hfit s Hs) as (F & _). split; eexists.
    + split; [exact (drawn_node p s i ci c Hs Hi Hc)|]. split; [reflexivity|]. exact Hx.
    + split; [exact (drawn_node p s i pi q Hs Hi Hq)|]. split; [reflexivity|]. destruct q as [n parts cs|]; [|contradiction]. cbn [next_drawn] in Hin. destruct cs as [|c0 cs]; [contradiction|]. cbn.
      pose proof (F n parts c0 cs c (drawn_operator _ _ _ Hq) Hin). lia.
  - apply (C93_arrows_between_tasks_partial p Hn Hsimple) in He as (s & i & index & k & parts & num & tasks & input & t & x & y & Hs & Hi & Hd & Ht & Hx & Ha & ->).
    pose proof (drawn_operator _ _ _ Hd) as Hop. rewrite Forall_forall in Hfit, Hsimple. destruct (Hfit s Hs) as (_ & F1 & F2).
    pose proof (drawn_nested _ _ _ _ _ _ _ Hs Hop) as St. split; eexists.
    + split; [eapply (drawn_node p (mkVStage num tasks input) t 1 input); [now right|exact Ht|exists None; apply visit_root]|]. split; [reflexivity|]. cbn.
      destruct (proj2 (Hsimple s Hs) _ _ _ _ _ Hop) as [-> |[-> H1]].
      * apply asks_shuffle in Ha; [|assumption|assumption]. destruct Ha as [_ ->]. specialize (F1 _ _ _ _ Hop). nia.
      * rewrite H1 in *. replace i with 0 in * by lia. apply asks_coalesce in Ha; [|lia|assumption]. destruct Ha as (_ & Hy & _).
        specialize (F2 _ _ _ _ Hop). assert (parts / tasks <= vparts input); [|lia]. apply Nat.div_le_upper_bound; lia.
    + split; [exact (drawn_node p s i index _ Hs Hi Hd)|]. split; [reflexivity|]. exact Hx.
Qed.

(** The label of a task: the partitions of all the tasks of a stage are numbered one after the other. *)
Theorem C93_labels : forall tasks partitions,
  flat_map (fun i => build_partition_group i partitions) (seq 0 tasks) = seq 0 (tasks * partitions).
Proof.
  intros tasks partitions. induction tasks as [|n IH]; [reflexivity|].
  rewrite seq_S, flat_map_app, IH. cbn [flat_map plus]. rewrite app_nil_r. unfold build_partition_group.
  rewrite <- seq_app. f_equal. lia.
Qed.

(** ** What the pictures do not show *)
Definition scan (n : nat) : vplan := VOp "DataSourceExec" n [].

(** A broadcast join: nothing is drawn between the stage that is broadcast and its consumers. *)
Definition broadcast_join : vplan :=
  VOp "DistributedExec" 1 [VOp "CoalescePartitionsExec" 1 [VBoundary BCoalesce 6 2 2
    (VOp "HashJoinExec" 3 [VOp "CoalescePartitionsExec" 1 [VBoundary BBroadcast 3 1 2 (VOp "BroadcastExec" 6 [scan 3])]; scan 3])]].
Theorem C93_broadcasts_refuted : exists p, numbered p /\
  (exists s i index parts num tasks input x t y, In s (drawn_stages p) /\ i < vs_tasks s /\ drawn_as s index (VBoundary BBroadcast parts num tasks input) /\
     t < tasks /\ x < parts /\ asks BBroadcast parts tasks i (vs_tasks s) x t y) /\
  forall e, In e (graph_between p) -> id_name (ve_to e) <> "NetworkBroadcastExec"%string.
Proof.
  exists broadcast_join. split; [|split].
  - repeat constructor; cbn; intuition discriminate.
  - eexists _, 0, 4, 3, 1, 2, _, 0, 0, 0. split; [right; left; reflexivity|]. split; [cbn; lia|].
    split; [eexists; cbn; do 3 right; left; reflexivity|]. split; [lia|]. split; [lia|].
    eexists. split; [left; reflexivity|]. split; reflexivity.
  - intros e H. vm_compute in H. repeat (destruct H as [<-|H]; [discriminate|]). contradiction.
Qed.

(** A broadcast join whose other side is shuffled: the arrows of the shuffle lead to a box that is not drawn. *)
Definition shuffled_join : vplan :=
  VOp "DistributedExec" 1 [VOp "CoalescePartitionsExec" 1 [VBoundary BCoalesce 6 3 2
    (VOp "HashJoinExec" 3 [VBoundary BBroadcast 1 1 2 (VOp "BroadcastExec" 2 [scan 1]);
       VOp "AggregateExec" 3 [VOp "FilterExec" 3 [VBoundary BShuffle 3 2 2 (VOp "RepartitionExec" 6 [scan 3])]]])]].
Theorem C93_after_broadcasts_refuted : exists p, numbered p /\ exists e, In e (graph_between p) /\
  forall n, In n (graph_nodes p) -> vn_id n <> ve_to e.
Proof.
  exists shuffled_join. split; [repeat constructor; cbn; intuition discriminate|].
  eexists. split.
  - vm_compute. do 6 right. left. reflexivity.
  - intros n H. vm_compute in H. repeat (destruct H as [<-|H]; [discriminate|]). contradiction.
Qed.

(** A coalesce into two tasks: an arrow for data that nobody asks for, and none for data that is asked for. *)
Definition two_consumers : vplan :=
  VOp "DistributedExec" 1 [VOp "CoalescePartitionsExec" 1 [VBoundary BCoalesce 12 2 2
    (VOp "FilterExec" 6 [VBoundary BCoalesce 6 1 4 (scan 3)])]].
Theorem C93_coalesces_refuted : exists p, numbered p /\ exists s index parts num tasks input,
  In s (drawn_stages p) /\ drawn_as s index (VBoundary BCoalesce parts num tasks input) /\
  (exists i t x y, i < vs_tasks s /\ t < tasks /\ ~ asks BCoalesce parts tasks i (vs_tasks s) x t y /\
     In (mkVEdge (mkVid (vname input) num t 1) y (mkVid (bname BCoalesce) (vs_num s) i index) x) (graph_between p)) /\
  (exists i t x y, i < vs_tasks s /\ t < tasks /\ x < parts /\ asks BCoalesce parts tasks i (vs_tasks s) x t y /\
     ~ In (mkVEdge (mkVid (vname input) num t 1) y (mkVid (bname BCoalesce) (vs_num s) i index) x) (graph_between p)).
Proof.
  exists two_consumers. split; [repeat constructor; cbn; intuition discriminate|].
  exists (mkVStage 2 2 (VOp "FilterExec" 6 [VBoundary BCoalesce 6 1 4 (scan 3)])), 2, 6, 1, 4, (scan 3).
  split; [right; left; reflexivity|]. split; [eexists; cbn; right; left; reflexivity|]. split.
  - exists 0, 3, 3, 0. split; [cbn; lia|]. split; [lia|]. split.
    + intros (r & H & H1 & H2). vm_compute in H. injection H as <-. discriminate.
    + vm_compute. intuition.
  - exists 0, 0, 1, 1. split; [cbn; lia|]. split; [lia|]. split; [lia|]. split.
    + eexists. split; [reflexivity|]. split; reflexivity.
    + intros H. vm_compute in H. repeat (destruct H as [H|H]; [discriminate|]). contradiction.
Qed.

(** A union whose second child has more partitions than the first: arrows to ports that are not drawn. *)
Definition uneven_union : vplan :=
  VOp "DistributedExec" 1 [VOp "CoalescePartitionsExec" 1 [VBoundary BCoalesce 6 1 2 (VOp "UnionExec" 3 [scan 1; scan 2])]].
Theorem C93_unions_refuted : exists p, numbered p /\ Forall simple_stage (drawn_stages p) /\
  exists e, In e (graph_inner p) /\ ~ joins_ports (graph_nodes p) e.
Proof.
  exists uneven_union. split; [repeat constructor; cbn; intuition discriminate|]. split.
  - apply Forall_forall. intros s Hs. cbn in Hs. destruct Hs as [<-|[<-|[]]]; (split; [eexists _, _, _; reflexivity|]); intros k parts num tasks input H; cbn in H;
      repeat (destruct H as [H|H]; [first [discriminate|injection H as <- <- <- <- <-; right; split; reflexivity]|]); contradiction.
  - exists (mkVEdge (mkVid "DataSourceExec" 1 0 3) 1 (mkVid "UnionExec" 1 0 1) 1). split.
    + vm_compute. intuition.
    + intros [_ (n & Hin & Hid & Hlt)]. vm_compute in Hin. cbn [ve_to ve_bottom] in *.
      repeat (destruct Hin as [<-|Hin]; [first [discriminate|cbn in Hlt; lia]|]). contradiction.
Qed.

(** An aggregation over a shuffle, as the planner plans it: two stages of three and two tasks. *)
Definition aggregation : vplan :=
  VOp "DistributedExec" 1 [VOp "CoalescePartitionsExec" 1 [VBoundary BCoalesce 8 2 2
    (VOp "AggregateExec" 4 [VBoundary BShuffle 4 1 3 (VOp "RepartitionExec" 8 [VOp "AggregateExec" 2 [scan 2]])])]].
Example C93_case : numbered aggregation /\ Forall simple_stage (drawn_stages aggregation) /\ Forall fitting_stage (drawn_stages aggregation) /\
  List.length (graph_nodes aggregation) = 16 /\ List.length (graph_between aggregation) = 32.
Proof.
  split; [repeat constructor; cbn; intuition discriminate|]. split; [|split].
  - apply Forall_forall. intros s Hs. cbn in Hs. destruct Hs as [<-|[<-|[<-|[]]]]; (split; [eexists _, _, _; reflexivity|]); intros k parts num tasks input H; cbn in H;
      repeat (destruct H as [H|H]; [first [discriminate|injection H as <- <- <- <- <-; first [now left|right; split; reflexivity]]|]); contradiction.
  - apply Forall_forall. intros s Hs. cbn in Hs. destruct Hs as [<-|[<-|[<-|[]]]]; repeat split; cbn [vs_plan vs_tasks]; intros until 0; try (intros H Hd; cbn in H;
      repeat (destruct H as [H|H]; [first [discriminate|injection H as <- <- <- <-; destruct Hd as [<-|[]]; cbn; lia]|]); contradiction);
      intros H; cbn in H; repeat (destruct H as [H|H]; [first [discriminate|injection H as <- <- <- <-; cbn; lia]|]); contradiction.
  - vm_compute. auto.
Qed.

Print Assumptions C93_boxes.
Print Assumptions C93_names.
Print Assumptions C93_arrows_within_tasks.
Print Assumptions C93_arrows_between_tasks_partial.
Print Assumptions C93_ports_partial.
Print Assumptions C93_labels.
Print Assumptions C93_broadcasts_refuted.
Print Assumptions C93_after_broadcasts_refuted.
Print Assumptions C93_coalesces_refuted.
Print Assumptions C93_unions_refuted.
