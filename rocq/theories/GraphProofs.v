(** Proofs about pictures of plans. *)
From Coq Require Import Permutation String.
From Verif Require CiuProofs.
From Verif Require Import Base NetModel GraphModel GraphSpec.

(** ** The queue *)
Definition qsize (queue : list (vplan * option nat)) : nat := list_sum (map (fun x => vsize (fst x)) queue).
Definition plan_of (x : nat * vplan * option nat) : vplan := snd (fst x).
Definition index_of (x : nat * vplan * option nat) : nat := fst (fst x).

Lemma qsize_cons p o queue : qsize ((p, o) :: queue) = vsize p + qsize queue.
Proof. reflexivity. Qed.
Lemma qsize_app a b : qsize (a ++ b) = qsize a + qsize b.
Proof. unfold qsize. now rewrite map_app, list_sum_app. Qed.
Lemma qsize_children (cs : list vplan) o : qsize (map (fun c => (c, o)) cs) = list_sum (map vsize cs).
Proof. unfold qsize. now rewrite map_map. Qed.
Lemma vsize_pos p : 0 < vsize p.
Proof. destruct p; cbn; lia. Qed.
Lemma vsize_next p : S (list_sum (map vsize (next_drawn p))) <= vsize p.
Proof. destruct p; cbn [next_drawn vsize map]; [lia|]. change (list_sum []) with 0. pose proof (vsize_pos p). lia. Qed.
Lemma operators_next p : operators p = p :: flat_map operators (next_drawn p).
Proof. destruct p; reflexivity. Qed.

Lemma bfs_cons next fuel index p o queue :
  bfs next (S fuel) index ((p, o) :: queue) = (S index, p, o) :: bfs next fuel (S index) (queue ++ map (fun c => (c, Some (S index))) (next p)).
Proof. reflexivity. Qed.
Lemma bfs_nil next fuel index : bfs next fuel index [] = [].
Proof. now destruct fuel. Qed.

(** With enough fuel the loop visits every operator once. *)
Lemma bfs_operators fuel : forall index queue, qsize queue <= fuel ->
  Permutation (map plan_of (bfs next_drawn fuel index queue)) (flat_map operators (map fst queue)).
Proof.
  induction fuel as [|fuel IH]; intros index [|[p o] queue] Hs.
  - constructor.
  - rewrite qsize_cons in Hs. pose proof (vsize_pos p). lia.
  - constructor.
  - rewrite bfs_cons. cbn [map flat_map fst]. rewrite operators_next. cbn [app].
    constructor. rewrite IH.
    + rewrite map_app, flat_map_app, map_map. cbn [fst]. rewrite map_id. apply Permutation_app_comm.
    + rewrite qsize_app, qsize_children. rewrite qsize_cons in Hs. pose proof (vsize_next p). lia.
Qed.
Lemma visit_operators p : Permutation (map plan_of (visit next_drawn p)) (operators p).
Proof.
  unfold visit. rewrite bfs_operators by (rewrite qsize_cons; change (qsize []) with 0; lia). cbn. now rewrite app_nil_r.
Qed.

Lemma bfs_indices next fuel : forall index queue, map index_of (bfs next fuel index queue) = seq (S index) (List.length (bfs next fuel index queue)).
Proof.
  induction fuel as [|fuel IH]; intros index [|[p o] queue]; try reflexivity. rewrite bfs_cons. cbn [map List.length seq]. now rewrite IH.
Qed.
Lemma visit_NoDup next p : NoDup (map index_of (visit next p)).
Proof. unfold visit. rewrite bfs_indices. apply seq_NoDup. Qed.

(** Where a node comes from. *)
Lemma bfs_parent next fuel : forall index queue i q par, In (i, q, par) (bfs next fuel index queue) ->
  In (q, par) queue \/ exists pi p o, par = Some pi /\ In (pi, p, o) (bfs next fuel index queue) /\ In q (next p).
Proof.
  induction fuel as [|fuel IH]; intros index [|[p o] queue] i q par H; try contradiction. rewrite bfs_cons in *.
  destruct H as [H|H].
  - injection H as <- <- <-. left. now left.
  - destruct (IH _ _ _ _ _ H) as [Hin|(pi & p' & o' & E & H1 & H2)].
    + apply in_app_iff in Hin as [Hin|Hin]; [left; now right|]. apply in_map_iff in Hin as (c & E & Hc). injection E as <- <-.
      right. exists (S index), p, o. split; [reflexivity|]. split; [now left|exact Hc].
    + right. exists pi, p', o'. split; [exact E|]. split; [now right|exact H2].
Qed.

(** Everything in the queue is visited, and the children of what is visited. *)
Lemma bfs_all fuel : forall index queue q par, qsize queue <= fuel -> In (q, par) queue -> exists i, In (i, q, par) (bfs next_drawn fuel index queue).
Proof.
  induction fuel as [|fuel IH]; intros index [|[p o] queue] q par Hs H; try contradiction; rewrite qsize_cons in Hs.
  - pose proof (vsize_pos p). lia.
  - rewrite bfs_cons. destruct H as [H|H]; [injection H as <- <-; eexists; now left|].
    destruct (IH (S index) (queue ++ map (fun c => (c, Some (S index))) (next_drawn p)) q par) as [i Hi].
    + rewrite qsize_app, qsize_children. pose proof (vsize_next p). lia.
    + apply in_app_iff. now left.
    + exists i. now right.
Qed.
Lemma bfs_children fuel : forall index queue i p o c, qsize queue <= fuel -> In (i, p, o) (bfs next_drawn fuel index queue) -> In c (next_drawn p) ->
  exists j, In (j, c, Some i) (bfs next_drawn fuel index queue).
Proof.
  induction fuel as [|fuel IH]; intros index [|[p0 o0] queue] i p o c Hs H Hc; try contradiction. rewrite qsize_cons in Hs. rewrite bfs_cons in *.
  assert (Hq : qsize (queue ++ map (fun c => (c, Some (S index))) (next_drawn p0)) <= fuel).
  { rewrite qsize_app, qsize_children. pose proof (vsize_next p0). lia. }
  destruct H as [H|H].
  - injection H as <- <- <-. destruct (bfs_all fuel (S index) _ c (Some (S index)) Hq) as [j Hj].
    + apply in_app_iff. right. apply in_map_iff. eauto.
    + exists j. now right.
  - destruct (IH _ _ _ _ _ _ Hq H Hc) as [j Hj]. exists j. now right.
Qed.

Lemma visit_root p : In (1, p, None) (visit next_drawn p).
Proof. unfold visit. destruct (vsize p) as [|n] eqn:E; [pose proof (vsize_pos p); lia|]. cbn. now left. Qed.
Lemma visit_parent p i q pi : In (i, q, Some pi) (visit next_drawn p) -> exists r o, In (pi, r, o) (visit next_drawn p) /\ In q (next_drawn r).
Proof.
  intros H. destruct (bfs_parent _ _ _ _ _ _ _ H) as [[E|[]]|(pi' & r & o & E & H1 & H2)]; [discriminate|]. injection E as <-. eauto.
Qed.
Lemma visit_children p i q o c : In (i, q, o) (visit next_drawn p) -> In c (next_drawn q) -> exists j, In (j, c, Some i) (visit next_drawn p).
Proof. apply bfs_children. rewrite qsize_cons. change (qsize []) with 0. lia. Qed.

Lemma NoDup_key {A} (f : A -> nat) (l : list A) x y : NoDup (map f l) -> In x l -> In y l -> f x = f y -> x = y.
Proof.
  induction l as [|a l IH]; intros Hn Hx Hy E; [contradiction|]. apply NoDup_cons_iff in Hn as [Ha Hn].
  destruct Hx as [->|Hx], Hy as [->|Hy]; auto.
  - exfalso. apply Ha. rewrite E. now apply in_map.
  - exfalso. apply Ha. rewrite <- E. now apply in_map.
Qed.

Lemma name_at_in p i q o : In (i, q, o) (visit next_drawn p) -> name_at (visit next_drawn p) i = vname q.
Proof.
  intros H. unfold name_at. destruct (find _ _) as [[[j r] o']|] eqn:F.
  - apply find_some in F as [Hin Hj]. apply Nat.eqb_eq in Hj.
    pose proof (NoDup_key index_of _ _ _ (visit_NoDup next_drawn p) Hin H Hj) as E. injection E as -> -> ->. reflexivity.
  - pose proof (find_none _ _ F _ H) as N. cbn in N. now rewrite Nat.eqb_refl in N.
Qed.

Lemma drawn_operator s i q : drawn_as s i q -> In q (operators (vs_plan s)).
Proof. intros [o H]. eapply Permutation_in; [apply visit_operators|]. apply in_map_iff. exists (i, q, o). auto. Qed.
Lemma operator_drawn s q : In q (operators (vs_plan s)) -> exists i, drawn_as s i q.
Proof.
  intros H. eapply Permutation_in in H; [|apply Permutation_sym, visit_operators]. apply in_map_iff in H as ([[i r] o] & E & H).
  cbn in E. subst r. exists i, o. exact H.
Qed.

(** Without broadcasts both kinds of loop visit the same nodes. *)
Lemma bfs_ext fuel : forall index queue,
  (forall q, In q (flat_map operators (map fst queue)) -> next_linked q = next_drawn q) ->
  bfs next_linked fuel index queue = bfs next_drawn fuel index queue.
Proof.
  induction fuel as [|fuel IH]; intros index [|[p o] queue] H; try reflexivity. rewrite !bfs_cons.
  assert (Hp : next_linked p = next_drawn p) by (apply H; cbn; rewrite operators_next; now left). rewrite Hp. f_equal. apply IH.
  intros q Hq. apply H. rewrite map_app, flat_map_app, map_map in Hq. cbn [fst] in Hq. rewrite map_id in Hq.
  cbn [map flat_map fst]. rewrite operators_next. apply in_app_iff in Hq. apply in_app_iff. destruct Hq as [Hq|Hq]; [now right|left; now right].
Qed.
Lemma visit_linked s : simple_stage s -> visit next_linked (vs_plan s) = visit next_drawn (vs_plan s).
Proof.
  intros [_ H]. unfold visit. apply bfs_ext. cbn. rewrite app_nil_r. intros q Hq. destruct q as [n parts cs|k parts num tasks input]; [reflexivity|].
  destruct (H _ _ _ _ _ Hq) as [-> |[-> _]]; reflexivity.
Qed.

(** ** Stages *)
Lemma vplan_ind2 (P : vplan -> Prop) : (forall n parts cs, Forall P cs -> P (VOp n parts cs)) ->
  (forall k parts num tasks input, P input -> P (VBoundary k parts num tasks input)) -> forall p, P p.
Proof.
  intros H1 H2. fix IH 1. intros [n parts cs|k parts num tasks input].
  - apply H1. induction cs as [|c cs IHcs]; constructor; [apply IH|exact IHcs].
  - apply H2, IH.
Qed.

Lemma operators_boundary p k parts num tasks input : In (VBoundary k parts num tasks input) (operators p) -> In (mkVStage num tasks input) (find_all_stages p).
Proof.
  induction p as [n parts0 cs IH|k0 parts0 num0 tasks0 input0 IH] using vplan_ind2; cbn [operators find_all_stages]; intros H.
  - destruct H as [H|H]; [discriminate|]. apply in_flat_map in H as (c & Hc & H). apply in_flat_map. exists c. split; [exact Hc|].
    rewrite Forall_forall in IH. now apply IH.
  - destruct H as [H|[]]. injection H as <- <- <- <- <-. now left.
Qed.
Lemma stages_nested p s t : In s (find_all_stages p) -> In t (find_all_stages (vs_plan s)) -> In t (find_all_stages p).
Proof.
  induction p as [n parts0 cs IH|k0 parts0 num0 tasks0 input0 IH] using vplan_ind2; cbn [find_all_stages]; intros H Ht.
  - apply in_flat_map in H as (c & Hc & H). apply in_flat_map. exists c. split; [exact Hc|]. rewrite Forall_forall in IH. now apply IH.
  - destruct H as [<-|H]; [right; exact Ht|right; now apply IH].
Qed.
Lemma drawn_nested p s k parts num tasks input : In s (drawn_stages p) -> In (VBoundary k parts num tasks input) (operators (vs_plan s)) ->
  In (mkVStage num tasks input) (find_all_stages p).
Proof.
  intros [<-|Hs] H; apply operators_boundary in H; [exact H|]. eapply stages_nested; eauto.
Qed.

Lemma input_stages_operators c t : In t (input_stages_of_child c) <-> exists k parts, In (VBoundary k parts (vs_num t) (vs_tasks t) (vs_plan t)) (operators c).
Proof.
  induction c as [n parts0 cs IH|k0 parts0 num0 tasks0 input0 IH] using vplan_ind2; cbn [operators input_stages_of_child].
  - rewrite Forall_forall in IH. rewrite in_flat_map. split.
    + intros (c & Hc & H). apply IH in H as (k & parts & H); [|exact Hc]. exists k, parts. right. apply in_flat_map. eauto.
    + intros (k & parts & [H|H]); [discriminate|]. apply in_flat_map in H as (c & Hc & H). exists c. split; [exact Hc|]. apply IH; eauto.
  - split.
    + intros [<-|[]]. exists k0, parts0. now left.
    + intros (k & parts & [H|[]]). injection H as _ _ -> -> ->. left. now destruct t.
Qed.
Lemma input_stages_simple s t : simple_stage s -> (In t (find_input_stages (vs_plan s)) <->
  exists k parts, In (VBoundary k parts (vs_num t) (vs_tasks t) (vs_plan t)) (operators (vs_plan s))).
Proof.
  intros [(n & parts & cs & E) _]. rewrite E. unfold find_input_stages. cbn [vchildren operators]. rewrite in_flat_map. split.
  - intros (c & Hc & H). apply input_stages_operators in H as (k & ps & H). exists k, ps. right. apply in_flat_map. eauto.
  - intros (k & ps & [H|H]); [discriminate|]. apply in_flat_map in H as (c & Hc & H). exists c. split; [exact Hc|]. apply input_stages_operators. eauto.
Qed.

Lemma max_above l x : In x l -> x <= fold_right Nat.max 0 l.
Proof. induction l as [|a l IH]; cbn; [contradiction|]. intros [->|H]; [lia|]. specialize (IH H). lia. Qed.
Lemma drawn_numbers p : numbered p -> NoDup (map vs_num (drawn_stages p)).
Proof.
  intros H. unfold drawn_stages. cbn [map vs_num]. constructor; [|exact H]. intros Hin. apply max_above in Hin. lia.
Qed.

(** ** Lists *)
Lemma NoDup_flat_map {A B} (f : A -> list B) (l : list A) : NoDup l -> (forall a, In a l -> NoDup (f a)) ->
  (forall a b x, In a l -> In b l -> In x (f a) -> In x (f b) -> a = b) -> NoDup (flat_map f l).
Proof.
  induction l as [|a l IH]; intros Hn Hf Hd; [constructor|]. apply NoDup_cons_iff in Hn as [Ha Hn]. cbn [flat_map].
  apply Base.NoDup_app_disjoint.
  - apply Hf. now left.
  - apply IH; [exact Hn|intros b Hb; apply Hf; now right|]. intros b c x Hb Hc. apply Hd; now right.
  - intros x Hx Hy. apply in_flat_map in Hy as (b & Hb & Hy). apply Ha. now rewrite (Hd a b x (or_introl eq_refl) (or_intror Hb) Hx Hy).
Qed.
Lemma filter_flat_map {A B} (g : B -> bool) (f : A -> list B) l : filter g (flat_map f l) = flat_map (fun a => filter g (f a)) l.
Proof. induction l as [|a l IH]; [reflexivity|]. cbn [flat_map]. rewrite filter_app. now rewrite IH. Qed.
Lemma flat_map_only {A B} (f : A -> list B) (l : list A) a : NoDup l -> In a l -> (forall b, In b l -> b <> a -> f b = []) -> flat_map f l = f a.
Proof.
  induction l as [|x l IH]; intros Hn Ha Hf; [contradiction|]. apply NoDup_cons_iff in Hn as [Hx Hn]. cbn [flat_map].
  assert (G : forall l, (forall b, In b l -> f b = []) -> flat_map f l = []).
  { clear. induction l as [|b l IH]; intros H; [reflexivity|]. cbn. rewrite H by now left. apply IH. intros c Hc. apply H. now right. }
  destruct Ha as [->|Ha].
  - rewrite (G l); [apply app_nil_r|]. intros b Hb. apply Hf; [now right|]. intros ->. contradiction.
  - rewrite (Hf x); [|now left|intros ->; contradiction]. apply IH; auto. intros b Hb. apply Hf. now right.
Qed.

Lemma flat_map_empty {A B} (f : A -> list B) l : (forall b, In b l -> f b = []) -> flat_map f l = [].
Proof. induction l as [|b l IH]; intros H; [reflexivity|]. cbn. rewrite H by now left. apply IH. intros c Hc. apply H. now right. Qed.

(** ** Boxes *)
Lemma plan_node_id p i num n : In n (plan_nodes p i num) -> id_stage (vn_id n) = num /\ id_task (vn_id n) = i.
Proof. intros H. apply in_map_iff in H as ([[index q] o] & <- & _). auto. Qed.

Lemma plan_nodes_NoDup p i num : NoDup (map vn_id (plan_nodes p i num)).
Proof.
  apply (NoDup_map_inv id_index). unfold plan_nodes. rewrite !map_map.
  replace (map _ _) with (map index_of (visit next_drawn p)); [apply visit_NoDup|]. apply map_ext. intros [[index q] o]. reflexivity.
Qed.

Lemma graph_nodes_NoDup p : numbered p -> NoDup (map vn_id (graph_nodes p)).
Proof.
  intros Hn. pose proof (drawn_numbers p Hn) as Hd. unfold graph_nodes.
  assert (M : forall {A B C} (g : B -> C) (f : A -> list B) l, map g (flat_map f l) = flat_map (fun a => map g (f a)) l).
  { clear. intros A B C g f l. induction l as [|a l IH]; [reflexivity|]. cbn. now rewrite map_app, IH. }
  rewrite M. apply NoDup_flat_map.
  - now apply NoDup_map_inv in Hd.
  - intros s _. rewrite M. apply NoDup_flat_map; [apply seq_NoDup|intros i _; apply plan_nodes_NoDup|].
    intros i j x _ _ Hx Hy. apply in_map_iff in Hx as (n & <- & Hx). apply in_map_iff in Hy as (m & E & Hy).
    apply plan_node_id in Hx as [_ <-]. apply plan_node_id in Hy as [_ <-]. now rewrite E.
  - intros s t x Hs Ht Hx Hy. apply (NoDup_key vs_num (drawn_stages p)); auto.
    rewrite M in Hx, Hy. apply in_flat_map in Hx as (i & _ & Hx). apply in_flat_map in Hy as (j & _ & Hy).
    apply in_map_iff in Hx as (n & <- & Hx). apply in_map_iff in Hy as (m & E & Hy).
    apply plan_node_id in Hx as [<- _]. apply plan_node_id in Hy as [<- _]. now rewrite E.
Qed.

Lemma graph_nodes_of p s i : numbered p -> In s (drawn_stages p) -> i < vs_tasks s ->
  filter (fun n => (id_stage (vn_id n) =? vs_num s) && (id_task (vn_id n) =? i)) (graph_nodes p) = plan_nodes (vs_plan s) i (vs_num s).
Proof.
  intros Hn Hs Hi. pose proof (drawn_numbers p Hn) as Hd. unfold graph_nodes. rewrite filter_flat_map.
  rewrite (flat_map_only _ _ s); [|now apply NoDup_map_inv in Hd|exact Hs|].
  - rewrite filter_flat_map. rewrite (flat_map_only _ _ i); [|apply seq_NoDup|apply in_seq; lia|].
    + apply CiuProofs.filter_all. intros n H. apply plan_node_id in H as [-> ->]. now rewrite !Nat.eqb_refl.
    + intros j _ Hj. apply CiuProofs.filter_none. intros n H. apply plan_node_id in H as [-> ->].
      apply Nat.eqb_neq in Hj. rewrite Hj. apply andb_false_r.
  - intros t Ht Hne. rewrite filter_flat_map. apply flat_map_empty. intros j _. apply CiuProofs.filter_none. intros n H. apply plan_node_id in H as [-> _].
    destruct (Nat.eqb_spec (vs_num t) (vs_num s)) as [E|]; [|reflexivity]. exfalso. apply Hne. eapply NoDup_key; eauto.
Qed.

Lemma drawn_node p s i index q : In s (drawn_stages p) -> i < vs_tasks s -> drawn_as s index q ->
  In (display_single_plan q (vs_num s) i index) (graph_nodes p).
Proof.
  intros Hs Hi [o H]. unfold graph_nodes. apply in_flat_map. exists s. split; [exact Hs|]. apply in_flat_map. exists i. split; [apply in_seq; lia|].
  apply in_map_iff. exists (index, q, o). auto.
Qed.

(** ** Calls *)
Lemma asks_shuffle parts m i n x k y : i < n -> x < parts -> asks BShuffle parts m i n x k y <-> k < m /\ y = parts * i + x.
Proof.
  intros Hi Hx. unfold asks, shuffle_requests, shuffle_producer_head. cbn [sh_part partition_count scale_partitioning task_index task_count bind].
  assert (E : forall l, mapM (fun input_task_index => Ok (mkReq (parts * i) (parts * i + parts) input_task_index (parts * i + x) (HRepartition (HashP (fun _ : nat => 0) (parts * n))))) l =
    Ok (map (fun t => mkReq (parts * i) (parts * i + parts) t (parts * i + x) (HRepartition (HashP (fun _ : nat => 0) (parts * n)))) l)).
  { induction l as [|a l IH]; [reflexivity|]. cbn [mapM]. rewrite IH. reflexivity. }
  rewrite E. split.
  - intros (reqs & r & H1 & H2 & H3 & H4). injection H1 as <-. apply in_map_iff in H2 as (t & <- & Ht). cbn in *. apply in_seq in Ht. lia.
  - intros [Hk ->]. eexists _, _. split; [reflexivity|]. split; [apply in_map_iff; exists k; split; [reflexivity|apply in_seq; lia]|]. auto.
Qed.

Lemma asks_coalesce parts m x k y : 0 < m -> x < parts ->
  asks BCoalesce parts m 0 1 x k y <-> k < m /\ y < parts / m /\ x = y + k * (parts / m).
Proof.
  intros Hm Hx. unfold asks, coalesce_request. cbn [task_count task_index co_part co_stage partition_count stage_task_count].
  assert (Hd : Nat.max (div_ceil m 1) 1 = m).
  { unfold div_ceil. rewrite Nat.div_1_r. lia. }
  change (1 <=? 0) with false. cbn [Nat.leb]. cbv iota. rewrite Hd.
  destruct (Nat.eqb_spec (parts / m) 0) as [Hz|Hz].
  - split; [intros (r & H & _); discriminate|]. rewrite Hz. lia.
  - unfold task_group. cbn [Nat.eqb]. rewrite Nat.div_1_r, Nat.mod_1_r. cbn [group_len max_len start_task Nat.ltb Nat.leb Nat.mul Nat.min Nat.add]. rewrite !Nat.add_0_r.
    pose proof (Nat.div_mod x (parts / m) Hz) as Hdm. pose proof (Nat.mod_upper_bound x (parts / m) Hz) as Hub.
    destruct (Nat.leb_spec m (x / (parts / m))) as [Hle|Hlt].
    + split; [intros (r & H & _); discriminate|]. intros (Hk & Hy & E). exfalso.
      assert (x / (parts / m) = k); [|lia]. subst x. rewrite Nat.div_add by assumption. rewrite Nat.div_small by assumption. reflexivity.
    + split.
      * intros (r & H & H1 & H2). injection H as <-. cbn in H1, H2. subst k y. split; [exact Hlt|]. split; [exact Hub|].
        rewrite Nat.mul_comm. lia.
      * intros (Hk & Hy & E). eexists. split; [reflexivity|]. cbn. subst x. split.
        -- rewrite Nat.div_add by assumption. now rewrite Nat.div_small.
        -- rewrite Nat.mod_add by assumption. now apply Nat.mod_small.
Qed.
