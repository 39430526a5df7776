(** Proofs: planning succeeds. *)
From Verif Require Import Base NetModel CiuModel CiuSpec CiuProofs CiuFloat CiuProps EventsModel JoinModel JoinSpec PlannerModel PlannerSpec
  PlannerProofs RunProofs TotalSpec.
From Coq Require Import ZArith.

Section Total.
Context {row : Type}.
Notation tree := (tree row).
Variable cfg : settings row.

(** ** Between the passes *)

Definition ready_node (k : kind row) (cs : list tree) : Prop :=
  match k, cs with
  | KLeaf l, [] => 1 <= leaf_parts l
  | KRepart p, [_] => 1 <= partition_count p
  | KBcast n, [_] => 1 <= n
  | KCoalesce _ _, [c] => by_ranges c = false
  | KUnion, _ :: _ => True
  | KJoin _ _ _ _ _, [_; _] => True
  | KOp _, [_] => True
  | _, _ => False
  end.
Fixpoint ready (t : tree) : Prop :=
  match t with
  | Node k cs => ready_node k cs /\ Forall (fun P => P) (map ready cs)
  | Ciu _ _ cs => cs <> [] /\ Forall (fun P => P) (map ready cs)
  | Net _ _ _ _ _ _ => False
  end.

Lemma all_map {A} (f : A -> Prop) l : Forall (fun P => P) (map f l) <-> forall x, In x l -> f x.
Proof. rewrite Forall_map, Forall_forall. reflexivity. Qed.

Lemma ready_local (t : tree) : ready t -> has_net t = false.
Proof.
  induction t as [k cs IH|w m cs IH|] using tree_ind'; intros H; [| |destruct H].
  all: destruct H as [_ H]; rewrite all_map in H; rewrite Forall_forall in IH; cbn; apply existsb_false; auto.
Qed.

Lemma regular_ordinary (t : tree) : regular t -> has_net t = false.
Proof.
  induction t as [k cs IH|w m cs IH|] using tree_ind'; intros H; [|destruct H|destruct H].
  destruct H as [_ H]. rewrite all_map in H. rewrite Forall_forall in IH. cbn. apply existsb_false. auto.
Qed.

Lemma regular_parts (t : tree) : regular t -> 1 <= tparts t.
Proof.
  induction t as [k cs IH|w m cs IH|] using tree_ind'; intros H; [|destruct H|destruct H].
  destruct H as [H Hc]. rewrite all_map in Hc. rewrite Forall_forall in IH.
  assert (G : forall c, In c cs -> 1 <= tparts c) by auto. clear IH Hc.
  destruct k as [l|p|n|spm f| |j x1 x2 x3 x4|o]; cbn [regular_node] in H.
  - destruct cs; [exact H|destruct H].
  - destruct cs as [|c [|]]; try contradiction. exact H.
  - contradiction.
  - cbn. lia.
  - destruct cs as [|c cs]; [destruct H|]. cbn. specialize (G c (or_introl eq_refl)). lia.
  - assert (E : exists l r, cs = [l; r]).
    { destruct j as [[|] na ty|ty|]; destruct cs as [|l [|r [|]]]; try contradiction; eauto. }
    destruct E as (l & r & ->). cbn. pose proof (G l (or_introl eq_refl)). pose proof (G r (or_intror (or_introl eq_refl))).
    destruct j as [[|] na ty|ty|]; assumption.
  - destruct cs as [|c [|]]; try contradiction. cbn. apply G. now left.
Qed.

(** ** Joins *)

Definition unwrap (l : tree) : tree := match l with Node (KCoalesce None None) [x] => x | _ => l end.
Lemma unwrap_build (l : tree) :
  match l with Node (KCoalesce None None) [x] => normalize cfg x | _ => normalize cfg l end = normalize cfg (unwrap l).
Proof. destruct l as [[| | |[|] [f|]| | |] [|x [|]]| |]; reflexivity. Qed.
Lemma unwrap_height (l : tree) : height (unwrap l) <= height l.
Proof. destruct l as [[| | |[|] [f|]| | |] [|x [|]]| |]; cbn; lia. Qed.
Lemma unwrap_regular (l : tree) : regular l -> regular (unwrap l).
Proof.
  destruct l as [[| | |[|] [f|]| | |] [|x [|]]| |]; cbn [unwrap]; auto.
  intros [_ H]. rewrite all_map in H. apply H. now left.
Qed.

Lemma height_le_child (c : tree) k cs : In c cs -> height c < height (Node k cs).
Proof. intros H. now apply (child_height (Node k cs) c). Qed.

Hypothesis Htarget : 0 < target_partitions cfg.

Lemma two_ready (a b : tree) k : ready a -> ready b -> ready_node k [a; b] -> ready (Node k [a; b]).
Proof. intros Ha Hb H. split; [exact H|]. repeat constructor; assumption. Qed.
Lemma one_ready (a : tree) k : ready a -> ready_node k [a] -> ready (Node k [a]).
Proof. intros Ha H. split; [exact H|]. repeat constructor; assumption. Qed.

Lemma normalize_total : forall t : tree, regular t ->
  exists t', normalize cfg t = Ok t' /\ ready t' /\ by_ranges t' = by_ranges t.
Proof using Htarget.
  induction t as [t IH] using tree_height_ind. intros H.
  destruct t as [k cs|w m cs|b p q n ts i]; [|destruct H|destruct H].
  assert (Hmap : forall cs', Forall2 (fun c c' => ready c' /\ by_ranges c' = by_ranges c) cs cs' -> ready_node k cs ->
            ready (Node k cs')).
  { intros cs' F Hk. split.
    - destruct k as [l|p|n|spm f| |j x1 x2 x3 x4|o]; cbn in Hk |- *;
        destruct cs as [|c [|c2 [|]]]; try contradiction; inversion F as [|? ? ? ? Hx F']; subst; auto;
        inversion F' as [|? ? ? ? Hy F'']; subst; auto; try (inversion F''; subst; auto).
      rewrite (proj2 Hx). exact Hk.
    - apply all_map. intros c' Hc. apply In_nth_error in Hc as (i & Hi). apply Forall2_nth in F as [L F].
      destruct (nth_error cs i) as [c|] eqn:Ec; [exact (proj1 (F i c c' Ec Hi))|].
      apply nth_error_None in Ec. assert (i < List.length cs') by (apply nth_error_Some; congruence). lia. }
  destruct H as [Hk Hc]. rewrite all_map in Hc.
  assert (Hkids : exists cs', seqM (map (normalize cfg) cs) = Ok cs' /\ Forall2 (fun c c' => ready c' /\ by_ranges c' = by_ranges c) cs cs').
  { destruct (seqM_total (normalize cfg) cs) as (cs' & E).
    { intros c Hin. destruct (IH c (height_le_child c k cs Hin) (Hc c Hin)) as (c' & E & _). eauto. }
    exists cs'. split; [exact E|]. apply seqM_map_inv in E. eapply Forall2_impl_in; [|exact E]. intros c c' Hin E'.
    destruct (IH c (height_le_child c k cs Hin) (Hc c Hin)) as (c2 & E2 & R). rewrite E' in E2. injection E2 as <-. exact R. }
  assert (Hgen : ready_node k cs -> exists t', (let* cs' := seqM (map (normalize cfg) cs) in Ok (Node k cs')) = Ok t' /\ ready t' /\ by_ranges t' = by_ranges (Node k cs)).
  { intros Hr. destruct Hkids as (cs' & -> & F). cbn [bind]. exists (Node k cs'). split; [reflexivity|]. split; [now apply Hmap|reflexivity]. }
  destruct k as [l|p|n|spm f| |j x1 x2 x3 x4|o].
  1-5,7: cbn [normalize]; apply Hgen; cbn in Hk |- *; destruct cs as [|c [|]]; try contradiction; exact Hk.
  assert (E : exists l r, cs = [l; r] /\ match j with HashJoin false _ _ => True | _ => tparts l = 1 end).
  { cbn in Hk. destruct j as [[|] na ty|ty|]; destruct cs as [|l [|r [|]]]; try contradiction; eauto. }
  destruct E as (l & r & -> & Hj).
  assert (Hl : regular l) by (apply Hc; now left). assert (Hr : regular r) by (apply Hc; right; now left).
  assert (Hhl : height l < height (Node (KJoin j x1 x2 x3 x4) [l; r])) by (apply height_le_child; now left).
  assert (Hhr : height r < height (Node (KJoin j x1 x2 x3 x4) [l; r])) by (apply height_le_child; right; now left).
  destruct (IH (unwrap l)) as (b' & Eb & Rb & _); [pose proof (unwrap_height l); lia|now apply unwrap_regular|].
  destruct (IH l Hhl Hl) as (l' & El & Rl & _). destruct (IH r Hhr Hr) as (r' & Er & Rr & _).
  cbn [normalize]. rewrite unwrap_build, Eb, El, Er. cbn [bind].
  destruct (becomes_partitioned j (both_single l r)) eqn:E1.
  - destruct j as [col na ty| |]; cbn in E1; try discriminate.
    apply andb_true_iff in E1 as [E1 E2]. destruct col; [|discriminate].
    pose proof (regular_parts r Hr). apply negb_true_iff in E2. unfold both_single in E2. rewrite Hj in E2. cbn in E2.
    assert (E3 : (1 <? tparts r) = true) by (apply Nat.ltb_lt; apply Nat.eqb_neq in E2; lia). rewrite E3. cbn [negb].
    eexists. split; [reflexivity|]. split; [|reflexivity].
    apply two_ready; [| |exact Logic.I]; apply one_ready; auto.
  - destruct (gets_swapped (broadcast_joins cfg) j (both_single l r)) eqn:E2.
    + destruct j as [| |]; cbn in E2; try discriminate. eexists. split; [reflexivity|]. split; [|reflexivity].
      now apply two_ready.
    + eexists. split; [reflexivity|]. split; [|reflexivity]. now apply two_ready.
Qed.

(** ** Broadcasts and unions *)

Lemma broadcasts_ready : forall t : tree, ready t -> ready (broadcasts t) /\ by_ranges (broadcasts t) = by_ranges t.
Proof.
  induction t as [t IH] using tree_height_ind. intros H.
  destruct t as [k cs|w m cs|b p q n ts i]; [| |destruct H].
  - destruct H as [Hk Hc]. rewrite all_map in Hc.
    assert (Hgen : ready (Node k (map broadcasts cs))).
    { split.
      - destruct k as [l|p|n|spm f| |j x1 x2 x3 x4|o]; cbn in Hk |- *; destruct cs as [|c [|c2 [|]]]; cbn; auto.
        rewrite (proj2 (IH c ltac:(apply height_le_child; now left) (Hc c (or_introl eq_refl)))). exact Hk.
      - apply all_map. intros x Hx. apply in_map_iff in Hx as (c & <- & Hin).
        apply IH; [now apply height_le_child|auto]. }
    destruct k as [l|p|n|spm f| |j x1 x2 x3 x4|o]; try (split; [exact Hgen|reflexivity]).
    assert (E : exists l r, cs = [l; r]).
    { cbn in Hk. destruct cs as [|l [|r [|]]]; try contradiction; eauto. }
    destruct E as (l & r & ->).
    assert (Hhl : height l < height (Node (KJoin j x1 x2 x3 x4) [l; r])) by (apply height_le_child; now left).
    assert (Hhr : height r < height (Node (KJoin j x1 x2 x3 x4) [l; r])) by (apply height_le_child; right; now left).
    destruct (IH l Hhl (Hc l (or_introl eq_refl))) as [Rl _]. destruct (IH r Hhr (Hc r (or_intror (or_introl eq_refl)))) as [Rr _].
    cbn [broadcasts]. destruct (can_broadcast_left_input j); [|split; [now apply two_ready|reflexivity]].
    split; [|reflexivity]. apply two_ready; [|exact Rr|exact Logic.I].
    destruct l as [[l|p|n|[|] f| |j' y1 y2 y3 y4|o] [|x [|x' xs]]|w m xs|b p q n ts i];
      try (apply one_ready; [apply one_ready; [exact Rl|cbn; lia]|reflexivity]).
    apply one_ready; [|reflexivity]. apply one_ready; [|cbn; lia].
    assert (Hx : ready x).
    { pose proof (Hc _ (or_introl eq_refl)) as [_ Hx]. rewrite all_map in Hx. apply Hx. now left. }
    apply IH; [|exact Hx]. etransitivity; [|exact Hhl]. apply height_le_child. now left.
  - destruct H as [Hne Hc]. rewrite all_map in Hc. split; [|reflexivity]. cbn [broadcasts]. split.
    + destruct cs; [congruence|discriminate].
    + apply all_map. intros x Hx. apply in_map_iff in Hx as (c & <- & Hin). apply IH; [|auto].
      now apply (child_height (Ciu w m cs) c).
Qed.

Lemma single_split n : 1 <= n -> (2 * Z.of_nat n + 3 < 2 ^ 53)%Z ->
  exists m, split_children (single_task_weights n) 1 = Ok m.
Proof.
  intros Hn Hz. destruct (planner_weights_good (single_task_weights n) 1) as (m & E & _); [|eauto].
  unfold single_task_weights. split; [destruct n; [lia|discriminate]|]. split; [lia|]. split.
  - apply Forall_forall. intros w Hw. apply repeat_spec in Hw. subst w. split; [|discriminate]. exists 1. split; [lia|reflexivity].
  - rewrite repeat_length. lia.
Qed.

Lemma isolate_total : forall t : tree, ready t -> (2 * Z.of_nat (union_width t) + 3 < 2 ^ 53)%Z ->
  exists t', isolate t = Ok t' /\ ready t' /\ by_ranges t' = by_ranges t.
Proof.
  induction t as [t IH] using tree_height_ind. intros H Hw.
  destruct t as [k cs|w m cs|b p q n ts i]; [| |destruct H]; destruct H as [Hk Hc]; rewrite all_map in Hc.
  - assert (Hkids : exists cs', seqM (map isolate cs) = Ok cs' /\ Forall2 (fun c c' => ready c' /\ by_ranges c' = by_ranges c) cs cs').
    { assert (G : forall c, In c cs -> exists c', isolate c = Ok c' /\ ready c' /\ by_ranges c' = by_ranges c).
      { intros c Hin. apply IH; [now apply height_le_child|auto|]. pose proof (union_width_child k cs c Hin). lia. }
      destruct (seqM_total isolate cs) as (cs' & E); [intros c Hin; destruct (G c Hin) as (? & ? & _); eauto|].
      exists cs'. split; [exact E|]. apply seqM_map_inv in E. eapply Forall2_impl_in; [|exact E]. intros c c' Hin E'.
      destruct (G c Hin) as (c2 & E2 & R). rewrite E' in E2. injection E2 as <-. exact R. }
    destruct Hkids as (cs' & Es & F).
    assert (Hall : Forall (fun P => P) (map ready cs')).
    { apply all_map. intros c' Hc'. apply In_nth_error in Hc' as (i & Hi). apply Forall2_nth in F as [L F].
      destruct (nth_error cs i) as [c|] eqn:Ec; [exact (proj1 (F i c c' Ec Hi))|].
      apply nth_error_None in Ec. assert (i < List.length cs') by (apply nth_error_Some; congruence). lia. }
    destruct k as [l|p|n|spm f| |j x1 x2 x3 x4|o].
    1-4,6-7: cbn [isolate]; rewrite Es; cbn [bind]; eexists; split; [reflexivity|]; split; [|reflexivity]; split; [|exact Hall];
      cbn in Hk |- *; destruct cs as [|c [|c2 [|]]]; try contradiction; inversion F as [|? ? ? ? Hx F']; subst; auto;
        inversion F' as [|? ? ? ? Hy F'']; subst; auto; try (inversion F''; subst; auto).
    + rewrite (proj2 Hx). exact Hk.
    + cbn [isolate]. destruct (single_split (List.length cs)) as (m & Em).
      { destruct cs; [destruct Hk|cbn; lia]. }
      { cbn [union_width] in Hw. lia. }
      rewrite Em. cbn [bind]. rewrite Es. cbn [bind]. eexists. split; [reflexivity|]. split; [|reflexivity].
      split; [|exact Hall]. destruct cs; [destruct Hk|]. inversion F; subst. discriminate.
  - assert (G : forall c, In c cs -> exists c', isolate c = Ok c' /\ ready c').
    { intros c Hin. destruct (IH c) as (c' & E & R & _); [now apply (child_height (Ciu w m cs) c)|auto| |eauto].
      pose proof (union_width_ciu w m cs c Hin). lia. }
    destruct (seqM_total isolate cs) as (cs' & E); [intros c Hin; destruct (G c Hin) as (? & ? & _); eauto|].
    cbn [isolate]. rewrite E. cbn [bind]. eexists. split; [reflexivity|]. split; [|reflexivity].
    apply seqM_map_inv in E. split.
    + destruct cs; [congruence|]. inversion E; subst. discriminate.
    + apply all_map. intros c' Hc'. apply In_nth_error in Hc' as (i & Hi). apply Forall2_nth in E as [L F].
      destruct (nth_error cs i) as [c|] eqn:Ec.
      * destruct (G c (nth_error_In _ _ Ec)) as (c2 & E2 & R). rewrite (F i c c' Ec Hi) in E2. injection E2 as <-. exact R.
      * apply nth_error_None in Ec. assert (i < List.length cs') by (apply nth_error_Some; congruence). lia.
Qed.

Lemma before_total most (t : tree) : regular t -> by_ranges t = false -> 1 <= most -> fits most t ->
  exists p, before_injection cfg t = Ok p /\ ready p /\ has_net p = false /\ fits most p.
Proof using Htarget.
  intros Hr Hb Hm Hf. destruct (normalize_total t Hr) as (t1 & E1 & R1 & B1). rewrite Hb in B1.
  assert (Hp : forall p, before_injection cfg t = Ok p -> has_net p = false /\ fits most p).
  { intros p E. destruct (before_facts cfg t p (regular_ordinary t Hr) E) as [Hn Hw]. split; [exact Hn|].
    eapply fits_mono; [exact Hw|exact Hf]. }
  unfold before_injection in *. rewrite E1 in *. cbn [bind] in *.
  set (t2 := if 1 <? tparts t1 then Node (KCoalesce None None) [t1] else t1) in *.
  assert (R2 : ready t2 /\ union_width t2 <= union_width t).
  { destruct (normalize_facts cfg t t1 (regular_ordinary t Hr) E1) as [_ W1]. unfold t2.
    destruct (1 <? tparts t1); [|auto]. split; [now apply one_ready|]. cbn. lia. }
  destruct R2 as [R2 W2].
  assert (R3 : ready (insert_broadcasts cfg t2) /\ union_width (insert_broadcasts cfg t2) <= union_width t).
  { unfold insert_broadcasts. destruct (broadcast_joins cfg); [|auto]. split; [now apply broadcasts_ready|].
    destruct (broadcasts_facts t2 (ready_local _ R2)) as [_ W]. lia. }
  destruct R3 as [R3 W3]. unfold insert_unions in *. destruct (children_isolator_unions cfg).
  - destruct (isolate_total _ R3) as (p & E & R & _); [unfold fits in Hf; nia|]. exists p. split; [exact E|]. split; [exact R|auto].
  - exists (insert_broadcasts cfg t2). split; [reflexivity|]. split; [exact R3|auto].
Qed.
End Total.

(** ** Injection *)

Section Inject.
Context {row : Type}.
Notation tree := (tree row).
Variable cfg : settings row.
Variable most : nat.
Hypothesis Hmost : max_tasks cfg = Ok most.
Hypothesis Hsane : sane_handlers cfg.
Hypothesis Hleaf : leaf_handlers cfg.
Hypothesis Hans : answering_handlers cfg.
Hypothesis Hkeep : keeps_tasks cfg.
Let Q := within_limits cfg most.

Lemma scale_total (l : leaf_node row) n : 1 <= leaf_parts l -> 1 <= n ->
  exists q, match scale_up_leaf cfg (Node (KLeaf l) []) n with None => Ok (Node (KLeaf l) []) | Some r => r end = Ok q.
Proof using Hans.
  intros Hl Hn. destruct (scale_up_leaf cfg (Node (KLeaf l) []) n) as [r|] eqn:E; [|eauto].
  destruct (proj2 Hans l n r Hl Hn E) as (q & -> & _). eauto.
Qed.

Lemma ready_leaf k : @ready_node row k [] -> exists l, k = KLeaf l /\ 1 <= leaf_parts l.
Proof. destruct k; cbn; try contradiction. eauto. Qed.

Lemma propagate_total : forall p q n, ready p -> fits most p -> 1 <= n <= most -> drafted cfg most p q ->
  exists q', propagate cfg q n = Ok q'.
Proof using Hmost Hsane Hans.
  induction p as [k cs IH|w m cs IH|b0 p0 q0 n0 t0 i0 IH] using tree_ind'; intros q n Hr Hf Hn Hd; [| |destruct Hr].
  all: destruct Hr as [Hk Hc]; rewrite all_map in Hc; rewrite Forall_forall in IH.
  - destruct cs as [|c0 cs0].
    { destruct (ready_leaf k Hk) as (l & -> & Hl). cbn in Hd. subst q. cbn [propagate]. apply scale_total; [exact Hl|lia]. }
    set (cs := c0 :: cs0) in *. assert (Hne : cs <> []) by discriminate.
    apply drafted_node in Hd as (qs & -> & Hqs); [|exact Hne].
    assert (Hq : qs <> []) by (intros ->; inversion Hqs).
    destruct qs as [|q0 qs0]; [congruence|]. set (qs := q0 :: qs0) in *.
    change (propagate cfg (Node k qs) n) with (let* cs' := seqM (map (fun c => propagate cfg c n) qs) in Ok (Node k cs')).
    destruct (seqM_total (fun c => propagate cfg c n) qs) as (qs' & E).
    { intros q Hin. apply In_nth_error in Hin as (i & Hi). apply Forall2_nth in Hqs as [L Hqs].
      destruct (nth_error cs i) as [c|] eqn:Ec.
      - specialize (Hqs i c q Ec Hi). assert (Hin : In c cs) by (eapply nth_error_In; exact Ec).
        unfold qchild in Hqs. destruct (cut (is_coalesce (Node k cs)) c).
        + destruct Hqs as (tasks & j & -> & _). cbn. eauto.
        + apply (IH c Hin); auto. eapply fits_mono; [|exact Hf]. now apply union_width_child.
      - apply nth_error_None in Ec. assert (i < List.length qs) by (apply nth_error_Some; congruence). lia. }
    rewrite E. cbn [bind]. eauto.
  - destruct cs as [|c0 cs0]; [congruence|].
    set (cs := c0 :: cs0) in *.
    apply drafted_ciu in Hd as (anns & qs & -> & L & HA & Hqs); [|discriminate].
    assert (Hq : qs <> []) by (intros ->; inversion Hqs).
    apply Forall2_nth in Hqs as [L1 H1].
    destruct qs as [|q0 qs0]; [congruence|]. set (qs := q0 :: qs0) in *.
    change (propagate cfg (Ciu (map child_weight anns) m qs) n) with
      (if negb (List.length qs =? List.length (map child_weight anns)) then Err "children and weights differ" else
       let* m := split_children (map child_weight anns) n in
       let* cs' := seqM (map (fun '(f, n) => f n)
                     (combine (map (propagate cfg) qs) (map_task_counts (List.length qs) m))) in
       Ok (Ciu (map child_weight anns) m cs')).
    rewrite map_length, <- L1, L, Nat.eqb_refl. cbn [negb].
    assert (Hf' : (Z.of_nat most * (2 * Z.of_nat (List.length cs) + 3) < 2 ^ 53)%Z).
    { unfold fits in Hf. change (union_width (Ciu w m cs)) with (Nat.max (List.length cs) (list_max (map union_width cs))) in Hf. nia. }
    assert (Hpw : planner_weights (map child_weight anns) n).
    { apply (child_weights_ok cfg most anns cs n); auto. intros ->. cbn in L. discriminate. }
    destruct (planner_weights_good _ _ Hpw) as (m' & Em & _). rewrite Em. cbn [bind].
    pose proof (counts_good _ n m' Hpw Em) as Hcg. rewrite map_length, L in Hcg.
    fold (combined (propagate cfg) qs (map_task_counts (List.length cs) m')).
    assert (G : exists qs', seqM (combined (propagate cfg) qs (map_task_counts (List.length cs) m')) = Ok qs').
    { assert (G : forall i q k, nth_error qs i = Some q -> nth_error (map_task_counts (List.length cs) m') i = Some k ->
                exists q', propagate cfg q k = Ok q').
      { intros i q k Hi Hk'.
        destruct (nth_error cs i) as [c|] eqn:Ec.
        2: { apply nth_error_None in Ec. assert (i < List.length qs) by (apply nth_error_Some; congruence). lia. }
        specialize (H1 i c q Ec Hi). assert (Hin : In c cs) by (eapply nth_error_In; exact Ec).
        unfold qchild in H1. destruct (cut false c).
        + destruct H1 as (tasks & j & -> & _). cbn. eauto.
        + destruct (nth_error anns i) as [a|] eqn:Ea.
          2: { apply nth_error_None in Ea. assert (i < List.length cs) by (apply nth_error_Some; congruence). lia. }
          destruct (Hcg i (child_weight a)) as [Hb _]; [now apply map_nth_error|].
          apply nth_error_nth with (d := 0) in Hk'. rewrite Hk' in Hb.
          apply (IH c Hin); auto; [|lia]. eapply fits_mono; [|exact Hf]. now apply union_width_ciu. }
      clear -G. unfold combined. revert G. generalize (map_task_counts (List.length cs) m'). induction qs as [|q qs IHq]; intros ks G.
      - exists []. reflexivity.
      - destruct ks as [|k ks]; [exists []; reflexivity|]. destruct (G 0 q k eq_refl eq_refl) as (q' & E).
        destruct (IHq ks) as (qs' & E'); [intros i; exact (G (S i))|]. exists (q' :: qs'). cbn. rewrite E. cbn [bind].
        unfold seqM in E'. rewrite E'. reflexivity. }
    destruct G as (qs' & ->). cbn [bind]. eauto.
Qed.

Lemma not_ranges p n q : ready p -> by_ranges p = false -> planned cfg Q p n q -> by_ranges q = false.
Proof using Hleaf.
  destruct p as [k [|c cs]|w m [|c cs]|].
  - intros _ H Hp. cbn in Hp. unfold scaled in Hp. destruct (scale_up_leaf cfg (Node k []) n) as [r|] eqn:E; [|now subst q].
    subst r. destruct (Hleaf _ _ _ E) as (l & ->). reflexivity.
  - intros _ H Hp. apply planned_node in Hp as (qs & -> & _); [|discriminate]. exact H.
  - intros [H _]. congruence.
  - intros _ _ Hp. apply planned_ciu in Hp as (w' & m' & qs & -> & _); [reflexivity|discriminate].
  - intros [].
Qed.

Lemma scales_ok (q : tree) f : by_ranges q = false -> exists p, scale_partitioning (tpartitioning q) f = Ok p.
Proof. destruct q as [[| [] | | | | |]|w m cs|b p qi n ts i]; cbn; intros H; eauto; discriminate. Qed.

Lemma positions_total {A B} (f : A -> list nat -> Res B) (P : A -> B -> Prop) at_ : forall l,
  (forall c, In c l -> forall at', exists r, f c at' = Ok r /\ P c r) ->
  forall s, exists rs, seqM (map (fun '(g, i) => g (i :: at_)) (combine (map f l) (seq s (List.length l)))) = Ok rs /\ Forall2 P l rs.
Proof.
  induction l as [|c l IH]; intros H s; [exists []; split; [reflexivity|constructor]|].
  destruct (H c (or_introl eq_refl) (s :: at_)) as (r & E & Hr).
  destruct (IH (fun x Hx => H x (or_intror Hx)) (S s)) as (rs & Es & F).
  exists (r :: rs). split; [|now constructor]. cbn. rewrite E. cbn [bind]. unfold seqM in Es. now rewrite Es.
Qed.

Lemma rs_pos {A} (P : A -> tree * annotation -> Prop) (l : list A) rs :
  Forall2 (fun c r => P c r /\ 1 <= as_usize (snd r)) l rs -> forall r, In r rs -> 1 <= as_usize (snd r).
Proof. induction 1 as [|c r l rs [_ H] F IH]; intros x Hx; [destruct Hx|destruct Hx as [<-|Hx]; auto]. Qed.

Theorem inject_total : forall p at_ par, ready p -> fits most p -> (par = Some true -> by_ranges p = false) ->
  exists r, inject_by cfg (propagate cfg) (fun _ => boundary cfg) at_ par p = Ok r /\ 1 <= as_usize (snd r).
Proof using Hmost Hsane Hleaf Hans Hkeep.
  induction p as [k cs IH|w m cs IH|b0 p0 q0 n0 t0 i0 IH] using tree_ind'; intros at_ par Hr Hf Hpar; [| |destruct Hr].
  all: match type of Hf with fits _ ?p => set (t := p) in * end.
  all: pose proof (ready_local t Hr) as Hnet; pose proof Hr as [Hk Hc]; fold t in Hr; rewrite all_map in Hc; rewrite Forall_forall in IH.
  all: assert (Hkids : exists rs, seqM (map (fun '(f, i) => f (i :: at_))
          (combine (map (fun c at_ => inject_by cfg (propagate cfg) (fun _ => boundary cfg) at_ (Some (is_coalesce t)) c) cs)
             (seq 0 (List.length cs)))) = Ok rs /\
          Forall2 (fun c r => injected cfg most (Some (is_coalesce t)) c r /\ 1 <= as_usize (snd r)) cs rs).
  { apply (positions_total (fun c at_ => inject_by cfg (propagate cfg) (fun _ => boundary cfg) at_ (Some (is_coalesce t)) c)).
    intros c Hin at'.
    assert (Hfc : fits most c) by (eapply fits_mono; [|exact Hf]; now apply union_width_child).
    destruct (IH c Hin at' (Some (is_coalesce t))) as (r & E & P); [auto|exact Hfc| |].
    { intros E. injection E as E. unfold t in E. destruct k; try discriminate E.
      cbn in Hk. destruct cs as [|c1 [|]]; try contradiction. destruct Hin as [<-|[]]. exact Hk. }
    exists r. split; [exact E|]. split; [|exact P]. eapply (inject_by_spec cfg most Hmost Hsane); [| | |exact Hfc|exact E].
    - auto.
    - apply boundary_builds.
    - apply ready_local. auto. }
  2: { apply (positions_total (fun c at_ => inject_by cfg (propagate cfg) (fun _ => boundary cfg) at_ (Some (is_coalesce t)) c)).
    intros c Hin at'.
    assert (Hfc : fits most c) by (eapply fits_mono; [|exact Hf]; now apply union_width_ciu).
    destruct (IH c Hin at' (Some (is_coalesce t))) as (r & E & P); [auto|exact Hfc|discriminate|].
    exists r. split; [exact E|]. split; [|exact P]. eapply (inject_by_spec cfg most Hmost Hsane); [| | |exact Hfc|exact E].
    - auto.
    - apply boundary_builds.
    - apply ready_local. auto. }
  all: destruct Hkids as (rs & Es & Hcs0).
  all: assert (Hcs : Forall2 (injected cfg most (Some (is_coalesce t))) cs rs)
    by (eapply Forall2_impl_in; [|exact Hcs0]; intros c r _ [H _]; exact H).
  all: pose proof (rs_pos _ _ _ Hcs0) as Hpos.
  all: unfold t; cbn [inject_by]; fold t; rewrite Es; cbn [bind]; unfold inject_node.
  all: destruct (proj1 Hans t) as (des & Ed); rewrite Ed; cbn [bind]; rewrite Hmost; cbn [bind].
  all: destruct (node_facts cfg most Hmost Hsane t rs des eq_refl Hf Hcs Ed) as (Hlim & Hmach & Hdr & HrA).
  all: set (count := limit (node_count cfg t des (map snd rs)) most) in *.
  all: assert (HrA' : 1 <= as_usize count).
  { destruct HrA as [?|[]]; assumption. }
  2: { destruct HrA as [?|HrA]; [assumption|]. unfold t in HrA. destruct cs as [|c0 cs0]; [destruct HrA|].
       rewrite HrA. cbn [limit as_usize]. inversion Hcs as [|? r ? rs' Hr1 Hrs']; subst. cbn [map list_sum fold_right].
       pose proof (Hpos r (or_introl eq_refl)). pose proof (most_pos cfg most Hmost). cbn. lia. }
  all: destruct (propagate_total t (rebuild t rs) (as_usize count) Hr Hf) as (q & Eq); [destruct Hlim as (_ & _ & Hl); lia|exact Hdr|].
  all: assert (Hpl : planned cfg Q t (as_usize count) q)
    by (eapply (propagate_planned cfg most Hmost Hsane); eauto; destruct Hlim as (_ & _ & Hl); lia).
  all: destruct (rebuild_children t rs eq_refl) as [Hh Hb]; rewrite Hh, Hb.
  all: assert (Hsmall : (Z.of_nat (as_usize count) < 2 ^ 53)%Z) by (destruct Hlim as (_ & _ & Hl); unfold fits in Hf; nia).
  all: assert (Hsh : exists r, boundary cfg BShuffle (rebuild t rs) count = Ok r /\ 1 <= as_usize (snd r))
    by (unfold boundary; rewrite Eq; cbn [bind]; eexists; split; [reflexivity|]; cbn [snd as_usize]; apply Hkeep; [exact HrA'|exact Hsmall]).
  all: assert (Hbr : exists r, boundary cfg BBroadcast (rebuild t rs) count = Ok r /\ 1 <= as_usize (snd r))
    by (unfold boundary; rewrite Eq; cbn [bind]; eexists; split; [reflexivity|]; cbn [snd as_usize]; apply Hkeep; [exact HrA'|exact Hsmall]).
  all: assert (Hco : by_ranges t = false -> exists r, boundary cfg BCoalesce (rebuild t rs) count = Ok r /\ 1 <= as_usize (snd r))
    by (intros Hng; unfold boundary; rewrite Eq; cbn [bind];
        destruct (scales_ok q (fun p => p * Nat.max (div_ceil (as_usize count) 1) 1) (not_ranges _ _ _ Hr Hng Hpl)) as (p & ->);
        cbn [bind]; eexists; split; [reflexivity|]; cbn; lia).
  all: destruct (is_hash_repart t); [exact Hsh|]; destruct (is_bcast t); [exact Hbr|].
  all: destruct par as [[|]|]; [apply Hco; auto|eexists; split; [reflexivity|exact HrA']|].
  all: rewrite Eq; cbn [bind]; eexists; split; [reflexivity|exact HrA'].
Qed.

(** ** Preparation *)

Lemma planned_parts : forall p n q, ready p -> 1 <= n -> planned cfg Q p n q -> 1 <= tparts q.
Proof using Hans.
  assert (Hchild : forall below c, (forall n q, 1 <= n -> planned cfg Q c n q -> 1 <= tparts q) ->
    forall n q, 1 <= n -> pchild Q below c (planned cfg Q c) n q -> 1 <= tparts q).
  { intros below c IH n q Hn H. unfold pchild in H. destruct (cut below c) as [b|]; [|eauto].
    destruct H as (tasks & i & -> & [Hq _] & Hi). pose proof (IH tasks i ltac:(lia) Hi). cbn [tparts].
    rewrite boundary_partitioning_count. destruct b; try assumption. nia. }
  induction p as [k cs IH|w m cs IH|b0 p0 q0 n0 t0 i0 IH] using tree_ind'; intros n q Hr Hn H; [| |destruct Hr].
  all: destruct Hr as [Hk Hc]; rewrite all_map in Hc; rewrite Forall_forall in IH.
  all: assert (G : forall below c, In c cs -> forall n q, 1 <= n -> pchild Q below c (planned cfg Q c) n q -> 1 <= tparts q)
    by (intros below c Hin; apply Hchild; intros; eapply IH; eauto).
  - destruct cs as [|c0 cs0].
    { destruct (ready_leaf k Hk) as (l & -> & Hl). cbn in H. unfold scaled in H.
      destruct (scale_up_leaf cfg (Node (KLeaf l) []) n) as [r|] eqn:E; [|now subst q].
      subst r. destruct (proj2 Hans l n (Ok q) Hl Hn E) as (q' & E' & P). injection E' as <-. exact P. }
    set (cs := c0 :: cs0) in *. apply planned_node in H as (qs & -> & Hqs); [|discriminate].
    assert (G' : Forall (fun q => 1 <= tparts q) qs).
    { apply Forall_forall. intros q Hin. apply In_nth_error in Hin as (i & Hi). apply Forall2_nth in Hqs as [L Hqs].
      destruct (nth_error cs i) as [c|] eqn:Ec; [exact (G _ c (nth_error_In _ _ Ec) n q Hn (Hqs i c q Ec Hi))|].
      apply nth_error_None in Ec. assert (i < List.length qs) by (apply nth_error_Some; congruence). lia. }
    apply Forall2_len in Hqs.
    destruct k as [l|p|b|spm f| |j x1 x2 x3 x4|o]; unfold cs in *; cbn in Hk.
    + contradiction.
    + destruct cs0; [exact Hk|contradiction].
    + destruct cs0; [|contradiction]. destruct qs as [|q [|]]; try discriminate. inversion G'; subst. cbn. nia.
    + cbn. lia.
    + destruct qs as [|q qs]; [discriminate|]. inversion G'; subst. cbn. lia.
    + destruct cs0 as [|c1 [|]]; try contradiction. destruct qs as [|q [|q1 [|]]]; try discriminate.
      inversion G' as [|? ? P1 G1]; subst. inversion G1 as [|? ? P2 G2]; subst. cbn. destruct j as [[|]| |]; assumption.
    + destruct cs0; [|contradiction]. destruct qs as [|q [|]]; try discriminate. inversion G'; subst. assumption.
  - destruct cs as [|c cs0]; [congruence|]. set (cs := c :: cs0) in *.
    apply planned_ciu in H as (w' & m' & qs & -> & Es & Hg & Lw & HA & L & F); [|discriminate].
    destruct qs as [|d ds]; [discriminate|]. specialize (F 0 c d eq_refl eq_refl).
    destruct (count_of_good w' n m' 0 Es Hg ltac:(rewrite Lw; cbn; lia)) as [E1 E2]. rewrite Lw in E1. rewrite E1 in F.
    destruct w' as [|c0 w']; [discriminate|].
    destruct (ga_exact _ _ _ Hg 0 c0 eq_refl) as (r & Hr1 & _ & Hr3).
    assert (Hd : 1 <= tparts d).
    { eapply (G false c (or_introl eq_refl)); [|exact F]. lia. }
    assert (Hne' : runs_of 0 m' <> []).
    { rewrite Hr3. unfold all_tasks. destruct r; [lia|discriminate]. }
    cbn [tparts].
    assert (G2 : exists sl ctx, In sl m' /\ In (0, ctx) sl).
    { destruct (runs_of 0 m') as [|ctx rest] eqn:Er; [congruence|].
      assert (Hin : In ctx (runs_of 0 m')) by (rewrite Er; now left). exact (runs_in _ _ _ Hin). }
    destruct G2 as (sl & ctx & Hsl & Hin).
    transitivity (slot_parts (map tparts (d :: ds)) sl).
    + unfold slot_parts. transitivity (tparts d); [exact Hd|]. apply sum_in.
      apply in_map_iff. exists (0, ctx). split; [reflexivity|exact Hin].
    + apply max_in. apply in_map. exact Hsl.
Qed.

Lemma seqS_total {A} (fs : list (nat -> Res (A * nat))) : (forall f id, In f fs -> exists r, f id = Ok r) ->
  forall id, exists r, seqS fs id = Ok r.
Proof.
  induction fs as [|f fs IH]; intros H id; [eexists; reflexivity|]. cbn.
  destruct (H f id (or_introl eq_refl)) as ([x id1] & ->). cbn [bind].
  destruct (IH (fun g i Hg => H g i (or_intror Hg)) id1) as ([xs id2] & ->). cbn [bind]. eauto.
Qed.

Theorem prepare_total : dynamic_task_count cfg = false -> forall p s q n id, ready p -> 1 <= s -> planned cfg Q p s q ->
  exists r, prepare cfg q n id = Ok r.
Proof using Hleaf Hans.
  intros Hstatic.
  assert (HQ : forall c k, Q c k -> 1 <= k) by (intros c k [H _]; lia).
  assert (Hchild : forall below c, ready c -> (below = true -> by_ranges c = false) ->
    (forall s q n id, 1 <= s -> planned cfg Q c s q -> exists r, prepare cfg q n id = Ok r) ->
    forall s q n id, 1 <= s -> pchild Q below c (planned cfg Q c) s q -> exists r, prepare cfg q n id = Ok r).
  { intros below c Hr Hb IH s q n id Hs H. unfold pchild in H. destruct (cut below c) as [b|] eqn:Ec; [|eauto].
    destruct H as (tasks & i & -> & Hq & Hi). pose proof (HQ _ _ Hq) as Ht.
    cbn [prepare]. destruct (IH tasks i tasks id Ht Hi) as ([i' id1] & E). rewrite E. cbn [bind].
    destruct ((n =? 1) && (tasks =? 1)); [eauto|].
    destruct (prepare_deployed cfg Q HQ Hleaf Hstatic c tasks i tasks id i' id1 Hi E) as (_ & Et & Ep).
    assert (Hc : match b with BShuffle => is_hash_repart c = true | BBroadcast => is_bcast c = true
                 | BCoalesce => by_ranges c = false end).
    { unfold cut in Ec. destruct (is_hash_repart c) eqn:E1; [injection Ec as <-; reflexivity|].
      destruct (is_bcast c) eqn:E2; [injection Ec as <-; reflexivity|].
      destruct below; [|discriminate]. injection Ec as <-. auto. }
    destruct b.
    - destruct c as [[|[|h k| |]| | | | |] cs| |]; try discriminate Hc.
      destruct Hr as [Hk _]. cbn in Hk. destruct cs as [|c0 [|]]; try contradiction.
      apply planned_node in Hi as (qs & -> & _); [|discriminate]. cbn. eauto.
    - destruct c as [[| |k| | | |] cs| |]; try discriminate Hc.
      destruct Hr as [Hk Hrc]. cbn in Hk. destruct cs as [|c0 [|]]; try contradiction.
      pose proof Hi as Hi0. apply planned_node in Hi as (qs & -> & F); [|discriminate].
      assert (P : 1 <= tparts (Node (KBcast k) qs)).
      { eapply planned_parts; [|exact Ht|exact Hi0]. split; [exact Hk|exact Hrc]. }
      cbn [prepare] in E. destruct (seqS _ id) as [[ds id2]| |]; cbn [bind] in E; try discriminate. injection E as <- <-.
      rewrite <- Et in P. cbn [tparts] in P. cbn [producer_head_of bind]. unfold insert_head_node.
      assert (Z : tparts (strip (Node (KBcast k) ds)) =? 0 = false).
      { apply Nat.eqb_neq. destruct ds as [|d [|d2 ds]]; cbn [strip map nth] in *; cbn [tparts map nth] in *; nia. }
      rewrite Z. cbn [bind restage]. eauto.
    - pose proof (not_ranges c tasks i Hr Hc Hi) as Hng. cbn [producer_head_of bind insert_head_node restage].
      cbn [boundary_partitioning].
      assert (E2 : exists p, scale_partitioning match tpartitioning i with
          | RoundRobin n => RoundRobin (n * tasks) | HashP h n => HashP h (n * tasks)
          | RangeP n => RangeP (n * tasks) | UnknownP n => UnknownP (n * tasks) end (fun p => p * tasks / Nat.max tasks 1) = Ok p).
      { destruct (scales_ok i (fun p => p) Hng) as (p & Es). destruct (tpartitioning i); cbn in *; try discriminate; eauto. }
      destruct E2 as (p & ->). cbn [bind]. eauto. }
  induction p as [k cs IH|w m cs IH|b0 p0 q0 n0 t0 i0 IH] using tree_ind'; intros s q n id Hr Hs H; [| |destruct Hr].
  all: pose proof Hr as [Hk Hc]; rewrite all_map in Hc; rewrite Forall_forall in IH.
  - destruct cs as [|c0 cs0].
    { cbn in H. destruct (scaled_leaf cfg Hleaf (Node k []) _ _ eq_refl eq_refl H) as [H1 H2].
      rewrite (prepare_local cfg q n id (leaf_local q H1 H2)). eauto. }
    set (cs := c0 :: cs0) in *. apply planned_node in H as (qs & -> & F); [|discriminate].
    cbn [prepare]. destruct (seqS_total (map (fun c => prepare cfg c n) qs)) with (id := id) as ([ds id1] & ->); [|cbn [bind]; eauto].
    intros f id' Hin. apply in_map_iff in Hin as (q & <- & Hin). apply In_nth_error in Hin as (i & Hi). apply Forall2_nth in F as [L F].
    destruct (nth_error cs i) as [c|] eqn:Ec.
    2: { apply nth_error_None in Ec. assert (i < List.length qs) by (apply nth_error_Some; congruence). lia. }
    pose proof (nth_error_In _ _ Ec) as Hin. eapply (Hchild (is_coalesce (Node k cs)) c); [auto| | |exact Hs|exact (F i c q Ec Hi)].
    + intros E. destruct k; try discriminate E. unfold cs in *. cbn in Hk. destruct cs0; [|contradiction].
      destruct Hin as [<-|[]]. exact Hk.
    + intros. eapply IH; eauto.
  - destruct cs as [|c0 cs0]; [congruence|]. set (cs := c0 :: cs0) in *.
    apply planned_ciu in H as (w' & m' & qs & -> & Es & Hg & Lw & HA & L & F); [|discriminate].
    cbn [prepare]. fold (combined (prepare cfg) qs (map_task_counts (List.length qs) m')).
    destruct (seqS_total (combined (prepare cfg) qs (map_task_counts (List.length qs) m'))) with (id := id) as ([ds id1] & ->); [|cbn [bind]; eauto].
    intros f id' Hin.
    assert (Hpos : forall i, i < List.length cs -> 1 <= nth i (map_task_counts (List.length cs) m') 0).
    { intros i Hi. destruct (count_of_good w' s m' i Es Hg) as [E1 E2]; [lia|]. rewrite Lw in E1. rewrite E1. lia. }
    unfold combined in Hin. apply in_map_iff in Hin as ([g k] & <- & Hin). apply In_nth_error in Hin as (i & Hi).
    assert (Hg' : exists q, nth_error qs i = Some q /\ g = prepare cfg q /\ nth_error (map_task_counts (List.length qs) m') i = Some k).
    { clear -Hi. revert Hi. generalize (map_task_counts (List.length qs) m') i. clear. induction qs as [|q qs IH]; intros ks [|i] H; cbn in H; try discriminate.
      - destruct ks; [discriminate|]. cbn in H. injection H as <- <-. exists q. auto.
      - destruct ks; [destruct i; discriminate|]. cbn in H. exact (IH ks i H). }
    destruct Hg' as (q & Hq & -> & Hk').
    destruct (nth_error cs i) as [c|] eqn:Ec.
    2: { apply nth_error_None in Ec. assert (i < List.length qs) by (apply nth_error_Some; congruence). lia. }
    pose proof (nth_error_In _ _ Ec) as Hin.
    eapply (Hchild false c); [auto|discriminate| | |exact (F i c q Ec Hq)].
    + intros. eapply IH; eauto.
    + apply Hpos. apply nth_error_Some. congruence.
Qed.

(** ** The planner *)

Theorem distribute_total (t : tree) : 0 < target_partitions cfg -> regular t -> by_ranges t = false -> fits most t ->
  exists r, distribute cfg t = Ok r.
Proof using Hmost Hsane Hleaf Hans Hkeep.
  intros Htp Hr Hb Hf. unfold distribute. rewrite (regular_ordinary t Hr).
  destruct (before_total cfg Htp most t Hr Hb (most_pos cfg most Hmost) Hf) as (p & -> & Rp & Np & Fp). cbn [bind].
  destruct (dynamic_task_count cfg) eqn:Edyn; [eauto|].
  unfold inject_and_prepare, inject. destruct (inject_total p [] None Rp Fp) as ([q a] & E & Ha); [discriminate|].
  rewrite E. cbn [bind fst]. cbn [snd] in Ha.
  pose proof (inject_spec cfg most Hmost Hsane p None (q, a) Np Fp E) as [_ HI]. cbn in HI.
  assert (G : exists r, prepare cfg q 1 1 = Ok r).
  { destruct (cut false p) as [b|] eqn:Ec.
    - destruct HI as ((tasks & i & -> & HQ & Hi) & _).
      assert (Ht : 1 <= tasks) by (destruct HQ; lia).
      destruct (prepare_total Edyn (Node KUnion [p]) 1 (Node KUnion [Net b (boundary_partitioning b i tasks) 0 0 tasks i]) 1 1) as (r & Er).
      + split; [exact Logic.I|]. repeat constructor. exact Rp.
      + lia.
      + apply planned_node; [discriminate|]. exists [Net b (boundary_partitioning b i tasks) 0 0 tasks i]. split; [reflexivity|].
        constructor; [|constructor]. unfold pchild. cbn [is_coalesce]. rewrite Ec. exists tasks, i. auto.
      + cbn [prepare map seqS] in Er. cbn [prepare].
        match goal with |- exists r, ?X = Ok r => destruct X; [eauto|discriminate|discriminate] end.
    - destruct HI as (_ & HQ & Hi). eapply prepare_total; eauto. }
  destruct G as ([d id] & ->). cbn [bind fst]. destruct (negb (has_net d)); [eauto|].
  unfold after_prepare. destruct (push_fetch_total (if partial_reduce cfg then reduce_shuffles d else d)) as (d' & ->). cbn [bind]. eauto.
Qed.
End Inject.
