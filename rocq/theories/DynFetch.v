(** Proofs: limits in plans whose task counts are chosen while the query runs. *)
From Verif Require Import Base NetModel NetSpec NetProofs CiuModel EventsModel JoinModel JoinSpec PlannerModel PlannerSpec PlannerProofs
  ExecModel ExecSpec ExecProofs ExecPasses ExecEnd FetchSpec FetchProofs FetchEnd FetchSort DynModel DynSpec DynProofs DynProps.
From Coq Require Import Sorting.Sorted NArith.

Section DynLimits.
Context {row : Type}.
Notation tree := (tree row).
Notation table := (nat -> nat -> list row).
Variable cfg : settings row.
Variable bytes : N.
Variable most : nat.
Notation Q := (within_limits cfg most).
Hypothesis Hmost : max_tasks cfg = Ok most.
Hypothesis Hdyn : dynamic_task_count cfg = true.
Hypothesis Htarget : 0 < target_partitions cfg.
Hypothesis Hsane : sane_handlers cfg.
Hypothesis Hleaf : leaf_handlers cfg.
Hypothesis Hignore : ignores_boundaries cfg.

Lemma running_limit ks spm need (t0 p d : tree) D obs num : limits ks ->
  typed false (Node (KCoalesce spm None) [t0]) (@Permutation row) D -> ordinary t0 -> fed t0 -> spreadable t0 ->
  every_scan (faithful_scan cfg most) t0 -> fits most (nest ks (Node (KCoalesce spm need) [t0])) ->
  distribute cfg (nest ks (Node (KCoalesce spm need) [t0])) = Ok (TDistributed p) ->
  dynamic_plan cfg bytes obs num p = Ok d ->
  exists x, d = nest ks (Node (KCoalesce spm need) [x]) /\
    forall g, runs false x 1 g -> Permutation (all_rows x 1 g) (meaning t0).
Proof using Hmost Hdyn Htarget Hsane Hleaf Hignore.
  intros Hks Ht Ho Hf Hsp Hs Hfits H Hd.
  set (k := KCoalesce spm need) in *. assert (Hop : ordinary (nest ks (Node k [t0]))).
  { apply (nest_ordinary (ks ++ [k]) t0) in Ho; [now rewrite nest_app in Ho|]. apply (limits_tops ks spm need Hks). }
  destruct (distribute_dynamic cfg most Hdyn _ p (ordinary_no_net _ Hop) Hfits H) as (Hp' & Np & Fp).
  change (nest ks (Node k [t0])) with (nest ks (nest [k] t0)) in Hp'. rewrite <- nest_app in Hp'.
  apply before_nest in Hp' as (p0 & -> & Hb); [|now apply limits_tops].
  assert (Hp1 : before_injection cfg (Node (KCoalesce spm None) [t0]) = Ok (Node (KCoalesce spm None) [p0])).
  { apply (Hb [KCoalesce spm None]). split; [repeat constructor|]. intros x. cbn. lia. }
  set (t1 := Node (KCoalesce spm None) [t0]) in *. set (p1 := Node (KCoalesce spm None) [p0]) in *.
  assert (Ho1 : ordinary t1) by now repeat constructor.
  assert (Hf1 : fed t1) by (split; [exact Logic.I|now repeat constructor]).
  assert (Hsp1 : spreadable t1) by (split; [exact Logic.I|now repeat constructor]).
  assert (Hs1 : every_scan (faithful_scan cfg most) t1) by now repeat constructor.
  destruct (before_keeps cfg false Htarget (faithful_scan cfg most) t1 p1 D Ht Ho1 Hf1 eq_refl Hp1) as ((D' & T) & M & F2 & S).
  pose proof (spreadable_placed cfg most false t1 p1 D Htarget Ht Ho1 Hf1 eq_refl Hsp1 Hp1) as Hpl.
  apply placed_of in Hpl; [|exact F2]. pose proof (placed_node _ _ _ _ _ Hpl p0 (or_introl eq_refl)) as Hpl0.
  assert (Hc : cut true p0 <> None) by (unfold cut; destruct (is_hash_repart p0), (is_bcast p0); discriminate).
  assert (Hpl1 : placed cfg most false p0).
  { change (is_coalesce (Node (KCoalesce spm None) [p0])) with true in Hpl0. destruct (cut true p0); [exact Hpl0|contradiction]. }
  clear Hpl Hpl0 Hc.
  apply typed_coalesce_inv in T as (_ & Hrr & E0 & D0 & T & _ & HE).
  assert (Hs0 : every_scan (faithful_scan cfg most) p0).
  { specialize (S Hs1). refine (scans_node _ (KCoalesce spm None) [p0] ltac:(discriminate) S p0 (or_introl eq_refl)). }
  destruct (dynamic_deployed cfg bytes most Hmost Hdyn Hsane Hleaf Hignore obs num _ d Np Fp Hd) as (s & _ & HD).
  rewrite nest_app in HD. cbn [nest] in HD. apply limits_deployed in HD as (d0 & -> & HD); [|exact Hks].
  exists d0. split; [reflexivity|]. intros g Hg.
  pose proof (gathered_rows cfg most Htarget false p0 d0 E0 D0 s g T Hrr Hpl1 Hs0 HD Hg) as Hrows. apply HE in Hrows.
  change (Permutation (all_rows d0 1 g) (meaning p0)) in Hrows. rewrite Hrows.
  cbn in M. now rewrite !app_nil_r in M.
Qed.

Variable le : row -> row -> Prop.
Hypothesis total : forall a b, le a b \/ le b a.
Hypothesis trans : forall a b c, le a b -> le b c -> le a c.

Lemma running_sort_limit ks s need fetch (t0 p d : tree) D obs num f :
  limits ks -> (forall l, Permutation (s l) l /\ StronglySorted le (s l)) -> keeps fetch need ->
  typed false t0 (@Permutation row) D -> ordinary t0 -> fed t0 -> spreadable t0 ->
  every_scan (faithful_scan cfg most) t0 -> fits most (nest ks (Node (KCoalesce (Some le) need) [Node (KOp (OSort s fetch)) [t0]])) ->
  distribute cfg (nest ks (Node (KCoalesce (Some le) need) [Node (KOp (OSort s fetch)) [t0]])) = Ok (TDistributed p) ->
  dynamic_plan cfg bytes obs num p = Ok d -> ordered false d 1 f ->
  exists l, Permutation l (meaning t0) /\ StronglySorted le l /\
    f 0 0 = match ks with KOp (OGlobalLimit skip lim) :: _ => limit_to lim (skipn skip (limit_to need l)) | _ => limit_to need l end.
Proof using Hmost Hdyn Htarget Hsane Hleaf Hignore total trans.
  intros Hks Hsort Hk Ht0 Ho Hf Hsp Hs Hfits H Hd Hrun.
  set (k := KCoalesce (Some le) need) in *. set (ko := KOp (OSort s fetch)) in *.
  assert (Hkt : Forall top_kind (ks ++ [k; ko])).
  { apply Forall_app. split; [destruct Hks as [->|(? & ? & ->)]; repeat constructor|repeat constructor]. }
  assert (Htop : tops (ks ++ [k; ko])).
  { split; [exact Hkt|]. intros x. destruct Hks as [->|(? & ? & ->)]; cbn; lia. }
  assert (Hop : ordinary (nest ks (Node k [Node ko [t0]]))).
  { pose proof (nest_ordinary (ks ++ [k; ko]) t0 Hkt Ho) as X. now rewrite nest_app in X. }
  destruct (distribute_dynamic cfg most Hdyn _ p (ordinary_no_net _ Hop) Hfits H) as (Hp' & Np & Fp).
  change (nest ks (Node k [Node ko [t0]])) with (nest ks (nest [k; ko] t0)) in Hp'. rewrite <- nest_app in Hp'.
  apply before_nest in Hp' as (p0 & -> & Hb); [|exact Htop].
  set (ks1 := [KCoalesce (Some le) None; KOp (OSort s None)]).
  assert (Hp1 : before_injection cfg (nest ks1 t0) = Ok (nest ks1 p0)).
  { apply Hb. split; [repeat constructor|]. intros x. cbn. lia. }
  assert (Ht : typed false (nest ks1 t0) (@Permutation row) Anyhow).
  { eapply ty_coalesce; [|reflexivity]. eapply ty_distributive with (D' := Anyhow); [exact Ht0|reflexivity|apply perm_additive|exact Logic.I| |exact Logic.I].
    cbn. split; [|split].
    - intros x y Hxy. now rewrite (proj1 (Hsort x)), (proj1 (Hsort y)).
    - apply Hsort.
    - intros x y. now rewrite (proj1 (Hsort (x ++ y))), (proj1 (Hsort x)), (proj1 (Hsort y)). }
  assert (Ho1 : ordinary (nest ks1 t0)) by (apply nest_ordinary; [repeat constructor|exact Ho]).
  assert (Hf1 : fed (nest ks1 t0)) by (split; [exact Logic.I|]; repeat constructor; try exact Hf; discriminate).
  assert (Hsp1 : spreadable (nest ks1 t0)) by (repeat (split; [exact Logic.I||reflexivity|]; repeat constructor); exact Hsp).
  assert (Hs1 : every_scan (faithful_scan cfg most) (nest ks1 t0)) by now repeat constructor.
  destruct (before_keeps cfg false Htarget (faithful_scan cfg most) _ _ _ Ht Ho1 Hf1 eq_refl Hp1) as ((D' & T) & M & F2 & S).
  pose proof (spreadable_placed cfg most false _ _ _ Htarget Ht Ho1 Hf1 eq_refl Hsp1 Hp1) as Hpl.
  apply placed_of in Hpl; [|exact F2]. pose proof (placed_node _ _ _ _ _ Hpl _ (or_introl eq_refl)) as Hpl0.
  change (placed cfg most false (Node (KOp (OSort s None)) [p0])) in Hpl0.
  pose proof (placed_node _ _ _ _ _ Hpl0 _ (or_introl eq_refl)) as Hpl1.
  assert (Hplaced : placed cfg most false p0) by (destruct (cut _ p0); exact Hpl1). clear Hpl Hpl0 Hpl1.
  apply typed_coalesce_inv in T as (_ & _ & E1 & D1 & T & _ & HE1).
  destruct (typed_sort_inv _ _ _ _ _ T (fun l => proj1 (Hsort l)) HE1) as (E0 & D0 & T0 & HE0).
  assert (Hs0 : every_scan (faithful_scan cfg most) p0).
  { specialize (S Hs1). pose proof (scans_node _ (KCoalesce (Some le) None) [nest [KOp (OSort s None)] p0] ltac:(discriminate) S _ (or_introl eq_refl)) as S'.
    exact (scans_node _ (KOp (OSort s None)) [p0] ltac:(discriminate) S' _ (or_introl eq_refl)). }
  assert (Hm : Permutation (meaning p0) (meaning t0)).
  { change (Permutation (s (meaning p0 ++ []) ++ []) (s (meaning t0 ++ []) ++ [])) in M || change (Permutation (s (meaning p0) ++ []) (s (meaning t0) ++ [])) in M.
    rewrite !app_nil_r in M. now rewrite !(proj1 (Hsort _)) in M. }
  destruct (dynamic_deployed cfg bytes most Hmost Hdyn Hsane Hleaf Hignore obs num _ d Np Fp Hd) as (sc & _ & HD).
  rewrite nest_app in HD. cbn [nest] in HD. apply limits_deployed in HD as (dc & -> & HD); [|exact Hks].
  destruct (sort_deployed cfg most Htarget Hleaf false s fetch p0 dc E0 D0 _ T0 HE0 Hplaced Hs0 (typed_no_fetch _ _ _ _ T0) HD)
    as (x & tasks & Hx & Hnx & Htasks & Hrows & Hshape).
  change (red false dc) with dc in Hshape.
  assert (Fin : forall g, ordered false (Node k [dc]) 1 g ->
    exists l, Permutation l (meaning t0) /\ StronglySorted le l /\ g 0 0 = limit_to need l).
  { intros g (g1 & Hg1 & Hg). destruct (proj2 Hg 0 ltac:(lia)) as (l' & Hl' & Eg).
    destruct (merge_stage le cfg most Htarget total trans false s need fetch x dc tasks g1 l' Hsort Hk Htasks Hshape Hg1 Hl') as (h & l & Hh & Hl1 & Hl2 & Hl3).
    exists l. split; [|split; [exact Hl2|now rewrite Eg, Hl3]]. now rewrite Hl1, (Hrows h Hh), Hm. }
  destruct Hks as [->|(skip & lim & ->)]; cbn [nest] in Hrun.
  - exact (Fin f Hrun).
  - destruct Hrun as (g & Hg & Hfg). destruct (Fin g Hg) as (l & H1 & H2 & H3). exists l. split; [exact H1|]. split; [exact H2|].
    rewrite (Hfg 0 0); [|lia|cbn; lia]. now rewrite H3.
Qed.

End DynLimits.
