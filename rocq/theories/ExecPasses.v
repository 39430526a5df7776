(** Proofs: the planner's passes before injection keep the meaning of a plan and its typing. *)
From Verif Require Import Base NetModel NetSpec NetProofs CiuModel CiuSpec EventsModel JoinModel JoinSpec
  JoinProofs PlannerModel PlannerSpec PlannerProofs ExecModel ExecSpec ExecProofs.

Section Trees.
Context {row : Type}.
Notation tree := (tree row).

Lemma scans_intro (P : leaf_node row -> Prop) k (cs : list tree) : cs <> [] -> (forall c, In c cs -> every_scan P c) -> every_scan P (Node k cs).
Proof.
  intros Hne H. assert (HF : Forall (fun P => P) (map (every_scan P) cs)).
  { apply Forall_map, Forall_forall. exact H. }
  destruct k; cbn [every_scan]; auto. destruct cs; [congruence|exact HF].
Qed.

Lemma ordinary_node k (cs : list tree) : ordinary (Node k cs) -> forall c, In c cs -> ordinary c.
Proof.
  intros H c Hc. assert (HF : Forall (fun P => P) (map ordinary cs)) by (destruct k; cbn in H; tauto).
  rewrite Forall_map, Forall_forall in HF. auto.
Qed.
Lemma ordinary_intro k (cs : list tree) : match k with KBcast _ => False | _ => True end ->
  (forall c, In c cs -> ordinary c) -> ordinary (Node k cs).
Proof.
  intros Hk H. assert (HF : Forall (fun P => P) (map ordinary cs)) by (apply Forall_map, Forall_forall; exact H).
  destruct k; cbn; tauto.
Qed.
Lemma fed_node k (cs : list tree) : fed (Node k cs) -> forall c, In c cs -> fed c.
Proof. intros [_ H] c Hc. rewrite Forall_map, Forall_forall in H. auto. Qed.
End Trees.

Section Passes.
Context {row : Type}.
Notation tree := (tree row).
Notation table := (nat -> nat -> list row).
Variable cfg : settings row.
Variable pr : bool.
Hypothesis Htarget : 0 < target_partitions cfg.

(** ** Joins between the passes *)

(** After normalization. *)
Fixpoint fed1 (t : tree) : Prop :=
  match t with
  | Node k cs =>
      match k, cs with
      | KOp _, [c] => needs_whole_input k = true -> one_part c
      | KJoin j _ _ _ _, [l; _] => collects j = true ->
          one_part l \/ broadcast_joins cfg = true /\ can_broadcast_left_input j = true
      | _, _ => True
      end /\ Forall (fun P => P) (map fed1 cs)
  | Ciu _ _ cs => Forall (fun P => P) (map fed1 cs)
  | Net _ _ _ _ _ _ => True
  end.

(** After the insertion of broadcasts. *)
Fixpoint fed2 (t : tree) : Prop :=
  match t with
  | Node k cs =>
      match k, cs with
      | KOp _, [c] => needs_whole_input k = true -> one_part c
      | KJoin j _ _ _ _, [l; _] => collects j = true ->
          (exists x, l = Node (KCoalesce None None) [Node (KBcast 1) [x]]) /\
            (spreads j = true \/ single_task_join (broadcast_joins cfg) j = true) \/
          one_part l /\ single_task_join (broadcast_joins cfg) j = true
      | _, _ => True
      end /\ Forall (fun P => P) (map fed2 cs)
  | Ciu _ _ cs => Forall (fun P => P) (map fed2 cs)
  | Net _ _ _ _ _ _ => True
  end.

Lemma Forall_id (Ps : list Prop) : Forall (fun P => P) Ps <-> forall P, In P Ps -> P.
Proof. apply Forall_forall. Qed.

Lemma one_part_tparts (t : tree) E D : typed pr t E D -> one_part t -> tparts t = 1.
Proof.
  induction 1; cbn; intros Ho; auto; try tauto.
  destruct j as [[]| |]; try discriminate; auto.
Qed.

Lemma typed_weaken_any (t : tree) E D : typed pr t E D -> typed pr t E Anyhow.
Proof. intros H. refine (ty_weaken pr t E E D Anyhow H (typed_additive _ _ _ _ H) _ (or_intror eq_refl)). auto. Qed.

(** ** normalize_collect_joins.rs *)

Variable P : leaf_node row -> Prop.

Definition keeps (t t' : tree) (E : list row -> list row -> Prop) D : Prop :=
  typed pr t' E D /\ E (meaning t') (meaning t) /\ (one_part t -> one_part t') /\
  is_round_robin t' = is_round_robin t /\ (every_scan P t -> every_scan P t').

Definition normal (t t' : tree) E D : Prop := keeps t t' E D /\ fed1 t' /\ ordinary t'.

Lemma keeps_weaken (t t' : tree) (E E' : list row -> list row -> Prop) D D' : keeps t t' E D -> additive E' ->
  (forall a b, E a b -> E' a b) -> D' = D \/ D' = Anyhow -> keeps t t' E' D'.
Proof.
  intros (H1 & H2 & H3 & H4 & H5) Ha He HD. split; [eapply ty_weaken; eauto|]. split; [auto|]. auto.
Qed.

Lemma fed1_node k (cs : list tree) : fed1 (Node k cs) -> forall c, In c cs -> fed1 c.
Proof. intros [_ H] c Hc. rewrite Forall_map, Forall_forall in H. auto. Qed.

Lemma one_part_typed (t : tree) E D : typed pr t E D -> one_part t -> tparts t = 1.
Proof. apply one_part_tparts. Qed.

Lemma unwrapped_keeps l l0 l' D : unwrapped l l0 -> normalize cfg l0 = Ok l' ->
  (forall l'', normalize cfg l = Ok l'' -> normal l l'' (@Permutation row) D) ->
  typed pr l' (@Permutation row) Anyhow /\ Permutation (meaning l') (meaning l) /\ fed1 l' /\ ordinary l' /\
  (every_scan P l -> every_scan P l').
Proof.
  intros Hu Hn IH. destruct Hu as [->| ->].
  - destruct (IH l' Hn) as ((H1 & H2 & H3 & H4 & H5) & H6 & H7). eapply typed_weaken_any in H1. auto.
  - destruct (IH (Node (KCoalesce None None) [l'])) as ((H1 & H2 & H3 & H4 & H5) & H6 & H7).
    { cbn. now rewrite Hn. }
    apply typed_coalesce_inv in H1 as (_ & _ & E0 & D0 & Ht & Ha & He).
    split; [exact (ty_weaken pr l' E0 _ D0 Anyhow Ht perm_additive He (or_intror eq_refl))|].
    split; [cbn in H2 |- *; rewrite !app_nil_r in H2; rewrite !app_nil_r; exact H2|].
    split; [exact (fed1_node _ _ H6 l' (or_introl eq_refl))|].
    split; [exact (ordinary_node _ _ H7 l' (or_introl eq_refl))|].
    intros Hs. refine (scans_node P (KCoalesce None None) [l'] ltac:(discriminate) (H5 _) l' (or_introl eq_refl)). exact Hs.
Qed.

Lemma normalize_unary k (c : tree) t' : (forall j a hl hr na, k <> KJoin j a hl hr na) ->
  normalize cfg (Node k [c]) = Ok t' -> exists c', t' = Node k [c'] /\ normalize cfg c = Ok c'.
Proof.
  intros Hk H. apply normalize_node in H as [(cs' & -> & F)|[H|H]].
  - apply Forall2_one in F as (c' & -> & F). eauto.
  - destruct H as (m & a & ty & c0 & hl & hr & na & l & r & _ & _ & _ & -> & _). destruct (Hk (HashJoin m a ty) c0 hl hr na eq_refl).
  - destruct H as (ty & c0 & hl & hr & na & l & r & _ & _ & _ & -> & _). destruct (Hk (NestedLoop ty) c0 hl hr na eq_refl).
Qed.

Lemma normalize_keeps (t : tree) E D : typed pr t E D -> forall t', ordinary t -> fed t -> normalize cfg t = Ok t' ->
  normal t t' E D.
Proof.
  induction 1 as [l|h k c E D Hk Hc IH|k c E D Hk Hc IH|spm c E D Hc IH Hr|cs E Hne Ha Hc IH|w m cs E Hne Ha Hc IH
    |o c E E' D D' Hc IH Ho Ha Hre Hd Hcar|o c h k E E' D' Hc IH Ho Ha Hre Hd Hcar|o c E E' D Hc IH Ho Ha Hre Hw Hd
    |a ty c hl hr na k l r D' Hl IHl Hr IHr Hk HD|j c hl hr na l x r Dl Dr D' Hx IHx Hr IHr Hb Hj Hk Hna HD
    |p E E' D D' Hp IH Ha He HD]; intros t' Hord Hfed Hn.
  - injection Hn as <-. split; [|split; [split; [exact Logic.I|constructor]|exact Hord]]. split; [constructor|]. repeat split; auto.
  - apply normalize_unary in Hn as (c' & -> & Hn); [|discriminate].
    destruct (IH c' (ordinary_node _ _ Hord c (or_introl eq_refl)) (fed_node _ _ Hfed c (or_introl eq_refl)) Hn) as ((H1 & H2 & H3 & H4 & H5) & H6 & H7).
    split; [|split; [split; [exact Logic.I|now repeat constructor]|now repeat constructor]].
    split; [econstructor; eauto|]. split; [cbn; now rewrite !app_nil_r|]. split; [auto|]. split; [reflexivity|].
    intros Hs. apply scans_intro; [discriminate|]. intros ? [<-|[]]. apply H5.
    exact (scans_node _ _ [c] ltac:(discriminate) Hs c (or_introl eq_refl)).
  - apply normalize_unary in Hn as (c' & -> & Hn); [|discriminate].
    destruct (IH c' (ordinary_node _ _ Hord c (or_introl eq_refl)) (fed_node _ _ Hfed c (or_introl eq_refl)) Hn) as ((H1 & H2 & H3 & H4 & H5) & H6 & H7).
    split; [|split; [split; [exact Logic.I|now repeat constructor]|now repeat constructor]].
    split; [econstructor; eauto|]. split; [cbn; now rewrite !app_nil_r|]. split; [auto|]. split; [reflexivity|].
    intros Hs. apply scans_intro; [discriminate|]. intros ? [<-|[]]. apply H5.
    exact (scans_node _ _ [c] ltac:(discriminate) Hs c (or_introl eq_refl)).
  - apply normalize_unary in Hn as (c' & -> & Hn); [|discriminate].
    destruct (IH c' (ordinary_node _ _ Hord c (or_introl eq_refl)) (fed_node _ _ Hfed c (or_introl eq_refl)) Hn) as ((H1 & H2 & H3 & H4 & H5) & H6 & H7).
    split; [|split; [split; [exact Logic.I|now repeat constructor]|now repeat constructor]].
    split; [econstructor; eauto; congruence|]. split; [cbn; now rewrite !app_nil_r|]. split; [auto|]. split; [reflexivity|].
    intros Hs. apply scans_intro; [discriminate|]. intros ? [<-|[]]. apply H5.
    exact (scans_node _ _ [c] ltac:(discriminate) Hs c (or_introl eq_refl)).
  - apply normalize_node in Hn as [(cs' & -> & F)|[Hn|Hn]];
      [|destruct Hn as (? & ? & ? & ? & ? & ? & ? & ? & ? & ? & ? & ? & Hn & _); discriminate
       |destruct Hn as (? & ? & ? & ? & ? & ? & ? & ? & ? & ? & Hn & _); discriminate].
    assert (F' : Forall2 (fun c c' => normal c c' E Anyhow) cs cs').
    { eapply Forall2_impl_in; [|exact F]. intros c c' Hin Hc'. apply IH; auto; [eapply ordinary_node; eauto|eapply fed_node; eauto]. }
    assert (Hcs' : forall c', In c' cs' -> exists c, In c cs /\ normal c c' E Anyhow).
    { intros c' Hin. apply In_nth_error in Hin as (i & Hi'). apply Forall2_nth in F' as [L F'].
      destruct (nth_error cs i) as [c|] eqn:Ec; [exists c; split; [eapply nth_error_In; eauto|eapply F'; eauto]|].
      apply nth_error_None in Ec. assert (i < List.length cs') by (apply nth_error_Some; congruence). lia. }
    assert (Hne' : cs' <> []) by (destruct cs; [congruence|]; inversion F; discriminate).
    split; [|split].
    + split; [apply ty_union; auto; intros c' Hin; destruct (Hcs' c' Hin) as (c & _ & (H1 & _) & _); exact H1|].
      split; [|split; [cbn; tauto|split; [reflexivity|]]].
      * change (E (List.concat (map meaning cs')) (List.concat (map meaning cs))). clear -F' Ha.
        induction F' as [|c c' cs cs' Hc F IHF]; cbn; [now apply add_refl|].
        apply (add_app E Ha); [apply Hc|exact IHF].
      * intros Hs. apply scans_intro; [exact Hne'|]. intros c' Hin. destruct (Hcs' c' Hin) as (c & Hin' & (_ & _ & _ & _ & H5) & _).
        apply H5. exact (scans_node _ _ _ Hne Hs c Hin').
    + split; [exact Logic.I|]. apply Forall_map, Forall_forall. intros c' Hin. destruct (Hcs' c' Hin) as (c & _ & _ & H6 & _). exact H6.
    + apply ordinary_intro; [exact Logic.I|]. intros c' Hin. destruct (Hcs' c' Hin) as (c & _ & _ & _ & H7). exact H7.
  - destruct Hord.
  - apply normalize_unary in Hn as (c' & -> & Hn); [|discriminate].
    destruct (IH c' (ordinary_node _ _ Hord c (or_introl eq_refl)) (fed_node _ _ Hfed c (or_introl eq_refl)) Hn) as ((H1 & H2 & H3 & H4 & H5) & H6 & H7).
    split; [|split; [split; [intros Hw; apply H3; apply Hfed; exact Hw|now repeat constructor]|now repeat constructor]].
    split; [eapply ty_distributive; eauto|]. split; [cbn [meaning map]; now apply Hd|]. split; [auto|]. split; [reflexivity|].
    intros Hs. apply scans_intro; [discriminate|]. intros ? [<-|[]]. apply H5.
    exact (scans_node _ _ [c] ltac:(discriminate) Hs c (or_introl eq_refl)).
  - apply normalize_unary in Hn as (c' & -> & Hn); [|discriminate].
    destruct (IH c' (ordinary_node _ _ Hord c (or_introl eq_refl)) (fed_node _ _ Hfed c (or_introl eq_refl)) Hn) as ((H1 & H2 & H3 & H4 & H5) & H6 & H7).
    split; [|split; [split; [intros Hw; apply H3; apply Hfed; exact Hw|now repeat constructor]|now repeat constructor]].
    split; [eapply ty_keyed; eauto|]. split; [cbn [meaning map]; now apply Hd|]. split; [auto|]. split; [reflexivity|].
    intros Hs. apply scans_intro; [discriminate|]. intros ? [<-|[]]. apply H5.
    exact (scans_node _ _ [c] ltac:(discriminate) Hs c (or_introl eq_refl)).
  - apply normalize_unary in Hn as (c' & -> & Hn); [|discriminate].
    destruct (IH c' (ordinary_node _ _ Hord c (or_introl eq_refl)) (fed_node _ _ Hfed c (or_introl eq_refl)) Hn) as ((H1 & H2 & H3 & H4 & H5) & H6 & H7).
    split; [|split; [split; [intros Hw'; apply H3; apply Hfed; exact Hw'|now repeat constructor]|now repeat constructor]].
    split; [eapply ty_whole; eauto|]. split; [cbn [meaning map]; now apply Hd|]. split; [auto|]. split; [reflexivity|].
    intros Hs. apply scans_intro; [discriminate|]. intros ? [<-|[]]. apply H5.
    exact (scans_node _ _ [c] ltac:(discriminate) Hs c (or_introl eq_refl)).
  - (* partitioned *)
    pose proof (ordinary_node _ _ Hord l (or_introl eq_refl)) as Ol.
    pose proof (ordinary_node _ _ Hord r (or_intror (or_introl eq_refl))) as Or.
    pose proof (fed_node _ _ Hfed l (or_introl eq_refl)) as Fl.
    pose proof (fed_node _ _ Hfed r (or_intror (or_introl eq_refl))) as Fr.
    apply normalize_node in Hn as [(cs' & -> & F)|[Hn|Hn]].
    + apply Forall2_two in F as (l' & r' & -> & F1 & F2).
      destruct (IHl l' Ol Fl F1) as ((H1 & H2 & H3 & H4 & H5) & H6 & H7).
      destruct (IHr r' Or Fr F2) as ((G1 & G2 & G3 & G4 & G5) & G6 & G7).
      split; [|split; [split; [discriminate|now repeat constructor]|now repeat constructor]].
      split; [eapply ty_partitioned; eauto|]. split; [cbn [meaning map join_rows]; now apply join_perm|].
      split; [cbn; auto|]. split; [reflexivity|]. intros Hs. apply scans_intro; [discriminate|].
      intros ? [<-|[<-|[]]]; [apply H5|apply G5];
        [refine (scans_node _ (KJoin _ _ _ _ _) [l; r] ltac:(discriminate) Hs l (or_introl eq_refl))
        |refine (scans_node _ (KJoin _ _ _ _ _) [l; r] ltac:(discriminate) Hs r (or_intror (or_introl eq_refl)))].
    + destruct Hn as (? & ? & ? & ? & ? & ? & ? & ? & ? & ? & ? & ? & Hn & _ & _ & Hb & _). injection Hn as <-. discriminate.
    + destruct Hn as (? & ? & ? & ? & ? & ? & ? & ? & ? & ? & Hn & _). discriminate.
  - (* collect *)
    pose proof (ordinary_node _ _ Hord l (or_introl eq_refl)) as Ol.
    pose proof (ordinary_node _ _ Hord r (or_intror (or_introl eq_refl))) as Or.
    pose proof (fed_node _ _ Hfed l (or_introl eq_refl)) as Fl.
    pose proof (fed_node _ _ Hfed r (or_intror (or_introl eq_refl))) as Fr.
    assert (l = x) as <-.
    { destruct Hb as [->| ->]; [reflexivity|]. inversion Ol as [|? ? HF]. destruct HF. }
    assert (Hscan : every_scan P (Node (KJoin j c hl hr na) [l; r]) -> every_scan P l /\ every_scan P r).
    { intros Hs. split; [refine (scans_node _ (KJoin _ _ _ _ _) [l; r] ltac:(discriminate) Hs l (or_introl eq_refl))
        |refine (scans_node _ (KJoin _ _ _ _ _) [l; r] ltac:(discriminate) Hs r (or_intror (or_introl eq_refl)))]. }
    apply normalize_node in Hn as [(cs' & -> & F)|[Hn|Hn]].
    + apply Forall2_two in F as (l' & r' & -> & F1 & F2).
      destruct (IHx l' Ol Fl F1) as ((H1 & H2 & H3 & H4 & H5) & H6 & H7).
      destruct (IHr r' Or Fr F2) as ((G1 & G2 & G3 & G4 & G5) & G6 & G7).
      split; [|split; [split; [intros _; left; apply H3; apply Hfed; exact Hj|now repeat constructor]|now repeat constructor]].
      split; [eapply (ty_collect pr j c hl hr na l' l' r' Dl Dr D'); auto; now left|].
      split.
      { cbn [meaning map]. destruct j as [[] [] ty|ty|]; cbn [join_rows]; auto using join_perm.
        unfold cross. rewrite (flat_map_perm_l _ _ _ H2). apply flat_map_perm_ext. intros y _. now apply Permutation_map. }
      split; [cbn; destruct j as [[]| |]; auto; discriminate|]. split; [reflexivity|]. intros Hs. destruct (Hscan Hs).
      apply scans_intro; [discriminate|]. intros ? [<-|[<-|[]]]; auto.
    + destruct Hn as (m & a & ty & c0 & hl0 & hr0 & na0 & l1 & r1 & l0 & l' & r' & Ek & Ec & Hu & Hbp & Hr1 & Nl & Nr & ->).
      injection Ek as -> -> -> -> ->. injection Ec as -> ->.
      destruct (unwrapped_keeps _ l0 l' Dl Hu Nl (fun l'' => IHx l'' Ol Fl)) as (H1 & H2 & H6 & H7 & H5).
      destruct (IHr r' Or Fr Nr) as ((G1 & G2 & G3 & G4 & G5) & G6 & G7).
      assert (Hu' : m = true /\ is_left_broadcast_safe ty = false /\ a = false).
      { cbn in Hbp. destruct m, (is_left_broadcast_safe ty), a; try discriminate; auto. }
      destruct Hu' as (-> & Hty & ->).
      assert (D' = Anyhow) as ->.
      { destruct D' as [|h' n']; [reflexivity|]. destruct Dr; [destruct HD|]. destruct HD as [HD _]. cbn in HD. congruence. }
      split; [|split; [split; [discriminate|repeat constructor; auto]|repeat constructor; auto]].
      split; [|split; [|split; [|split; [reflexivity|]]]].
      * eapply (ty_partitioned pr false ty c0 hl0 hr0 na0 (target_partitions cfg)); try exact Logic.I;
          [eapply ty_hash; eauto|eapply ty_hash; eauto|exact Hk].
      * cbn [meaning map join_rows List.concat]. rewrite !app_nil_r. now apply join_perm.
      * cbn [one_part map]. intros Hone. rewrite (one_part_tparts _ _ _ Hr Hone) in Hr1. lia.
      * intros Hs. destruct (Hscan Hs). apply scans_intro; [discriminate|].
        intros ? [<-|[<-|[]]]; (apply scans_intro; [discriminate|]); intros ? [<-|[]]; auto.
    + destruct Hn as (ty & c0 & hl0 & hr0 & na0 & l1 & r1 & l0 & l' & r' & Ek & Ec & Hu & Hsw & Nl & Nr & ->).
      injection Ek as -> -> -> -> ->. injection Ec as -> ->.
      destruct (unwrapped_keeps _ l0 l' Dl Hu Nl (fun l'' => IHx l'' Ol Fl)) as (H1 & H2 & H6 & H7 & H5).
      destruct (IHr r' Or Fr Nr) as ((G1 & G2 & G3 & G4 & G5) & G6 & G7).
      assert (Hu' : broadcast_joins cfg = true /\ is_left_broadcast_safe ty = false /\ is_left_broadcast_safe (swap_type ty) = true /\ both_single l1 r1 = false).
      { cbn in Hsw. destruct (broadcast_joins cfg), ty, (both_single l1 r1); try discriminate; auto. }
      destruct Hu' as (Hbj & Hty & Hsty & Hbs).
      assert (D' = Anyhow) as ->.
      { destruct D' as [|h' n']; [reflexivity|]. destruct Dr; [destruct HD|]. destruct HD as [HD _]. cbn in HD. congruence. }
      split; [|split; [split; [intros _; right; split; [exact Hbj|exact Hsty]|repeat constructor; auto]|repeat constructor; auto]].
      split; [|split; [|split; [|split; [reflexivity|]]]].
      * eapply (ty_collect pr (NestedLoop (swap_type ty)) (flip c0) hr0 hl0 na0 r' r' l' Dr Anyhow); auto; now left.
      * cbn [meaning map join_rows]. rewrite (join_flip ty c0 (meaning l') (meaning r')). now apply join_perm.
      * cbn [one_part map]. intros Hone. exfalso. unfold both_single in Hbs.
        rewrite (one_part_tparts _ _ _ Hr Hone), (one_part_tparts _ _ _ Hx (proj1 Hfed eq_refl)) in Hbs. discriminate.
      * intros Hs. destruct (Hscan Hs). apply scans_intro; [discriminate|]. intros ? [<-|[<-|[]]]; auto.
  - destruct (IH t' Hord Hfed Hn) as (H1 & H2 & H3). split; [eapply keeps_weaken; eauto|auto].
Qed.

(** ** insert_broadcast.rs *)

Lemma collect_perm (j : join_op) c (na : list row -> list row -> list row) : collects j = true ->
  (forall L L' R R', Permutation L L' -> Permutation R R' -> Permutation (na L R) (na L' R')) ->
  forall L L' R R', Permutation L L' -> Permutation R R' -> Permutation (join_rows j c na L R) (join_rows j c na L' R').
Proof.
  intros Hj Hna L L' R R' HL HR. destruct j as [[] [] ty|ty|]; cbn [join_rows]; auto using join_perm.
  unfold cross. rewrite (flat_map_perm_l _ _ _ HL). apply flat_map_perm_ext. intros y _. now apply Permutation_map.
Qed.

Lemma broadcasts_keeps (t : tree) E D : broadcast_joins cfg = true -> typed pr t E D -> ordinary t -> fed1 t ->
  keeps t (broadcasts t) E D /\ fed2 (broadcasts t).
Proof.
  intros Hbj.
  induction 1 as [l|h k c E D Hk Hc IH|k c E D Hk Hc IH|spm c E D Hc IH Hr|cs E Hne Ha Hc IH|w m cs E Hne Ha Hc IH
    |o c E E' D D' Hc IH Ho Ha Hre Hd Hcar|o c h k E E' D' Hc IH Ho Ha Hre Hd Hcar|o c E E' D Hc IH Ho Ha Hre Hw Hd
    |a ty c hl hr na k l r D' Hl IHl Hr IHr Hk HD|j c hl hr na l x r Dl Dr D' Hx IHx Hr IHr Hb Hj Hk Hna HD
    |p E E' D D' Hp IH Ha He HD]; intros Hord Hfed;
    try (destruct (IH (ordinary_node _ _ Hord c (or_introl eq_refl)) (fed1_node _ _ Hfed c (or_introl eq_refl)))
           as ((H1 & H2 & H3 & H4 & H5) & H6)).
  - split; [|split; [exact Logic.I|constructor]]. split; [constructor|]. repeat split; auto.
  - split; [|split; [exact Logic.I|now repeat constructor]].
    split; [econstructor; eauto|]. split; [cbn; now rewrite !app_nil_r|]. split; [auto|]. split; [reflexivity|].
    intros Hs. apply (scans_intro _ _ [broadcasts c]); [discriminate|]. intros ? [<-|[]]. apply H5.
    exact (scans_node _ _ [c] ltac:(discriminate) Hs c (or_introl eq_refl)).
  - split; [|split; [exact Logic.I|now repeat constructor]].
    split; [econstructor; eauto|]. split; [cbn; now rewrite !app_nil_r|]. split; [auto|]. split; [reflexivity|].
    intros Hs. apply (scans_intro _ _ [broadcasts c]); [discriminate|]. intros ? [<-|[]]. apply H5.
    exact (scans_node _ _ [c] ltac:(discriminate) Hs c (or_introl eq_refl)).
  - split; [|split; [exact Logic.I|now repeat constructor]].
    split; [econstructor; eauto; congruence|]. split; [cbn; now rewrite !app_nil_r|]. split; [auto|]. split; [reflexivity|].
    intros Hs. apply (scans_intro _ _ [broadcasts c]); [discriminate|]. intros ? [<-|[]]. apply H5.
    exact (scans_node _ _ [c] ltac:(discriminate) Hs c (or_introl eq_refl)).
  - assert (Hch : forall c, In c cs -> keeps c (broadcasts c) E Anyhow /\ fed2 (broadcasts c)).
    { intros c Hin. apply IH; auto; [eapply ordinary_node; eauto|eapply fed1_node; eauto]. }
    change (broadcasts (Node KUnion cs)) with (Node KUnion (map broadcasts cs)).
    assert (Hne' : map broadcasts cs <> []) by (destruct cs; [congruence|discriminate]).
    split.
    + split; [apply ty_union; auto; intros c' Hin; apply in_map_iff in Hin as (c & <- & Hin); apply (Hch c Hin)|].
      split; [|split; [cbn; tauto|split; [reflexivity|]]].
      * change (E (List.concat (map meaning (map broadcasts cs))) (List.concat (map meaning cs))).
        rewrite map_map, !concat_map_flat_map. apply add_flat_map; [exact Ha|]. intros c Hin. apply (Hch c Hin).
      * intros Hs. apply scans_intro; [exact Hne'|]. intros c' Hin. apply in_map_iff in Hin as (c & <- & Hin).
        apply (Hch c Hin). exact (scans_node _ _ _ Hne Hs c Hin).
    + split; [exact Logic.I|]. rewrite map_map. apply Forall_map, Forall_forall. intros c Hin. apply (Hch c Hin).
  - destruct Hord.
  - split; [|split; [intros Hw; apply H3; apply Hfed; exact Hw|now repeat constructor]].
    split; [eapply ty_distributive; eauto|]. split; [cbn [broadcasts meaning map]; now apply Hd|]. split; [auto|]. split; [reflexivity|].
    intros Hs. apply (scans_intro _ _ [broadcasts c]); [discriminate|]. intros ? [<-|[]]. apply H5.
    exact (scans_node _ _ [c] ltac:(discriminate) Hs c (or_introl eq_refl)).
  - split; [|split; [intros Hw; apply H3; apply Hfed; exact Hw|now repeat constructor]].
    split; [eapply ty_keyed; eauto|]. split; [cbn [broadcasts meaning map]; now apply Hd|]. split; [auto|]. split; [reflexivity|].
    intros Hs. apply (scans_intro _ _ [broadcasts c]); [discriminate|]. intros ? [<-|[]]. apply H5.
    exact (scans_node _ _ [c] ltac:(discriminate) Hs c (or_introl eq_refl)).
  - split; [|split; [intros Hw'; apply H3; apply Hfed; exact Hw'|now repeat constructor]].
    split; [eapply ty_whole; eauto|]. split; [cbn [broadcasts meaning map]; now apply Hd|]. split; [auto|]. split; [reflexivity|].
    intros Hs. apply (scans_intro _ _ [broadcasts c]); [discriminate|]. intros ? [<-|[]]. apply H5.
    exact (scans_node _ _ [c] ltac:(discriminate) Hs c (or_introl eq_refl)).
  - destruct (IHl (ordinary_node _ _ Hord l (or_introl eq_refl)) (fed1_node _ _ Hfed l (or_introl eq_refl)))
      as ((H1 & H2 & H3 & H4 & H5) & H6).
    destruct (IHr (ordinary_node _ _ Hord r (or_intror (or_introl eq_refl))) (fed1_node _ _ Hfed r (or_intror (or_introl eq_refl))))
      as ((G1 & G2 & G3 & G4 & G5) & G6).
    split; [|split; [discriminate|now repeat constructor]].
    change (broadcasts (Node (KJoin (HashJoin false a ty) c hl hr na) [l; r]))
      with (Node (KJoin (HashJoin false a ty) c hl hr na) [broadcasts l; broadcasts r]).
    split; [eapply ty_partitioned; eauto|]. split; [cbn [meaning map join_rows]; now apply join_perm|].
    split; [cbn; auto|]. split; [reflexivity|]. intros Hs. apply scans_intro; [discriminate|].
    intros ? [<-|[<-|[]]]; [apply H5|apply G5];
      [refine (scans_node _ (KJoin _ _ _ _ _) [l; r] ltac:(discriminate) Hs l (or_introl eq_refl))
      |refine (scans_node _ (KJoin _ _ _ _ _) [l; r] ltac:(discriminate) Hs r (or_intror (or_introl eq_refl)))].
  - pose proof (ordinary_node _ _ Hord l (or_introl eq_refl)) as Ol.
    assert (l = x) as <-.
    { destruct Hb as [->| ->]; [reflexivity|]. inversion Ol as [|? ? HF]. destruct HF. }
    destruct (IHx Ol (fed1_node _ _ Hfed l (or_introl eq_refl))) as ((H1 & H2 & H3 & H4 & H5) & H6).
    destruct (IHr (ordinary_node _ _ Hord r (or_intror (or_introl eq_refl))) (fed1_node _ _ Hfed r (or_intror (or_introl eq_refl))))
      as ((G1 & G2 & G3 & G4 & G5) & G6).
    pose proof (collect_perm j c na Hj Hna) as HF.
    assert (Hscan : every_scan P (Node (KJoin j c hl hr na) [l; r]) -> every_scan P l /\ every_scan P r).
    { intros Hs. split; [refine (scans_node _ (KJoin _ _ _ _ _) [l; r] ltac:(discriminate) Hs l (or_introl eq_refl))
        |refine (scans_node _ (KJoin _ _ _ _ _) [l; r] ltac:(discriminate) Hs r (or_intror (or_introl eq_refl)))]. }
    assert (Hop : forall l' r' : tree, one_part r -> one_part (Node (KJoin j c hl hr na) [l; r]) ->
      (one_part r -> one_part r') -> one_part (Node (KJoin j c hl hr na) [l'; r'])).
    { intros l' r' A1 A2 A3. cbn in *. destruct j as [[]| |]; auto; discriminate. }
    assert (Hor : one_part (Node (KJoin j c hl hr na) [l; r]) -> one_part r).
    { cbn. destruct j as [[]| |]; auto; discriminate. }
    destruct (can_broadcast_left_input j) eqn:Ecan.
    + assert (Hx' : exists x, broadcasts (Node (KJoin j c hl hr na) [l; r]) =
          Node (KJoin j c hl hr na) [Node (KCoalesce None None) [Node (KBcast 1) [x]]; broadcasts r] /\
          typed pr x (@Permutation row) Anyhow /\ Permutation (meaning x) (meaning l) /\
          (every_scan P l -> every_scan P x) /\ fed2 x).
      { cbn [broadcasts]. rewrite Ecan.
        assert (Hd : (exists fetch x, l = Node (KCoalesce None fetch) [x]) \/
          match l with
          | Node (KCoalesce None fetch) [x] => Node (KCoalesce None fetch) [Node (KBcast 1) [broadcasts x]]
          | _ => Node (KCoalesce None None) [Node (KBcast 1) [broadcasts l]]
          end = Node (KCoalesce None None) [Node (KBcast 1) [broadcasts l]]).
        { destruct l as [[| | |[|]| | |] [|y []]| |]; auto. left. eauto. }
        destruct Hd as [(fetch & y & ->)| ->].
        - apply typed_coalesce_inv in Hx as (-> & _). exists (broadcasts y). split; [reflexivity|].
          change (broadcasts (Node (KCoalesce None None) [y])) with (Node (KCoalesce None None) [broadcasts y]) in *.
          apply typed_coalesce_inv in H1 as (_ & _ & E0 & D0 & Ht & Ha & He).
          split; [exact (ty_weaken pr _ E0 _ D0 Anyhow Ht perm_additive He (or_intror eq_refl))|].
          split; [cbn in H2 |- *; rewrite !app_nil_r in H2; rewrite !app_nil_r; exact H2|].
          split; [intros Hs; exact (scans_node P (KCoalesce None None) [broadcasts y] ltac:(discriminate) (H5 Hs) _ (or_introl eq_refl))|].
          destruct H6 as [_ H6]. now inversion H6.
        - exists (broadcasts l). split; [reflexivity|]. split; [eapply typed_weaken_any; eauto|]. auto. }
      destruct Hx' as (x & -> & X1 & X2 & X3 & X4).
      split.
      * split; [eapply (ty_collect pr j c hl hr na _ x (broadcasts r) Anyhow Dr D'); auto; now right|].
        split; [change (Permutation (join_rows j c na (List.concat [List.concat [meaning x]]) (meaning (broadcasts r)))
                          (join_rows j c na (meaning l) (meaning r)));
                cbn [List.concat]; rewrite !app_nil_r; now apply HF|].
        split; [intros A; exact (Hop _ _ (Hor A) A G3)|]. split; [reflexivity|].
        intros Hs. destruct (Hscan Hs). apply scans_intro; [discriminate|].
        intros ? [<-|[<-|[]]]; [|auto]. apply scans_intro; [discriminate|]. intros ? [<-|[]].
        apply scans_intro; [discriminate|]. intros ? [<-|[]]. auto.
      * split; [|repeat constructor; auto]. intros _. left. split; [eauto|]. rewrite Hbj.
        destruct j as [[] [] ty|ty|]; cbn in *; try discriminate; auto.
    + assert (broadcasts (Node (KJoin j c hl hr na) [l; r]) = Node (KJoin j c hl hr na) [broadcasts l; broadcasts r]) as ->
        by (cbn [broadcasts]; now rewrite Ecan).
      split.
      * split; [eapply (ty_collect pr j c hl hr na _ _ (broadcasts r) Dl Dr D'); eauto; now left|].
        split; [cbn [meaning map]; now apply HF|]. split; [intros A; exact (Hop _ _ (Hor A) A G3)|]. split; [reflexivity|].
        intros Hs. destruct (Hscan Hs). apply scans_intro; [discriminate|]. intros ? [<-|[<-|[]]]; auto.
      * split; [|repeat constructor; auto]. intros _. right. destruct Hfed as [Hfed _]. destruct (Hfed Hj) as [A|[_ A]]; [|congruence].
        split; [auto|]. rewrite Hbj. destruct j as [[] [] ty|ty|]; cbn in *; try discriminate; auto; try (now rewrite Ecan);
          destruct ty; try discriminate; reflexivity.
  - destruct (IH Hord Hfed) as (H1 & H2). split; [eapply keeps_weaken; eauto|auto].
Qed.

(** Without broadcasts. *)
Lemma no_broadcasts_fed (t : tree) : broadcast_joins cfg = false -> fed1 t -> fed2 t.
Proof.
  intros Hbj. induction t as [k cs IH|w m cs IH|] using tree_ind'; [| |auto].
  - intros [H1 H2]. split.
    + destruct k; auto. destruct cs as [|? [|? []]]; auto. intros Hj. right. destruct (H1 Hj) as [A|[A _]]; [|congruence].
      split; [exact A|]. rewrite Hbj. destruct j as [[] [] ty|ty|]; try discriminate; reflexivity.
    + rewrite Forall_map, Forall_forall in *. auto.
  - cbn. rewrite !Forall_map, !Forall_forall in *. auto.
Qed.

(** ** insert_children_isolator_union.rs *)

Lemma isolate_unary k (c : tree) t' : k <> KUnion -> isolate (Node k [c]) = Ok t' ->
  exists c', t' = Node k [c'] /\ isolate c = Ok c'.
Proof.
  intros Hk H. apply isolate_node in H as (cs' & F & [(_ & ->)|(Hk' & _)]); [|congruence].
  apply Forall2_one in F as (c' & -> & F). eauto.
Qed.
Lemma fed2_node k (cs : list tree) : fed2 (Node k cs) -> forall c, In c cs -> fed2 c.
Proof. intros [_ H] c Hc. rewrite Forall_map, Forall_forall in H. auto. Qed.
Lemma fed2_ciu w m (cs : list tree) : fed2 (Ciu w m cs) -> forall c, In c cs -> fed2 c.
Proof. intros H c Hc. cbn in H. rewrite Forall_map, Forall_forall in H. auto. Qed.

Lemma isolate_children (cs cs' : list tree) (E : list row -> list row -> Prop) : additive E ->
  Forall2 (fun c c' => keeps c c' E Anyhow /\ fed2 c') cs cs' ->
  (forall c', In c' cs' -> exists c, In c cs /\ keeps c c' E Anyhow /\ fed2 c') /\
  E (List.concat (map meaning cs')) (List.concat (map meaning cs)) /\ (cs <> [] -> cs' <> []).
Proof.
  intros Ha F. split; [|split].
  - intros c' Hin. apply In_nth_error in Hin as (i & Hi'). apply Forall2_nth in F as [L F'].
    destruct (nth_error cs i) as [c|] eqn:Ec; [exists c; split; [eapply nth_error_In; eauto|eapply F'; eauto]|].
    apply nth_error_None in Ec. assert (i < List.length cs') by (apply nth_error_Some; congruence). lia.
  - induction F as [|c c' cs cs' Hc F IHF]; cbn; [now apply add_refl|]. apply (add_app E Ha); [apply Hc|exact IHF].
  - inversion F; congruence.
Qed.

Lemma isolate_keeps (t : tree) E D : typed pr t E D -> forall t', fed2 t -> isolate t = Ok t' ->
  keeps t t' E D /\ fed2 t'.
Proof.
  induction 1 as [l|h k c E D Hk Hc IH|k c E D Hk Hc IH|spm c E D Hc IH Hr|cs E Hne Ha Hc IH|w m cs E Hne Ha Hc IH
    |o c E E' D D' Hc IH Ho Ha Hre Hd Hcar|o c h k E E' D' Hc IH Ho Ha Hre Hd Hcar|o c E E' D Hc IH Ho Ha Hre Hw Hd
    |a ty c hl hr na k l r D' Hl IHl Hr IHr Hk HD|j c hl hr na l x r Dl Dr D' Hx IHx Hr IHr Hb Hj Hk Hna HD
    |p E E' D D' Hp IH Ha He HD]; intros t' Hfed Hn;
    try (apply isolate_unary in Hn as (c' & -> & Hn); [|discriminate];
         destruct (IH c' (fed2_node _ _ Hfed c (or_introl eq_refl)) Hn) as ((H1 & H2 & H3 & H4 & H5) & H6)).
  - injection Hn as <-. split; [|split; [exact Logic.I|constructor]]. split; [constructor|]. repeat split; auto.
  - split; [|split; [exact Logic.I|now repeat constructor]].
    split; [econstructor; eauto|]. split; [cbn; now rewrite !app_nil_r|]. split; [auto|]. split; [reflexivity|].
    intros Hs. apply scans_intro; [discriminate|]. intros ? [<-|[]]. apply H5.
    exact (scans_node _ _ [c] ltac:(discriminate) Hs c (or_introl eq_refl)).
  - split; [|split; [exact Logic.I|now repeat constructor]].
    split; [econstructor; eauto|]. split; [cbn; now rewrite !app_nil_r|]. split; [auto|]. split; [reflexivity|].
    intros Hs. apply scans_intro; [discriminate|]. intros ? [<-|[]]. apply H5.
    exact (scans_node _ _ [c] ltac:(discriminate) Hs c (or_introl eq_refl)).
  - split; [|split; [exact Logic.I|now repeat constructor]].
    split; [econstructor; eauto; congruence|]. split; [cbn; now rewrite !app_nil_r|]. split; [auto|]. split; [reflexivity|].
    intros Hs. apply scans_intro; [discriminate|]. intros ? [<-|[]]. apply H5.
    exact (scans_node _ _ [c] ltac:(discriminate) Hs c (or_introl eq_refl)).
  - apply isolate_node in Hn as (cs' & F & [(Hk & _)|(_ & m & Hm & ->)]); [congruence|].
    assert (F' : Forall2 (fun c c' => keeps c c' E Anyhow /\ fed2 c') cs cs').
    { eapply Forall2_impl_in; [|exact F]. intros c c' Hin Hc'. apply IH; auto. eapply fed2_node; eauto. }
    destruct (isolate_children cs cs' E Ha F') as (Hcs & HE & Hne').
    split.
    + split; [apply ty_isolated; auto; intros c' Hin; destruct (Hcs c' Hin) as (c & _ & (H1 & _) & _); exact H1|].
      split; [exact HE|]. split; [cbn; tauto|]. split; [reflexivity|]. intros Hs. cbn [every_scan].
      apply Forall_map, Forall_forall. intros c' Hin. destruct (Hcs c' Hin) as (c & Hin' & (_ & _ & _ & _ & H5) & _).
      apply H5. exact (scans_node _ _ _ Hne Hs c Hin').
    + apply Forall_map, Forall_forall. intros c' Hin. destruct (Hcs c' Hin) as (c & _ & _ & H6). exact H6.
  - cbn [isolate] in Hn. destruct (seqM (map isolate cs)) as [cs'| |] eqn:Es; cbn [bind] in Hn; try discriminate. injection Hn as <-.
    apply seqM_map_inv in Es as F.
    assert (F' : Forall2 (fun c c' => keeps c c' E Anyhow /\ fed2 c') cs cs').
    { eapply Forall2_impl_in; [|exact F]. intros c c' Hin Hc'. apply IH; auto. eapply fed2_ciu; eauto. }
    destruct (isolate_children cs cs' E Ha F') as (Hcs & HE & Hne').
    split.
    + split; [apply ty_isolated; auto; intros c' Hin; destruct (Hcs c' Hin) as (c & _ & (H1 & _) & _); exact H1|].
      split; [exact HE|]. split; [cbn; tauto|]. split; [reflexivity|]. intros Hs. cbn [every_scan].
      apply Forall_map, Forall_forall. intros c' Hin. destruct (Hcs c' Hin) as (c & Hin' & (_ & _ & _ & _ & H5) & _).
      apply H5. exact (scans_ciu _ _ _ _ Hs c Hin').
    + apply Forall_map, Forall_forall. intros c' Hin. destruct (Hcs c' Hin) as (c & _ & _ & H6). exact H6.
  - split; [|split; [intros Hw; apply H3; apply Hfed; exact Hw|now repeat constructor]].
    split; [eapply ty_distributive; eauto|]. split; [cbn [meaning map]; now apply Hd|]. split; [auto|]. split; [reflexivity|].
    intros Hs. apply scans_intro; [discriminate|]. intros ? [<-|[]]. apply H5.
    exact (scans_node _ _ [c] ltac:(discriminate) Hs c (or_introl eq_refl)).
  - split; [|split; [intros Hw; apply H3; apply Hfed; exact Hw|now repeat constructor]].
    split; [eapply ty_keyed; eauto|]. split; [cbn [meaning map]; now apply Hd|]. split; [auto|]. split; [reflexivity|].
    intros Hs. apply scans_intro; [discriminate|]. intros ? [<-|[]]. apply H5.
    exact (scans_node _ _ [c] ltac:(discriminate) Hs c (or_introl eq_refl)).
  - split; [|split; [intros Hw'; apply H3; apply Hfed; exact Hw'|now repeat constructor]].
    split; [eapply ty_whole; eauto|]. split; [cbn [meaning map]; now apply Hd|]. split; [auto|]. split; [reflexivity|].
    intros Hs. apply scans_intro; [discriminate|]. intros ? [<-|[]]. apply H5.
    exact (scans_node _ _ [c] ltac:(discriminate) Hs c (or_introl eq_refl)).
  - apply isolate_node in Hn as (cs' & F & [(_ & ->)|(Hk' & _)]); [|discriminate].
    apply Forall2_two in F as (l' & r' & -> & F1 & F2).
    destruct (IHl l' (fed2_node _ _ Hfed l (or_introl eq_refl)) F1) as ((H1 & H2 & H3 & H4 & H5) & H6).
    destruct (IHr r' (fed2_node _ _ Hfed r (or_intror (or_introl eq_refl))) F2) as ((G1 & G2 & G3 & G4 & G5) & G6).
    split; [|split; [discriminate|now repeat constructor]].
    split; [eapply ty_partitioned; eauto|]. split; [cbn [meaning map join_rows]; now apply join_perm|].
    split; [cbn; auto|]. split; [reflexivity|]. intros Hs. apply scans_intro; [discriminate|].
    intros ? [<-|[<-|[]]]; [apply H5|apply G5];
      [refine (scans_node _ (KJoin _ _ _ _ _) [l; r] ltac:(discriminate) Hs l (or_introl eq_refl))
      |refine (scans_node _ (KJoin _ _ _ _ _) [l; r] ltac:(discriminate) Hs r (or_intror (or_introl eq_refl)))].
  - apply isolate_node in Hn as (cs' & F & [(_ & ->)|(Hk' & _)]); [|discriminate].
    apply Forall2_two in F as (l' & r' & -> & F1 & F2).
    pose proof (fed2_node _ _ Hfed l (or_introl eq_refl)) as Fl.
    destruct (IHr r' (fed2_node _ _ Hfed r (or_intror (or_introl eq_refl))) F2) as ((G1 & G2 & G3 & G4 & G5) & G6).
    pose proof (collect_perm j c na Hj Hna) as HF.
    assert (Hscan : every_scan P (Node (KJoin j c hl hr na) [l; r]) -> every_scan P l /\ every_scan P r).
    { intros Hs. split; [refine (scans_node _ (KJoin _ _ _ _ _) [l; r] ltac:(discriminate) Hs l (or_introl eq_refl))
        |refine (scans_node _ (KJoin _ _ _ _ _) [l; r] ltac:(discriminate) Hs r (or_intror (or_introl eq_refl)))]. }
    assert (Hop : one_part (Node (KJoin j c hl hr na) [l; r]) -> one_part (Node (KJoin j c hl hr na) [l'; r'])).
    { cbn in *. destruct j as [[]| |]; auto; discriminate. }
    assert (Hl' : exists x', typed pr x' (@Permutation row) Dl /\ build_side l' x' /\ Permutation (meaning l') (meaning l) /\
      (one_part l -> one_part l') /\ (every_scan P l -> every_scan P l') /\ fed2 l' /\
      ((exists y, l = Node (KCoalesce None None) [Node (KBcast 1) [y]]) -> exists y, l' = Node (KCoalesce None None) [Node (KBcast 1) [y]])).
    { destruct Hb as [->| ->].
      - destruct (IHx l' Fl F1) as ((H1 & H2 & H3 & H4 & H5) & H6). exists l'. split; [exact H1|]. split; [now left|].
        repeat (split; [assumption|]). intros (y & ->). apply typed_coalesce_inv in Hx as (_ & _ & E0 & D0 & Hy & _).
        apply typed_not_bcast in Hy. discriminate.
      - apply isolate_unary in F1 as (b' & -> & F1); [|discriminate]. apply isolate_unary in F1 as (x' & -> & F1); [|discriminate].
        pose proof (fed2_node _ _ Fl _ (or_introl eq_refl)) as Fb. pose proof (fed2_node _ _ Fb _ (or_introl eq_refl)) as Fx.
        destruct (IHx x' Fx F1) as ((H1 & H2 & H3 & H4 & H5) & H6). exists x'. split; [exact H1|]. split; [now right|].
        split; [cbn [meaning map List.concat]; now rewrite !app_nil_r|]. split; [auto|].
        split; [|split; [now repeat constructor|eauto]]. intros Hs. apply scans_intro; [discriminate|]. intros ? [<-|[]].
        apply scans_intro; [discriminate|]. intros ? [<-|[]]. apply H5.
        pose proof (scans_node P (KCoalesce None None) [Node (KBcast 1) [x]] ltac:(discriminate) Hs _ (or_introl eq_refl)) as Hs1.
        exact (scans_node P (KBcast 1) [x] ltac:(discriminate) Hs1 _ (or_introl eq_refl)). }
    destruct Hl' as (x' & X1 & X2 & X3 & X4 & X5 & X6 & X7).
    split.
    + split; [eapply (ty_collect pr j c hl hr na l' x' r' Dl Dr D'); auto|].
      split; [cbn [meaning map]; now apply HF|]. split; [exact Hop|]. split; [reflexivity|].
      intros Hs. destruct (Hscan Hs). apply scans_intro; [discriminate|]. intros ? [<-|[<-|[]]]; auto.
    + split; [|repeat constructor; auto]. intros _. destruct Hfed as [Hfed _]. destruct (Hfed Hj) as [[A B]|[A B]]; [left|right]; auto.
  - destruct (IH t' Hfed Hn) as (H1 & H2). split; [eapply keeps_weaken; eauto|auto].
Qed.

(** ** All passes *)

Lemma before_keeps (t p : tree) D : typed pr t (@Permutation row) D -> ordinary t -> fed t -> is_round_robin t = false ->
  before_injection cfg t = Ok p ->
  (exists D', typed pr p (@Permutation row) D') /\ Permutation (meaning p) (meaning t) /\ fed2 p /\ (every_scan P t -> every_scan P p).
Proof.
  intros Ht Ho Hf Hr H. unfold before_injection in H. destruct (normalize cfg t) as [t1| |] eqn:E1; cbn [bind] in H; try discriminate.
  destruct (normalize_keeps t _ _ Ht t1 Ho Hf E1) as ((A1 & A2 & A3 & A4 & A5) & A6 & A7).
  set (t2 := if 1 <? tparts t1 then Node (KCoalesce None None) [t1] else t1) in *.
  assert (B : (exists D', typed pr t2 (@Permutation row) D') /\ Permutation (meaning t2) (meaning t1) /\ fed1 t2 /\ ordinary t2 /\
      (every_scan P t1 -> every_scan P t2)).
  { unfold t2. destruct (1 <? tparts t1); [|split; [eauto|auto]].
    split; [eexists; eapply ty_coalesce; eauto; congruence|]. split; [cbn; now rewrite app_nil_r|].
    split; [now repeat constructor|]. split; [now repeat constructor|]. intros Hs. apply scans_intro; [discriminate|]. now intros ? [<-|[]]. }
  destruct B as ((D2 & B1) & B2 & B3 & B4 & B5). clearbody t2.
  assert (C : (exists D', typed pr (insert_broadcasts cfg t2) (@Permutation row) D') /\
      Permutation (meaning (insert_broadcasts cfg t2)) (meaning t2) /\ fed2 (insert_broadcasts cfg t2) /\
      (every_scan P t2 -> every_scan P (insert_broadcasts cfg t2))).
  { unfold insert_broadcasts. destruct (broadcast_joins cfg) eqn:Eb.
    - destruct (broadcasts_keeps t2 _ _ Eb B1 B4 B3) as ((C1 & C2 & _ & _ & C5) & C6). eauto.
    - split; [eauto|]. split; [reflexivity|]. split; [now apply no_broadcasts_fed|auto]. }
  destruct C as ((D3 & C1) & C2 & C3 & C5). set (t3 := insert_broadcasts cfg t2) in *. clearbody t3.
  unfold insert_unions in H. destruct (children_isolator_unions cfg).
  - destruct (isolate_keeps t3 _ _ C1 p C3 H) as ((F1 & F2 & _ & _ & F5) & F6). split; [eauto|].
    split; [now rewrite F2, C2, B2, A2|]. auto 10.
  - injection H as <-. split; [eauto|]. split; [now rewrite C2, B2, A2|]. auto 10.
Qed.

(** ** Placement *)

Lemma announced_join j c hl hr na (l r : tree) : single_task_join (broadcast_joins cfg) j = true ->
  In 1 (announced cfg (Node (KJoin j c hl hr na) [l; r])).
Proof. intros H. cbn [announced]. rewrite one_task_join_eq, H. apply in_app_iff. right. now left. Qed.

Lemma placed_of most (p : tree) : forall head, fed2 p -> ops_placed cfg most head p -> placed cfg most head p.
Proof.
  induction p as [k cs IH|w m cs IH|] using tree_ind'; intros head Hf Hp; [| |exact Logic.I].
  - destruct Hp as [Hp1 Hp2]. destruct Hf as [Hf1 Hf2]. split.
    + destruct k as [| | | | |j c hl hr na|]; auto.
      * destruct cs as [|l [|r []]]; auto. intros Hj. destruct (Hf1 Hj) as [[A [B|B]]|[A B]]; [left|left|right]; auto;
          apply (announced_join j c hl hr na l r) in B; auto.
      * destruct cs as [|c []]; auto.
    + rewrite Forall_map, Forall_forall in *. intros c Hin. apply IH; auto.
  - destruct Hp as [Hp1 Hp2]. cbn in Hf. split; [exact Hp1|]. rewrite Forall_map, Forall_forall in *. intros c Hin. apply IH; auto.
Qed.

End Passes.
