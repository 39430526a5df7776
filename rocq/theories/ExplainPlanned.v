(** The stages of planned queries are not bare boundaries. *)
From Verif Require Import Base NetModel CiuModel EventsModel JoinModel PlannerModel PlannerSpec PlannerProofs ExplainModel ExplainSpec.
From Coq Require Import Lia.

Section Planned.
Context {row : Type}.
Notation tree := (tree row).

Fixpoint tame (t : tree) : Prop :=
  match t with
  | Node _ cs | Ciu _ _ cs => Forall (fun P => P) (map tame cs)
  | Net _ _ _ _ _ i => is_net i = false /\ tame i
  end.

Lemma Forall_id {A} (P : A -> Prop) l : Forall (fun P => P) (map P l) <-> forall x, In x l -> P x.
Proof.
  rewrite Forall_map, Forall_forall. tauto.
Qed.

Lemma tame_view text variants hash : forall t : tree, tame t ->
  no_bare_inputs (ExplainModel.view_of text variants hash t).
Proof.
  assert (F : forall cs : list tree, (forall c, In c cs -> no_bare_inputs (ExplainModel.view_of text variants hash c)) ->
    fold_right (fun c P => no_bare_inputs c /\ P) True (map (ExplainModel.view_of text variants hash) cs)).
  { induction cs as [|c cs IH]; cbn; intros H; [exact Logic.I|]. split; [apply H; now left|apply IH; intros; apply H; now right]. }
  induction t as [k cs IH|w m cs IH|b part q num tasks i IH] using tree_ind'; intros H.
  - cbn [tame] in H. rewrite Forall_id in H. rewrite Forall_forall in IH.
    assert (G : no_bare_inputs (VNode (mkInfo (text (Node k cs)) (tparts (Node k cs)) (hash (Node k cs)) "") (map (ExplainModel.view_of text variants hash) cs))).
    { cbn [no_bare_inputs]. apply F. intros c Hc. now apply IH; [|apply H]. }
    destruct k as [[l|d]| | | | | |]; try exact G. exact Logic.I.
  - cbn [tame] in H. rewrite Forall_id in H. rewrite Forall_forall in IH. cbn [view_of no_bare_inputs]. apply F.
    intros c Hc. now apply IH; [|apply H].
  - destruct H as [Hi H]. cbn [view_of no_bare_inputs]. split; [|auto].
    destruct i as [[[l|d]| | | | | |] ?| |]; try reflexivity. discriminate Hi.
Qed.
Lemma view_boundary text variants hash (t : tree) : is_boundary (ExplainModel.view_of text variants hash t) = is_net t.
Proof. now destruct t as [[[l|d]| | | | | |] ?| |]. Qed.

Lemma tame_node k cs : tame (Node k cs) <-> forall c, In c cs -> tame c.
Proof. cbn [tame]. apply Forall_id. Qed.

(** ** After planning *)
Section Deployed.
Variables (cfg : settings row) (Q : tree -> nat -> Prop).
Hypothesis Hleaf : leaf_handlers cfg.

Lemma strip_tame (t : tree) : tame t -> tame (strip t).
Proof using.
  destruct t as [[] [|c []]| |]; cbn [strip]; auto; intros H; apply (proj1 (tame_node _ _) H); now left.
Qed.
Lemma head_tame h (i plan : tree) : insert_head_node h i = Ok plan -> tame i -> tame plan.
Proof using.
  intros H Hi. apply strip_tame in Hi. destruct h; cbn in H.
  - injection H as <-. exact Hi.
  - destruct (tparts (strip i) =? 0); [discriminate|]. injection H as <-. apply tame_node. intros c [<-|[]]. exact Hi.
  - injection H as <-. apply tame_node. intros c [<-|[]]. exact Hi.
Qed.

(** [strip] has something to do only if it had with the original plan. *)
Definition strippable (t : tree) : bool := match t with Node (KRepart _) _ | Node (KBcast _) _ => true | _ => false end.

Definition fine (p d : tree) : Prop := is_net d = false /\ tame d /\ (strippable p = false -> strip d = d).

Lemma dchild_tame below c s n d (P : nat -> nat -> tree -> Prop) :
  (forall s n d, P s n d -> fine c d) -> (below = true -> round_robin c = false) ->
  dchild cfg Q below c P s n d -> tame d /\ (cut below c = None -> is_net d = false).
Proof using.
  intros HP Hb H. unfold dchild in H. destruct (cut below c) as [b|] eqn:Ec.
  - destruct H as (tasks & i & _ & Hi & H). apply HP in Hi as (Hn & Ht & Hs). split; [|discriminate].
    destruct (elided cfg n tasks); [now subst|]. destruct H as (num & h & plan & Hh & Hp & ->). cbn [tame].
    split; [|eapply head_tame; eauto].
    destruct b; cbn in Hh.
    + destruct (scale_partitioning _ _) as [p'| |]; cbn in Hh; try discriminate. injection Hh as <-. cbn in Hp. now injection Hp as <-.
    + injection Hh as <-. cbn in Hp. destruct (tparts (strip i) =? 0); [discriminate|]. now injection Hp as <-.
    + injection Hh as <-. cbn in Hp. injection Hp as <-. rewrite Hs; [exact Hn|].
      unfold cut in Ec. destruct (is_hash_repart c) eqn:E1; [discriminate|]. destruct (is_bcast c) eqn:E2; [discriminate|].
      destruct below; [|discriminate]. specialize (Hb eq_refl).
      destruct c as [[] cs| |]; try reflexivity; [|discriminate]. cbn [round_robin] in Hb. rewrite E1 in Hb. discriminate.
  - apply HP in H as (Hn & Ht & _). auto.
Qed.

Lemma deployed_fine : forall p s n d, deployed cfg Q p s n d -> plain_merges p -> fine p d.
Proof using Hleaf.
  induction p as [k cs IH|w m cs IH|b part q num tasks i IH] using tree_ind'; intros s n d H Hm.
  - destruct cs as [|c0 cs0].
    + cbn [deployed] in H. unfold scaled in H. destruct (scale_up_leaf cfg (Node k []) s) as [r|] eqn:E.
      * subst r. destruct (Hleaf _ _ _ E) as (l & ->). split; [reflexivity|]. split; [constructor|]. auto.
      * subst d. split; [reflexivity|]. split; [constructor|]. intros _. now destruct k.
    + remember (c0 :: cs0) as cs eqn:Ecs. apply deployed_node in H as (ds & -> & F); [|subst; discriminate].
      destruct Hm as [Hr Hm]. rewrite Forall_id in Hm. rewrite Forall_forall in IH.
      split; [reflexivity|]. split.
      * apply tame_node. intros d Hd. apply In_nth_error in Hd as (j & Hj). apply Forall2_nth in F as [L F].
        destruct (nth_error cs j) as [c|] eqn:Ej; [|apply nth_error_None in Ej; assert (j < List.length ds) by (apply nth_error_Some; congruence); lia].
        specialize (F j c d Ej Hj). apply nth_error_In in Ej.
        apply dchild_tame in F; [exact (proj1 F)| |].
        -- intros s' n' d' H'. apply (IH c Ej s' n' d' H'). now apply Hm.
        -- intros Hb. specialize (Hr Hb). rewrite Forall_forall in Hr. now apply Hr.
      * intros Hs. destruct k; try reflexivity; discriminate Hs.
  - destruct cs as [|c0 cs0].
    + cbn [deployed] in H. unfold scaled in H. destruct (scale_up_leaf cfg (Ciu w m []) s) as [r|] eqn:E.
      * subst r. destruct (Hleaf _ _ _ E) as (l & ->). split; [reflexivity|]. split; [constructor|]. auto.
      * subst d. split; [reflexivity|]. split; [constructor|]. reflexivity.
    + remember (c0 :: cs0) as cs eqn:Ecs.
      apply deployed_ciu in H as (w' & m' & ds & -> & _ & _ & _ & _ & L & F); [|subst; discriminate].
      cbn [plain_merges] in Hm. rewrite Forall_id in Hm. rewrite Forall_forall in IH.
      split; [reflexivity|]. split; [|reflexivity]. cbn [tame]. apply Forall_id. intros d Hd. apply In_nth_error in Hd as (j & Hj).
      destruct (nth_error cs j) as [c|] eqn:Ej; [|apply nth_error_None in Ej; assert (j < List.length ds) by (apply nth_error_Some; congruence); lia].
      specialize (F j c d Ej Hj). apply nth_error_In in Ej. cbv zeta in F.
      apply dchild_tame in F; [exact (proj1 F)| |discriminate].
      intros s' n' d' H'. apply (IH c Ej s' n' d' H'). now apply Hm.
  - destruct H.
Qed.
End Deployed.

(** ** Passes after preparation *)

Lemma reduce_tame : forall t : tree, tame t -> tame (reduce_shuffles t) /\ is_net (reduce_shuffles t) = is_net t.
Proof.
  induction t as [k cs IH|w m cs IH|b part q num tasks i IH] using tree_ind'; intros H.
  - rewrite Forall_forall in IH. split; [|reflexivity]. cbn [reduce_shuffles]. apply tame_node. intros c Hc.
    apply in_map_iff in Hc as (c' & <- & Hc). apply IH; [exact Hc|]. exact (proj1 (tame_node k cs) H c' Hc).
  - rewrite Forall_forall in IH. split; [|reflexivity]. cbn [reduce_shuffles]. cbn [tame] in *. rewrite Forall_id in *. intros c Hc.
    apply in_map_iff in Hc as (c' & <- & Hc). now apply IH; [|apply H].
  - destruct H as [Hi H]. destruct (IH H) as [H1 H2]. destruct (reduce_net b part q num tasks i) as [->|(o & ->)]; (split; [|reflexivity]); cbn [tame].
    + split; [congruence|exact H1].
    + split; [reflexivity|]. refine (proj2 (tame_node (KOp o) [reduce_shuffles i]) _). intros c [<-|[]]. exact H1.
Qed.

Lemma bounded_tame (t : tree) fetch : tame t -> tame (bounded t fetch) /\ (is_net (bounded t fetch) = true -> is_net t = true).
Proof.
  intros H. destruct (bounded_shape t fetch) as [->|[->|(k & k' & cs & -> & -> & _)]]; split; auto; try discriminate.
  - apply tame_node. intros c [<-|[]]. exact H.
Qed.
Lemma through_tame (t : tree) fetch : tame t -> is_net t = false ->
  tame (fetch_through_projection t fetch) /\ is_net (fetch_through_projection t fetch) = false.
Proof.
  intros H Hn. destruct (through_shape t fetch) as (t' & -> & [->|(f & i & -> & ->)]).
  - destruct (bounded_tame t fetch H) as [A B]. split; [exact A|]. destruct (is_net (bounded t fetch)); [|reflexivity].
    rewrite B in Hn by reflexivity. discriminate.
  - split; [|reflexivity]. apply tame_node. intros c [<-|[]]. apply bounded_tame.
    apply (proj1 (tame_node _ _) H). now left.
Qed.
Lemma push_child_tame fetch (c : tree) : tame c -> tame (push_child fetch c).
Proof.
  destruct c as [k cs|w m cs|b p q n ts i]; auto. destruct b; auto. cbn [push_child tame]. intros [Hn H].
  destruct (through_tame i fetch H Hn). auto.
Qed.
Lemma push_tame : forall fuel (t t' : tree), push_fetch_fuel fuel t = Ok t' -> tame t -> tame t' /\ is_net t' = is_net t.
Proof.
  induction fuel as [|fuel IH]; intros t t' H Ht; [discriminate|].
  destruct (push_node fuel t) as (u & E & Hu). rewrite E in H.
  assert (Tu : tame u /\ is_net u = is_net t).
  { destruct Hu as [->|(k & cs & fetch & -> & ->)]; [auto|]. split; [|reflexivity]. apply tame_node. intros c Hc.
    apply in_map_iff in Hc as (c' & <- & Hc). apply push_child_tame. exact (proj1 (tame_node k cs) Ht c' Hc). }
  clear E Hu Ht. destruct Tu as [Tu <-]. destruct u as [k cs|w m cs|b p q n ts i].
  - destruct (seqM _) as [cs'| |] eqn:Es; cbn in H; try discriminate. injection H as <-. split; [|reflexivity].
    apply seqM_map_inv in Es. apply tame_node. intros d Hd. apply In_nth_error in Hd as (j & Hj). apply Forall2_nth in Es as [L F].
    destruct (nth_error cs j) as [c|] eqn:Ej; [|apply nth_error_None in Ej; assert (j < List.length cs') by (apply nth_error_Some; congruence); lia].
    apply (IH c d (F j c d Ej Hj)). apply (proj1 (tame_node k cs) Tu). eapply nth_error_In; exact Ej.
  - destruct (seqM _) as [cs'| |] eqn:Es; cbn in H; try discriminate. injection H as <-. split; [|reflexivity].
    apply seqM_map_inv in Es. cbn [tame] in *. rewrite Forall_id in *. intros d Hd. apply In_nth_error in Hd as (j & Hj). apply Forall2_nth in Es as [L F].
    destruct (nth_error cs j) as [c|] eqn:Ej; [|apply nth_error_None in Ej; assert (j < List.length cs') by (apply nth_error_Some; congruence); lia].
    apply (IH c d (F j c d Ej Hj)). apply Tu. eapply nth_error_In; exact Ej.
  - destruct (push_fetch_fuel fuel i) as [i'| |] eqn:Ei; cbn in H; try discriminate. injection H as <-. split; [|reflexivity].
    destruct Tu as [Hn Ti]. destruct (IH i i' Ei Ti) as [A B]. cbn [tame]. split; [congruence|exact A].
Qed.

(** ** Passes before injection *)

Lemma merges_node k (cs : list tree) : plain_merges (Node k cs) <->
  (is_coalesce (Node k cs) = true -> forall c, In c cs -> round_robin c = false) /\ forall c, In c cs -> plain_merges c.
Proof. cbn [plain_merges]. rewrite Forall_id. rewrite Forall_forall. reflexivity. Qed.

Lemma merges_children (k : kind row) (cs cs' : list tree) : plain_merges (Node k cs) ->
  Forall2 (fun c c' => plain_merges c' /\ round_robin c' = round_robin c) cs cs' -> plain_merges (Node k cs').
Proof.
  intros H F. apply merges_node in H as [H1 H2]. apply merges_node.
  assert (G : forall c', In c' cs' -> exists c, In c cs /\ plain_merges c' /\ round_robin c' = round_robin c).
  { clear H1 H2. induction F as [|x y l l' Hxy F IH]; intros c' [].
    - subst. exists x. split; [now left|exact Hxy].
    - destruct (IH c' H) as (c & Hc & E). exists c. split; [now right|exact E]. }
  split.
  - intros Hk c' Hc'. destruct (G c' Hc') as (c & Hc & _ & ->). apply H1; [|exact Hc]. now destruct k.
  - intros c' Hc'. now destruct (G c' Hc') as (c & _ & E & _).
Qed.

Lemma plain_below k (cs : list tree) : is_coalesce (Node k cs) = false -> (forall c, In c cs -> plain_merges c) -> plain_merges (Node k cs).
Proof. intros E H. apply merges_node. split; [congruence|exact H]. Qed.

Section Before.
Variable cfg : settings row.

Lemma unwrapped_merges (l l0 : tree) : PlannerProofs.unwrapped l l0 -> plain_merges l -> plain_merges l0.
Proof using. intros [->| ->] H; [exact H|]. apply merges_node in H as [_ H]. apply H. now left. Qed.

Lemma normalize_merges : forall t t' : tree, has_net t = false -> normalize cfg t = Ok t' -> plain_merges t ->
  plain_merges t' /\ round_robin t' = round_robin t /\ (plain_root t -> plain_root t').
Proof using.
  induction t as [t IH] using tree_height_ind. intros t' Hn H Hm.
  destruct t as [k cs|w m cs|b p q n ts i]; [| |discriminate Hn].
  - assert (Hc : forall c c', In c cs -> normalize cfg c = Ok c' -> plain_merges c' /\ round_robin c' = round_robin c).
    { intros c c' Hc E. destruct (IH c) with (t' := c') as (A & B & _); auto; [now apply child_height| |].
      - exact (proj1 (existsb_false has_net cs) Hn c Hc).
      - now apply (proj1 (merges_node k cs) Hm). }
    destruct (normalize_node cfg k cs t' H) as [(cs' & -> & F)|[(m & a & ty & c & hl & hr & na & l & r & l0 & l' & r' & -> & -> & Hu & _ & _ & El & Er & ->)|
      (ty & c & hl & hr & na & l & r & l0 & l' & r' & -> & -> & Hu & _ & El & Er & ->)]].
    + split; [|split].
      * eapply merges_children; [exact Hm|]. eapply Forall2_impl_in; [|exact F]. intros c c' Hin E. now apply Hc.
      * now destruct k.
      * now destruct k.
    + assert (Hl : plain_merges l'). 
      { destruct (IH l0) with (t' := l') as (A & _); auto.
        - apply unwrapped_height in Hu. pose proof (child_height (Node (KJoin (HashJoin m a ty) c hl hr na) [l; r]) l (or_introl eq_refl)). lia.
        - pose proof (proj1 (existsb_false has_net [l; r]) Hn l (or_introl eq_refl)) as E. destruct Hu as [->| ->]; [exact E|]. cbn in E. now rewrite orb_false_r in E.
        - eapply unwrapped_merges; [exact Hu|]. apply (proj1 (merges_node _ _) Hm). now left. }
      destruct (Hc r r') as [Hr _]; [right; now left|exact Er|].
      split; [|split; [reflexivity|auto]].
      apply plain_below; [reflexivity|]. intros x [<-|[<-|[]]]; apply plain_below; try reflexivity; intros y [<-|[]]; assumption.
    + assert (Hl : plain_merges l').
      { destruct (IH l0) with (t' := l') as (A & _); auto.
        - apply unwrapped_height in Hu. pose proof (child_height (Node (KJoin (NestedLoop ty) c hl hr na) [l; r]) l (or_introl eq_refl)). lia.
        - pose proof (proj1 (existsb_false has_net [l; r]) Hn l (or_introl eq_refl)) as E. destruct Hu as [->| ->]; [exact E|]. cbn in E. now rewrite orb_false_r in E.
        - eapply unwrapped_merges; [exact Hu|]. apply (proj1 (merges_node _ _) Hm). now left. }
      destruct (Hc r r') as [Hr _]; [right; now left|exact Er|].
      split; [|split; [reflexivity|auto]].
      apply plain_below; [reflexivity|]. intros x [<-|[<-|[]]]; assumption.
  - cbn in H. destruct (seqM _) as [cs'| |] eqn:Es; cbn in H; try discriminate. injection H as <-. apply seqM_map_inv in Es.
    split; [|split; [reflexivity|auto]]. cbn [plain_merges] in *. rewrite Forall_id in *. intros d Hd. apply In_nth_error in Hd as (j & Hj). apply Forall2_nth in Es as [L F].
    destruct (nth_error cs j) as [c|] eqn:Ej; [|apply nth_error_None in Ej; assert (j < List.length cs') by (apply nth_error_Some; congruence); lia].
    pose proof (nth_error_In _ _ Ej) as Hin. apply (IH c) with (t' := d); [now apply child_height| | |].
    + exact (proj1 (existsb_false has_net cs) Hn c Hin).
    + exact (F j c d Ej Hj).
    + now apply Hm.
Qed.

Lemma broadcasts_merges : forall t : tree, has_net t = false -> plain_merges t ->
  plain_merges (broadcasts t) /\ round_robin (broadcasts t) = round_robin t /\ strippable (broadcasts t) = strippable t.
Proof using.
  induction t as [t IH] using tree_height_ind. intros Hn Hm.
  destruct t as [k cs|w m cs|b p q n ts i]; [| |discriminate Hn].
  - assert (Hc : forall c, In c cs -> plain_merges (broadcasts c) /\ round_robin (broadcasts c) = round_robin c).
    { intros c Hc. destruct (IH c) as (A & B & _); auto; [now apply child_height| |].
      - exact (proj1 (existsb_false has_net cs) Hn c Hc).
      - now apply (proj1 (merges_node k cs) Hm). }
    destruct (broadcasts_node k cs) as [->|(j & c & hl & hr & na & l & r & -> & -> & _ & fetch & x & Hx & ->)].
    + split; [|now destruct k]. eapply merges_children; [exact Hm|]. apply Forall2_nth. rewrite map_length. split; [reflexivity|].
      intros i a b Ha Hb. rewrite nth_error_map, Ha in Hb. injection Hb as <-. apply Hc. eapply nth_error_In; exact Ha.
    + assert (Hx' : plain_merges (broadcasts x)).
      { destruct Hx as [->|[-> ->]]; [|apply Hc; now left].
        apply (IH x).
        - pose proof (child_height (Node (KCoalesce None fetch) [x]) x (or_introl eq_refl)).
          pose proof (child_height (Node (KJoin j c hl hr na) [Node (KCoalesce None fetch) [x]; r]) _ (or_introl eq_refl)). lia.
        - pose proof (proj1 (existsb_false has_net [Node (KCoalesce None fetch) [x]; r]) Hn _ (or_introl eq_refl)) as Hln.
          cbn in Hln. now rewrite orb_false_r in Hln.
        - pose proof (proj2 (proj1 (merges_node _ _) Hm) _ (or_introl eq_refl)) as Hl. apply (proj2 (proj1 (merges_node _ _) Hl)). now left. }
      split; [|split; reflexivity]. apply plain_below; [reflexivity|]. intros y [<-|[<-|[]]].
      * apply merges_node. split; [intros _ z [<-|[]]; reflexivity|]. intros z [<-|[]]. apply plain_below; [reflexivity|].
        intros u [<-|[]]. exact Hx'.
      * apply Hc. right. now left.
  - split; [|split; reflexivity]. cbn [broadcasts plain_merges] in *. rewrite Forall_id in *. intros d Hd. apply in_map_iff in Hd as (c & <- & Hc).
    apply IH; [now apply child_height| |now apply Hm]. exact (proj1 (existsb_false has_net cs) Hn c Hc).
Qed.

Lemma isolate_merges : forall t t' : tree, has_net t = false -> isolate t = Ok t' -> plain_merges t ->
  plain_merges t' /\ round_robin t' = round_robin t /\ strippable t' = strippable t.
Proof using.
  induction t as [t IH] using tree_height_ind. intros t' Hn H Hm.
  destruct t as [k cs|w m cs|b p q n ts i]; [| |discriminate Hn].
  - apply isolate_node in H as (cs' & F & Ht).
    assert (F' : Forall2 (fun c c' => plain_merges c' /\ round_robin c' = round_robin c) cs cs').
    { eapply Forall2_impl_in; [|exact F]. intros c c' Hin E. destruct (IH c) with (t' := c') as (A & B & _); auto; [now apply child_height| |].
      - exact (proj1 (existsb_false has_net cs) Hn c Hin).
      - now apply (proj1 (merges_node k cs) Hm). }
    pose proof (merges_children k cs cs' Hm F') as G.
    destruct Ht as [[_ ->]|(-> & m & _ & ->)]; [split; [exact G|now destruct k]|].
    split; [|split; reflexivity]. cbn [plain_merges] in *. exact (proj2 G).
  - cbn in H. destruct (seqM _) as [cs'| |] eqn:Es; cbn in H; try discriminate. injection H as <-. apply seqM_map_inv in Es.
    split; [|split; reflexivity]. cbn [plain_merges] in *. rewrite Forall_id in *. intros d Hd. apply In_nth_error in Hd as (j & Hj). apply Forall2_nth in Es as [L F].
    destruct (nth_error cs j) as [c|] eqn:Ej; [|apply nth_error_None in Ej; assert (j < List.length cs') by (apply nth_error_Some; congruence); lia].
    pose proof (nth_error_In _ _ Ej) as Hin. apply (IH c) with (t' := d); [now apply child_height| | |].
    + exact (proj1 (existsb_false has_net cs) Hn c Hin).
    + exact (F j c d Ej Hj).
    + now apply Hm.
Qed.

Lemma before_merges t p : has_net t = false -> before_injection cfg t = Ok p -> plain_merges t -> plain_root t ->
  plain_merges p /\ strippable p = false.
Proof using.
  unfold before_injection. intros Hn H Hm Hr. destruct (normalize cfg t) as [t1| |] eqn:E1; cbn [bind] in H; try discriminate.
  destruct (normalize_merges t t1 Hn E1 Hm) as (M1 & R1 & P1). specialize (P1 Hr).
  destruct (normalize_facts cfg t t1 Hn E1) as [N1 _].
  set (t2 := if 1 <? tparts t1 then Node (KCoalesce None None) [t1] else t1) in *.
  assert (H2 : has_net t2 = false /\ plain_merges t2 /\ strippable t2 = false).
  { unfold t2. destruct (Nat.ltb_spec 1 (tparts t1)) as [Hp|Hp].
    - split; [cbn; now rewrite N1|]. split; [|reflexivity]. apply merges_node. split; [|intros c [<-|[]]; exact M1].
      intros _ c [<-|[]]. destruct t1 as [[] cs1| |]; try reflexivity. destruct p0; cbn in P1; try contradiction. reflexivity.
    - split; [exact N1|]. split; [exact M1|]. destruct t1 as [[] cs1| |]; try reflexivity; cbn in P1; try contradiction.
      destruct p0; try contradiction. cbn in Hp. lia. }
  destruct H2 as (N2 & M2 & S2).
  assert (H3 : has_net (insert_broadcasts cfg t2) = false /\ plain_merges (insert_broadcasts cfg t2) /\ strippable (insert_broadcasts cfg t2) = false).
  { unfold insert_broadcasts. destruct (broadcast_joins cfg); [|auto]. destruct (broadcasts_merges t2 N2 M2) as (A & _ & B).
    split; [apply broadcasts_facts; exact N2|]. split; [exact A|congruence]. }
  destruct H3 as (N3 & M3 & S3).
  unfold insert_unions in H. destruct (children_isolator_unions cfg).
  - destruct (isolate_merges _ _ N3 H M3) as (A & _ & B). split; [exact A|congruence].
  - injection H as <-. auto.
Qed.

Variable most : nat.
Hypothesis Hmost : max_tasks cfg = Ok most.
Hypothesis Hsane : sane_handlers cfg.
Hypothesis Hleaf : leaf_handlers cfg.

Theorem planned_not_bare t d text variants hash :
  has_net t = false -> dynamic_task_count cfg = false -> fits most t -> plain_merges t -> plain_root t ->
  create_distributed_plan cfg (TPlan t) = Ok (TDistributed d) ->
  no_bare_stage (ExplainModel.view_of text variants hash d).
Proof using Hmost Hsane Hleaf.
  intros Hn Hd Hf Hm Hr H. cbn [create_distributed_plan] in H.
  destruct (distribute_inv cfg most t _ Hn Hd Hf H) as (p & q & a & d0 & id & Ep & Eq & Epr & Np & Fp & [[_ E]|(_ & d' & Ea & E)]); [discriminate|].
  injection E as <-. destruct (before_merges t p Hn Ep Hm Hr) as [Mp Sp].
  destruct (inject_deployed cfg most Hmost Hsane Hleaf p q a d0 id Hd Np Fp Eq Epr) as [_ HD].
  assert (Ec : cut false p = None).
  { unfold cut. destruct p as [[] cs| |]; try reflexivity; discriminate. }
  apply dchild_tame in HD as [T0 I0]; [|intros; eapply deployed_fine; eauto|discriminate].
  specialize (I0 Ec). unfold after_prepare in Ea.
  set (d1 := if partial_reduce cfg then reduce_shuffles d0 else d0) in *.
  assert (H1 : tame d1 /\ is_net d1 = false).
  { unfold d1. destruct (partial_reduce cfg); [|auto]. destruct (reduce_tame d0 T0). split; [assumption|congruence]. }
  destruct H1 as [T1 I1]. unfold push_fetch in Ea. apply push_tame in Ea as [T2 I2]; [|exact T1].
  split; [rewrite view_boundary; congruence|]. now apply tame_view.
Qed.
End Before.
End Planned.
