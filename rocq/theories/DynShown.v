(** Proofs about the plan that is shown for task counts chosen while the query runs. *)
From Coq Require Import NArith.
From Verif Require Import Base NetModel CiuModel EventsModel JoinModel PlannerModel PlannerSpec PlannerProofs DynModel DynSpec.
Open Scope nat_scope.

Lemma NoDup_app_l {A} (l l' : list A) : NoDup (l ++ l') -> NoDup l.
Proof. induction l as [|x l IH]; cbn; intros H; [constructor|]. inversion H; subst. constructor; [|auto]. intros Hx. apply H2. apply in_or_app. now left. Qed.
Lemma NoDup_app_r {A} (l l' : list A) : NoDup (l ++ l') -> NoDup l'.
Proof. induction l as [|x l IH]; cbn; intros H; [exact H|]. inversion H; auto. Qed.

Lemma NoDup_app_not {A} (l l' : list A) : NoDup (l ++ l') -> forall x, In x l -> ~ In x l'.
Proof.
  induction l as [|y l IH]; cbn; intros H x Hx Hx'; [exact Hx|]. inversion H as [|? ? Hn Hd]; subst.
  destruct Hx as [->|Hx]; [apply Hn, in_or_app; now right|exact (IH Hd x Hx Hx')].
Qed.

Section Shown.
Context {row : Type}.
Notation tree := (tree row).
Notation smap := (list (nat * tree)).

(** ** The map *)

Definition drop (ns : list nat) (m : smap) : smap := filter (fun e => negb (existsb (Nat.eqb (fst e)) ns)) m.

Lemma existsb_eqb k ns : existsb (Nat.eqb k) ns = true <-> In k ns.
Proof.
  rewrite existsb_exists. split; [intros (x & Hx & E); apply Nat.eqb_eq in E; now subst|].
  intros H. exists k. split; [exact H|apply Nat.eqb_refl].
Qed.

Lemma drop_in ns m e : In e (drop ns m) <-> In e m /\ ~ In (fst e) ns.
Proof.
  unfold drop. rewrite filter_In. destruct (existsb (Nat.eqb (fst e)) ns) eqn:E; cbn.
  - apply existsb_eqb in E. intuition discriminate.
  - assert (~ In (fst e) ns) by (intros H; apply existsb_eqb in H; congruence). intuition.
Qed.

Lemma drop_app a b m : drop (a ++ b) m = drop b (drop a m).
Proof.
  unfold drop. induction m as [|e m IH]; [reflexivity|]. cbn [filter]. rewrite existsb_app.
  destruct (existsb (Nat.eqb (fst e)) a); cbn; [exact IH|]. destruct (existsb (Nat.eqb (fst e)) b); cbn; [exact IH|]. now rewrite IH.
Qed.

Lemma drop_perm a b (m : smap) : (forall k, In k a <-> In k b) -> drop a m = drop b m.
Proof.
  intros H. unfold drop. apply filter_ext. intros e. f_equal.
  destruct (existsb (Nat.eqb (fst e)) a) eqn:E; symmetry.
  - apply existsb_eqb in E. apply existsb_eqb. now apply H.
  - destruct (existsb (Nat.eqb (fst e)) b) eqn:F; [|reflexivity]. apply existsb_eqb, H, existsb_eqb in F. congruence.
Qed.

Lemma drop_nil m : drop [] m = m.
Proof. induction m as [|e m IH]; [reflexivity|]. cbn. f_equal. exact IH. Qed.

Lemma drop_absent ns m : (forall k, In k ns -> ~ In k (map fst m)) -> drop ns m = m.
Proof.
  induction m as [|e m IH]; intros H; [reflexivity|]. cbn. destruct (existsb (Nat.eqb (fst e)) ns) eqn:E; cbn.
  - apply existsb_eqb in E. destruct (H _ E). now left.
  - f_equal. apply IH. intros k Hk Hi. apply (H k Hk). now right.
Qed.

Lemma drop_keys ns m : NoDup (map fst m) -> NoDup (map fst (drop ns m)).
Proof.
  unfold drop. induction m as [|e m IH]; [auto|]. cbn. intros H. inversion H as [|? ? Hn Hd]; subst.
  destruct (negb _); [|auto]. cbn. constructor; [|auto]. intros Hi. apply Hn. apply in_map_iff in Hi as (x & <- & Hx).
  apply filter_In in Hx as [Hx _]. now apply in_map.
Qed.

Lemma take_in m k t : NoDup (map fst m) -> In (k, t) m -> take k m = Some (t, drop [k] m).
Proof.
  induction m as [|[k' t'] m IH]; intros Hd Hi; [destruct Hi|]. cbn in Hd. inversion Hd as [|? ? Hn Hd']; subst.
  cbn [take drop filter fst existsb]. destruct (Nat.eqb_spec k' k) as [->|Hne].
  - cbn. destruct Hi as [E|Hi]; [|destruct Hn; now apply (in_map fst) in Hi]. injection E as <-.
    f_equal. f_equal. symmetry. apply (drop_absent [k]). intros k'' [<-|[]]. exact Hn.
  - cbn. destruct Hi as [E|Hi]; [congruence|]. rewrite (IH Hd' Hi). reflexivity.
Qed.

Lemma stage_map_keys (t : tree) : map fst (stage_map t) = stage_nums t.
Proof.
  induction t as [k cs IH|w m cs IH|b part q n ts i IH] using tree_ind'; cbn.
  1,2: induction IH as [|c cs Hc _ IHl]; [reflexivity|]; cbn; rewrite map_app; congruence.
  rewrite map_app. cbn. congruence.
Qed.

(** ** Removing the inputs of boundaries *)

Lemma remote_parts (t : tree) : tparts (remote t) = tparts t.
Proof.
  induction t as [k cs IH|w m cs IH|b part q n ts i IH] using tree_ind'; [| |reflexivity].
  all: cbn [remote]; first [apply tparts_ext|apply tparts_ciu_ext]; rewrite map_map;
    apply map_ext_in; rewrite Forall_forall in IH; exact IH.
Qed.

Lemma restage_id b (part : partitioning row) tasks part' : 1 <= tasks -> restage b part tasks tasks = Ok part' -> part' = part.
Proof.
  intros Ht. unfold restage. destruct b; [congruence|congruence|].
  assert (E : forall n, n * tasks / Nat.max tasks 1 = n) by (intros n; rewrite Nat.max_l by lia; apply Nat.div_mul; lia).
  unfold scale_partitioning. destruct part; try discriminate; intros H; injection H as <-; now rewrite ?E.
Qed.

Lemma connect_parts : forall (t : tree) n d, Forall (le 1) (stage_tasks t) -> connect t n = Ok d -> tparts d = tparts t.
Proof.
  intros t. induction t as [k cs IH|w m cs IH|b part q0 nm ts i IH] using tree_ind'; intros n d Ht H; cbn [connect] in H.
  - match type of H with bind (seqM ?l) _ = _ => destruct (seqM l) as [ds| |] eqn:Es; cbn [bind] in H; try discriminate end.
    injection H as <-. apply tparts_ext. apply (seqM_map_inv (fun c => connect c n)) in Es. cbn in Ht. rewrite Forall_forall in IH.
    clear -IH Ht Es. induction Es as [|c d cs ds E _ IHl]; [reflexivity|]. cbn in Ht. apply Forall_app in Ht as [H1 H2]. cbn. f_equal.
    + eapply IH; [now left|exact H1|exact E].
    + apply IHl; [intros; eapply IH; eauto; now right|exact H2].
  - match type of H with bind (seqM ?l) _ = _ => destruct (seqM l) as [ds| |] eqn:Es; cbn [bind] in H; try discriminate end.
    injection H as <-. apply tparts_ciu_ext. apply seqM_inv in Es. cbn in Ht. rewrite Forall_forall in IH.
    revert Es. pose proof (map_task_counts_length (List.length cs) m) as L. revert L. generalize (map_task_counts (List.length cs) m).
    intros ns L Es. clear -IH Ht Es L. revert ns ds L Es. induction cs as [|c cs IHl]; intros [|n0 ns] ds L Es; try discriminate.
    + now inversion Es.
    + cbn in Es. inversion Es as [|x d l0 ds0 E Es']; subst. cbn in Ht. apply Forall_app in Ht as [H1 H2]. cbn. f_equal.
      * eapply IH; [now left|exact H1|exact E].
      * eapply IHl; eauto. intros; eapply IH; eauto; now right.
  - cbn [stage_tasks] in Ht. apply Forall_app in Ht as [_ Ht]. inversion Ht; subst.
    destruct (connect i ts); cbn [bind] in H; try discriminate. destruct (producer_head_of _ _ _); cbn [bind] in H; try discriminate.
    destruct (insert_head_node _ _); cbn [bind] in H; try discriminate.
    destruct (restage _ _ _ _) eqn:E; cbn [bind] in H; try discriminate. injection H as <-. apply restage_id in E; [|assumption]. now subst.
Qed.

Lemma connect_tasks : forall (t : tree) n d, connect t n = Ok d -> stage_tasks d = stage_tasks t.
Proof.
  intros t. induction t as [k cs IH|w m cs IH|b part q0 nm ts i IH] using tree_ind'; intros n d H; cbn [connect] in H.
  - match type of H with bind (seqM ?l) _ = _ => destruct (seqM l) as [ds| |] eqn:Es; cbn [bind] in H; try discriminate end.
    injection H as <-. apply (seqM_map_inv (fun c => connect c n)) in Es. rewrite Forall_forall in IH. cbn.
    clear -IH Es. induction Es as [|c d cs ds E _ IHl]; [reflexivity|]. cbn. f_equal.
    + eapply IH; [now left|exact E].
    + apply IHl. intros; eapply IH; eauto; now right.
  - match type of H with bind (seqM ?l) _ = _ => destruct (seqM l) as [ds| |] eqn:Es; cbn [bind] in H; try discriminate end.
    injection H as <-. apply seqM_inv in Es. rewrite Forall_forall in IH. cbn.
    revert Es. pose proof (map_task_counts_length (List.length cs) m) as L. revert L. generalize (map_task_counts (List.length cs) m).
    intros ns L Es. clear -IH Es L. revert ns ds L Es. induction cs as [|c cs IHl]; intros [|n0 ns] ds L Es; try discriminate.
    + now inversion Es.
    + cbn in Es. inversion Es as [|x d l0 ds0 E Es']; subst. cbn. f_equal.
      * eapply IH; [now left|exact E].
      * eapply IHl; eauto. intros; eapply IH; eauto; now right.
  - destruct (connect i ts) as [i'| |] eqn:Ei; cbn [bind] in H; try discriminate. destruct (producer_head_of _ _ _) as [h| |]; cbn [bind] in H; try discriminate.
    destruct (insert_head_node _ _) as [plan| |] eqn:Ep; cbn [bind] in H; try discriminate.
    destruct (restage _ _ _ _); cbn [bind] in H; try discriminate. injection H as <-. cbn [stage_tasks].
    rewrite (insert_head_tasks h i' plan Ep). f_equal. eapply IH; eauto.
Qed.

(** ** Putting the stages back *)

Definition goes (t : tree) : Prop := forall count d (m : smap), connect t count = Ok d ->
  NoDup (stage_nums t) -> Forall (le 1) (stage_tasks t) -> NoDup (map fst m) -> incl (stage_map t) m ->
  exists F, forall fuel, F <= fuel -> reconstruct fuel (remote t) count m = Ok (d, drop (stage_nums t) m).

Lemma goes_all : forall (cs : list tree) ns ds (m : smap), Forall goes cs -> List.length ns = List.length cs ->
  Forall2 (fun r d => r = Ok d) (map (fun '(f, n) => f n) (combine (map connect cs) ns)) ds ->
  NoDup (flat_map stage_nums cs) -> Forall (le 1) (flat_map stage_tasks cs) -> NoDup (map fst m) ->
  incl (flat_map stage_map cs) m ->
  exists F, forall fuel, F <= fuel ->
    thread (map (fun '(f, n) => f n) (combine (map (reconstruct fuel) (map remote cs)) ns)) m = Ok (ds, drop (flat_map stage_nums cs) m).
Proof.
  induction cs as [|c cs IH]; intros [|n ns] ds m Hg L Hc Hnd Ht Hm Hi; try discriminate.
  - inversion Hc. exists 0. intros. cbn. now rewrite drop_nil.
  - cbn in Hc. inversion Hc as [|x d l ds' E Hc']; subst. inversion Hg as [|? ? G Hg']; subst.
    cbn in Hnd, Ht, Hi. apply Forall_app in Ht as [T1 T2]. apply incl_app_inv in Hi as [I1 I2].
    destruct (G n d m E) as (F1 & H1); auto; [eapply NoDup_app_l; exact Hnd|].
    destruct (IH ns ds' (drop (stage_nums c) m)) as (F2 & H2); auto.
    + eapply NoDup_app_r; exact Hnd.
    + now apply drop_keys.
    + intros e He. apply drop_in. split; [now apply I2|]. intros Hk.
      apply (NoDup_app_not _ _ Hnd (fst e) Hk). apply in_flat_map in He as (c' & Hc2 & He). apply in_flat_map. exists c'.
      split; [exact Hc2|]. rewrite <- stage_map_keys. now apply in_map.
    + exists (Nat.max F1 F2). intros fuel HF. cbn [map combine thread flat_map]. rewrite (H1 fuel) by lia. cbn [bind].
      rewrite (H2 fuel) by lia. cbn [bind]. now rewrite drop_app.
Qed.

Lemma combine_repeat {A B} (f : A -> nat -> B) n cs :
  map (fun '(f, n) => f n) (combine (map f cs) (repeat n (List.length cs))) = map (fun c => f c n) cs.
Proof. induction cs as [|c cs IH]; [reflexivity|]. cbn. f_equal. exact IH. Qed.

(** Whether the head insertion takes the top node away. *)
Lemma strip_cases (t : tree) : (exists k c, t = Node k [c] /\ forall c', strip (Node k [c']) = c') \/
  (strip t = t /\ strip (remote t) = remote t /\ forall n d, connect t n = Ok d -> strip d = d).
Proof.
  destruct t as [k cs|w m cs|b part q num ts i].
  - destruct cs as [|c [|c1 cs]].
    + right. split; [now destruct k|]. split; [now destruct k|]. intros n d H. cbn in H. injection H as <-. now destruct k.
    + destruct k; try (left; do 2 eexists; split; [reflexivity|reflexivity]).
      all: right; split; [reflexivity|]; split; [reflexivity|]; intros n d H; cbn [connect map] in H;
        match type of H with bind (seqM ?l) _ = _ => destruct (seqM l) as [ds| |] end; cbn [bind] in H; try discriminate; now injection H as <-.
    + right. split; [now destruct k|]. split; [now destruct k|]. intros n d H. cbn [connect map] in H.
      match type of H with bind (seqM ?l) _ = _ => destruct (seqM l) as [ds| |] eqn:Es; cbn [bind] in H; try discriminate end.
      apply seqM_inv in Es. inversion Es as [|? ? ? ? ? Es']; subst. inversion Es'; subst. injection H as <-. now destruct k.
  - right. split; [reflexivity|]. split; [reflexivity|]. intros n d H. cbn [connect] in H.
    match type of H with bind (seqM ?l) _ = _ => destruct (seqM l) as [ds| |] end; cbn [bind] in H; try discriminate. now injection H as <-.
  - right. split; [reflexivity|]. split; [reflexivity|]. intros n d H. cbn [connect] in H.
    destruct (connect i ts); cbn [bind] in H; try discriminate. destruct (producer_head_of _ _ _); cbn [bind] in H; try discriminate.
    destruct (insert_head_node _ _); cbn [bind] in H; try discriminate.
    destruct (restage _ _ _ _); cbn [bind] in H; try discriminate. now injection H as <-.
Qed.

(** The stage below a boundary, with its head. *)
Lemma headed_goes (i i' : tree) h plan tasks (m m' : smap) :
  connect i tasks = Ok i' -> Forall (le 1) (stage_tasks i) ->
  (exists F, forall fuel, F <= fuel -> reconstruct fuel (remote i) tasks m = Ok (i', m')) ->
  insert_head_node h i' = Ok plan ->
  exists plan0, insert_head_node h (remote i) = Ok plan0 /\
  exists F, forall fuel, F <= fuel -> reconstruct fuel plan0 tasks m = Ok (plan, m').
Proof.
  intros Hc Ht (F & HF) Hh.
  assert (G : tparts (strip (remote i)) = tparts (strip i') /\
    exists F, forall fuel, F <= fuel -> reconstruct fuel (strip (remote i)) tasks m = Ok (strip i', m')).
  { destruct (strip_cases i) as [(k & c & -> & Hs)|(E1 & E2 & E3)].
    - cbn [remote map] in *. rewrite Hs. cbn [connect map] in Hc.
      match type of Hc with bind (seqM ?l) _ = _ => destruct (seqM l) as [ds| |] eqn:Es; cbn [bind] in Hc; try discriminate end.
      apply seqM_inv in Es. inversion Es as [|? c' ? ? E1 Es']; subst. inversion Es'; subst. injection Hc as <-. rewrite Hs.
      split.
      + rewrite remote_parts. symmetry. eapply connect_parts; [|exact E1]. cbn in Ht. now rewrite app_nil_r in Ht.
      + exists F. intros fuel Hf. specialize (HF (S fuel) ltac:(lia)). cbn [reconstruct map thread] in HF.
        destruct (reconstruct fuel (remote c) tasks m) as [[x m1]| |]; cbn [bind] in HF; try discriminate. now injection HF as <- <-.
    - rewrite E2, (E3 _ _ Hc). split; [|exists F; exact HF]. rewrite remote_parts. symmetry. eapply connect_parts; eauto. }
  destruct G as [G1 (F' & G2)]. unfold insert_head_node in *. rewrite G1. set (x := strip (remote i)) in *. set (y := strip i') in *.
  assert (W : forall k, exists F, forall fuel, F <= fuel -> reconstruct fuel (Node k [x]) tasks m = Ok (Node k [y], m')).
  { intros k. exists (S F'). intros [|fuel] Hf; [lia|]. cbn [reconstruct map thread]. rewrite G2 by lia. reflexivity. }
  destruct h as [|out|p]; [|destruct (tparts y =? 0); [discriminate|]|]; injection Hh as <-; eauto.
Qed.

Theorem shown_is_connected (t : tree) : goes t.
Proof.
  induction t as [k cs IH|w ctxs cs IH|b part q num ts i IH] using tree_ind'; intros count d m Hc Hnd Ht Hm Hi.
  - cbn [connect] in Hc.
    match type of Hc with bind (seqM ?l) _ = _ => destruct (seqM l) as [ds| |] eqn:Es; cbn [bind] in Hc; try discriminate end.
    injection Hc as <-. apply seqM_inv in Es.
    rewrite <- (combine_repeat (fun c n => connect c n) count) in Es.
    destruct (goes_all cs (repeat count (List.length cs)) ds m IH (repeat_length _ _) Es Hnd Ht Hm Hi) as (F & HF).
    exists (S F). intros [|fuel] Hf; [lia|]. cbn [reconstruct remote].
    rewrite <- (combine_repeat (reconstruct fuel) count (map remote cs)), map_length, HF by lia. reflexivity.
  - cbn [connect] in Hc.
    match type of Hc with bind (seqM ?l) _ = _ => destruct (seqM l) as [ds| |] eqn:Es; cbn [bind] in Hc; try discriminate end.
    injection Hc as <-. apply seqM_inv in Es.
    destruct (goes_all cs _ ds m IH (map_task_counts_length (List.length cs) ctxs) Es Hnd Ht Hm Hi) as (F & HF).
    exists (S F). intros [|fuel] Hf; [lia|]. cbn [reconstruct remote]. rewrite map_length, HF by lia. reflexivity.
  - cbn [connect] in Hc.
    destruct (connect i ts) as [i'| |] eqn:Ei; cbn [bind] in Hc; try discriminate.
    destruct (producer_head_of b part count) as [h| |] eqn:Eh; cbn [bind] in Hc; try discriminate.
    destruct (insert_head_node h i') as [plan| |] eqn:Ep; cbn [bind] in Hc; try discriminate.
    destruct (restage b part ts ts) as [part'| |] eqn:Er; cbn [bind] in Hc; try discriminate. injection Hc as <-.
    cbn [stage_nums stage_tasks stage_map] in *. apply Forall_app in Ht as [Ht _]. apply incl_app_inv in Hi as [Hi1 Hi2].
    assert (Hin : In (num, remote i) m) by (apply Hi2; now left).
    destruct (headed_goes i i' h plan ts (drop [num] m) (drop (stage_nums i ++ [num]) m) Ei Ht) as (plan0 & Ep0 & F & HF).
    + destruct (IH ts i' (drop [num] m) Ei) as (F & HF); auto.
      * eapply NoDup_app_l; exact Hnd.
      * now apply drop_keys.
      * intros e He. apply drop_in. split; [now apply Hi1|]. intros [E|[]].
        apply (NoDup_app_not _ _ Hnd num); [|now left]. rewrite E, <- stage_map_keys. now apply in_map.
      * exists F. intros fuel Hf. rewrite (HF fuel Hf). rewrite <- drop_app. do 2 f_equal. apply drop_perm.
        intros k. rewrite !in_app_iff. tauto.
    + exact Ep.
    + exists (S F). intros [|fuel] Hf; [lia|]. cbn [reconstruct remote]. rewrite (take_in m num (remote i) Hm Hin), Eh. cbn [bind].
      rewrite Ep0. cbn [bind]. rewrite Er. cbn [bind]. rewrite HF by lia. reflexivity.
Qed.

End Shown.
