(** Lemmas on which operator instances the tasks of a stage hold. *)
From Verif Require Import Base NetModel CiuModel EventsModel PlanModel PlanSpec PlanProofs ShareModel ShareSpec.

(** * Equations *)

Definition own_feed (o : op) : bool := match op_feed o with Some _ => true | None => false end.

Definition numbered (cs : list plan) : list (nat * plan) := combine (seq 0 (List.length cs)) cs.

Lemma in_numbered cs i c : In (i, c) (numbered cs) <-> nth_error cs i = Some c.
Proof.
  unfold numbered. enough (H : forall k, In (i, c) (combine (seq k (List.length cs)) cs) <-> k <= i /\ nth_error cs (i - k) = Some c).
  { rewrite H, Nat.sub_0_r. intuition lia. }
  induction cs as [|x cs IH]; intros k; cbn.
  - split; [intros []|]. intros [_ H]. now destruct (i - k).
  - rewrite IH. split.
    + intros [E|[H H']].
      * injection E as -> ->. split; [lia|]. now rewrite Nat.sub_diag.
      * split; [lia|]. replace (i - k) with (Datatypes.S (i - Datatypes.S k)) by lia. exact H'.
    + intros [H H']. destruct (Nat.eq_dec i k) as [->|E].
      * left. rewrite Nat.sub_diag in H'. cbn in H'. congruence.
      * right. split; [lia|]. replace (i - k) with (Datatypes.S (i - Datatypes.S k)) in H' by lia. exact H'.
Qed.

Lemma held_op t o cs at_ ctx d :
  let rs := map (fun e => held t (snd e) (at_ ++ [fst e]) ctx (d || own_feed o)) (numbered cs) in
  let changed := own_feed o || existsb snd rs in
  held t (POp o cs) at_ ctx d =
  ((at_, if d || changed then Made t at_ else Base at_) :: flat_map fst rs, changed).
Proof.
  cbn zeta. cbn [held]. fold (own_feed o).
  assert (E : forall k l, (fix go (i : nat) (l : list plan) : list (list (pos * addr) * bool) :=
                   match l with
                   | [] => []
                   | c :: l => held t c (at_ ++ [i]) ctx (d || own_feed o) :: go (Datatypes.S i) l
                   end) k l = map (fun e => held t (snd e) (at_ ++ [fst e]) ctx (d || own_feed o)) (combine (seq k (List.length l)) l)).
  { intros k l. revert k. induction l as [|c l IH]; intros k; cbn; [reflexivity|]. now rewrite IH. }
  rewrite E. reflexivity.
Qed.

Definition union_child t at_ d (s : slot) (e : nat * plan) : list (pos * addr) * bool :=
  match slot_ctx s (fst e) with
  | Some cctx => held t (snd e) (at_ ++ [fst e]) cctx d
  | None => ([(at_ ++ [fst e], Made t (at_ ++ [fst e]))], true)
  end.

Lemma held_ciu t k m cs at_ ctx d s : nth_error m (task_index ctx) = Some s ->
  held t (PCiu k m cs) at_ ctx d =
  ((at_, Made t at_) :: flat_map fst (map (union_child t at_ d s) (numbered cs)), true).
Proof.
  intros Hs. cbn [held]. rewrite Hs.
  assert (E : forall k l, (fix go (i : nat) (l : list plan) : list (list (pos * addr) * bool) :=
                       match l with
                       | [] => []
                       | c :: l =>
                           match option_map snd (find (fun e => fst e =? i) s) with
                           | Some cctx => held t c (at_ ++ [i]) cctx d
                           | None => ([(at_ ++ [i], Made t (at_ ++ [i]))], true)
                           end :: go (Datatypes.S i) l
                       end) k l = map (union_child t at_ d s) (combine (seq k (List.length l)) l)).
  { clear k. intros k l. revert k. induction l as [|c l IH]; intros k; cbn; [reflexivity|]. rewrite IH.
    unfold union_child at 2. cbn [fst snd]. reflexivity. }
  rewrite E. reflexivity.
Qed.

Lemma own_feed_spec o cs : own_feed o = true <-> has_feed (POp o cs).
Proof. unfold own_feed, has_feed. destruct (op_feed o); split; congruence. Qed.

(** * What is rebuilt *)

Lemma runs_ordinary p ctx : same_for_all_tasks p ctx -> ordinary p.
Proof. intros H. exact (H _ _ _ (runs_here p ctx)). Qed.

Lemma held_changed t p : forall at_ ctx d, runnable p ctx ->
  (snd (held t p at_ ctx d) = false <-> same_for_all_tasks p ctx).
Proof.
  induction p as [o cs IH|k m cs IH|b k tt cs _|k o vs _ _|k] using plan_ind'; intros at_ ctx d Hr.
  - rewrite held_op. cbn [snd]. rewrite orb_false_iff. split.
    + intros [Ho He] a n c Hruns. inversion Hruns as [| ? ? ? i ch a' ? ? Hi Hruns' |]; subst.
      * cbn. unfold own_feed in Ho. destruct (op_feed o); [discriminate|reflexivity].
      * assert (Hc : snd (held t ch (at_ ++ [i]) ctx (d || own_feed o)) = false).
        { destruct (snd (held t ch (at_ ++ [i]) ctx (d || own_feed o))) eqn:E; [|reflexivity].
          enough (existsb snd (map (fun e => held t (snd e) (at_ ++ [fst e]) ctx (d || own_feed o)) (numbered cs)) = true) by congruence.
          apply existsb_exists. exists (held t ch (at_ ++ [i]) ctx (d || own_feed o)). split; [|exact E].
          apply in_map_iff. exists (i, ch). split; [reflexivity|]. now apply in_numbered. }
        rewrite Forall_forall in IH. apply (IH ch (nth_error_In _ _ Hi)) in Hc; [|exact (runnable_op _ _ _ _ _ Hr Hi)].
        exact (Hc _ _ _ Hruns').
    + intros H. split.
      * pose proof (runs_ordinary _ _ H) as Ho. cbn in Ho. unfold own_feed. now rewrite Ho.
      * destruct (existsb snd _) eqn:E; [|reflexivity]. apply existsb_exists in E. destruct E as (r & Hin & Hs).
        apply in_map_iff in Hin. destruct Hin as ([i ch] & <- & Hin). cbn [fst snd] in Hs. apply in_numbered in Hin.
        rewrite Forall_forall in IH.
        assert (Hf : snd (held t ch (at_ ++ [i]) ctx (d || own_feed o)) = false).
        { apply (IH ch (nth_error_In _ _ Hin)); [exact (runnable_op _ _ _ _ _ Hr Hin)|].
          intros a n c Hruns. apply (H (i :: a) n c). now apply runs_op with ch. }
        congruence.
  - destruct (Hr _ _ _ (runs_here _ _)) as (s & Hs & _). rewrite (held_ciu _ _ _ _ _ _ _ _ Hs). cbn [snd].
    split; [discriminate|]. intros H. destruct (runs_ordinary _ _ H).
  - cbn. split; [|reflexivity]. intros _ a n c H. inversion H; subst; exact I.
  - destruct (Hr _ _ _ (runs_here _ _)) as (v & Hv & _). cbn [held]. rewrite Hv. cbn.
    split; [discriminate|]. intros H. destruct (runs_ordinary _ _ H).
  - cbn. split; [|reflexivity]. intros _ a n c H. inversion H; subst; exact I.
Qed.

(** * Feeds above a position *)

Lemma nfa_nil p ctx : no_feed_above p ctx [].
Proof. intros a b n c E Hb. symmetry in E. apply app_eq_nil in E. destruct E. contradiction. Qed.

Lemma nfa_op o cs ctx i ch rel : nth_error cs i = Some ch ->
  (no_feed_above (POp o cs) ctx (i :: rel) <-> own_feed o = false /\ no_feed_above ch ctx rel).
Proof.
  intros Hi. split.
  - intros H. split.
    + destruct (own_feed o) eqn:E; [|reflexivity]. apply (own_feed_spec _ cs) in E.
      destruct (H [] (i :: rel) _ _ eq_refl ltac:(discriminate) (runs_here _ _) E).
    + intros a b n c E Hb Hruns. apply (H (i :: a) b n c); [now rewrite E|exact Hb|]. now apply runs_op with ch.
  - intros [Ho H] a b n c E Hb Hruns. inversion Hruns as [| ? ? ? j ch' a' ? ? Hj Hruns' |]; subst.
    + intros Hf. apply own_feed_spec in Hf. congruence.
    + injection E as <- E. replace ch' with ch in * by congruence. exact (H _ _ _ _ E Hb Hruns').
Qed.

Lemma nfa_ciu k m cs ctx s i ch cctx rel : nth_error m (task_index ctx) = Some s -> NoDup (map fst s) ->
  In (i, cctx) s -> nth_error cs i = Some ch ->
  (no_feed_above (PCiu k m cs) ctx (i :: rel) <-> no_feed_above ch cctx rel).
Proof.
  intros Hs Hnd Hin Hi. split.
  - intros H a b n c E Hb Hruns. apply (H (i :: a) b n c); [now rewrite E|exact Hb|]. now apply runs_union with s ch cctx.
  - intros H a b n c E Hb Hruns. inversion Hruns as [| |? ? ? ? s' j ch' cctx' a' ? ? Hs' Hin' Hj Hruns']; subst; [tauto|].
    injection E as <- E. replace s' with s in * by congruence. replace ch' with ch in * by congruence.
    assert (cctx' = cctx).
    { apply slot_ctx_in in Hin, Hin'; try assumption. congruence. }
    subst cctx'. exact (H _ _ _ _ E Hb Hruns').
Qed.

(** * Where each kind of instance is found *)

Definition base_at (p : plan) (at_ : pos) (ctx : TaskCtx) (d : bool) (x a : pos) : Prop :=
  d = false /\ x = a /\ exists rel n c, a = at_ ++ rel /\ runs_at p ctx rel n c /\ same_for_all_tasks n c /\ no_feed_above p ctx rel.
Definition variant_at (p : plan) (at_ : pos) (ctx : TaskCtx) (d : bool) (x a : pos) (v : nat) (sub : pos) : Prop :=
  d = false /\ x = a ++ sub /\ exists rel k o vs c w, a = at_ ++ rel /\ runs_at p ctx rel (PDle k o vs) c /\ v = task_index c /\
    nth_error vs v = Some w /\ In sub (all_positions w) /\ no_feed_above p ctx rel.
Definition found (t : nat) (p : plan) (at_ : pos) (ctx : TaskCtx) (d : bool) (x : pos) (a : addr) : Prop :=
  match a with
  | Base a => base_at p at_ ctx d x a
  | OfVariant a v sub => variant_at p at_ ctx d x a v sub
  | Made t' _ => t' = t
  end.

Lemma found_op t o cs at_ ctx d i ch x a : nth_error cs i = Some ch ->
  found t ch (at_ ++ [i]) ctx (d || own_feed o) x a -> found t (POp o cs) at_ ctx d x a.
Proof.
  intros Hi. destruct a as [a|a v sub|t' a]; cbn; [| |auto].
  - intros (Hd & -> & rel & n & c & -> & Hruns & Hsame & Hn). apply orb_false_iff in Hd. destruct Hd as [-> Ho].
    split; [reflexivity|]. split; [reflexivity|]. exists (i :: rel), n, c. rewrite <- app_assoc. split; [reflexivity|].
    split; [now apply runs_op with ch|]. split; [exact Hsame|]. apply (nfa_op _ _ _ _ _ _ Hi). auto.
  - intros (Hd & -> & rel & k & o' & vs & c & w & -> & Hruns & Hv & Hw & Hin & Hn). apply orb_false_iff in Hd. destruct Hd as [-> Ho].
    split; [reflexivity|]. split; [reflexivity|]. exists (i :: rel), k, o', vs, c, w. rewrite <- app_assoc. split; [reflexivity|].
    split; [now apply runs_op with ch|]. split; [exact Hv|]. split; [exact Hw|]. split; [exact Hin|]. apply (nfa_op _ _ _ _ _ _ Hi). auto.
Qed.

Lemma found_ciu t k m cs at_ ctx d s i ch cctx x a : nth_error m (task_index ctx) = Some s -> NoDup (map fst s) ->
  In (i, cctx) s -> nth_error cs i = Some ch ->
  found t ch (at_ ++ [i]) cctx d x a -> found t (PCiu k m cs) at_ ctx d x a.
Proof.
  intros Hs Hnd Hin Hi. destruct a as [a|a v sub|t' a]; cbn; [| |auto].
  - intros (-> & -> & rel & n & c & -> & Hruns & Hsame & Hn).
    split; [reflexivity|]. split; [reflexivity|]. exists (i :: rel), n, c. rewrite <- app_assoc. split; [reflexivity|].
    split; [now apply runs_union with s ch cctx|]. split; [exact Hsame|]. now apply (nfa_ciu _ _ _ _ _ _ _ _ _ Hs Hnd Hin Hi).
  - intros (-> & -> & rel & k' & o' & vs & c & w & -> & Hruns & Hv & Hw & Hsub & Hn).
    split; [reflexivity|]. split; [reflexivity|]. exists (i :: rel), k', o', vs, c, w. rewrite <- app_assoc. split; [reflexivity|].
    split; [now apply runs_union with s ch cctx|]. split; [exact Hv|]. split; [exact Hw|]. split; [exact Hsub|].
    now apply (nfa_ciu _ _ _ _ _ _ _ _ _ Hs Hnd Hin Hi).
Qed.

Lemma held_found t p : forall at_ ctx d x a, runnable p ctx ->
  In (x, a) (fst (held t p at_ ctx d)) -> found t p at_ ctx d x a.
Proof.
  induction p as [o cs IH|k m cs IH|b k tt cs _|k o vs _ _|k] using plan_ind'; intros at_ ctx d x a Hr.
  - pose proof (held_changed t (POp o cs) at_ ctx d Hr) as Hch. rewrite held_op in *. cbn [fst snd] in *. intros [E|Hin].
    + injection E as <- <-. match goal with |- context [if ?b then Made _ _ else _] => destruct b eqn:Ed end; cbn; [reflexivity|]. apply orb_false_iff in Ed. destruct Ed as [-> Ec].
      apply Hch in Ec. split; [reflexivity|]. split; [reflexivity|]. exists [], (POp o cs), ctx. rewrite app_nil_r.
      split; [reflexivity|]. split; [constructor|]. split; [exact Ec|]. apply nfa_nil.
    + apply in_flat_map in Hin. destruct Hin as (r & Hr' & Hin). apply in_map_iff in Hr'. destruct Hr' as ([i ch] & <- & Hi).
      apply in_numbered in Hi. cbn [fst snd] in Hin. rewrite Forall_forall in IH.
      apply (found_op _ _ _ _ _ _ _ _ _ _ Hi). apply (IH ch (nth_error_In _ _ Hi)); [exact (runnable_op _ _ _ _ _ Hr Hi)|exact Hin].
  - destruct (Hr _ _ _ (runs_here _ _)) as (s & Hs & Hnd & _). rewrite (held_ciu _ _ _ _ _ _ _ _ Hs). cbn [fst]. intros [E|Hin].
    + injection E as <- <-. reflexivity.
    + apply in_flat_map in Hin. destruct Hin as (r & Hr' & Hin). apply in_map_iff in Hr'. destruct Hr' as ([i ch] & <- & Hi).
      apply in_numbered in Hi. unfold union_child in Hin. cbn [fst snd] in Hin. destruct (slot_ctx s i) as [cctx|] eqn:Ec.
      * apply slot_ctx_in in Ec; [|exact Hnd]. rewrite Forall_forall in IH.
        apply (found_ciu _ _ _ _ _ _ _ _ _ _ _ _ _ Hs Hnd Ec Hi). apply (IH ch (nth_error_In _ _ Hi)); [|exact Hin].
        exact (runnable_union _ _ _ _ _ _ _ _ Hr Hs Ec Hi).
      * destruct Hin as [E|[]]. injection E as <- <-. reflexivity.
  - cbn. intros [E|[]]. injection E as <- <-. destruct d; cbn; [reflexivity|]. split; [reflexivity|]. split; [reflexivity|].
    exists [], (PBoundary b k tt cs), ctx. rewrite app_nil_r. split; [reflexivity|]. split; [constructor|]. split; [|apply nfa_nil].
    intros a n c H. inversion H; subst; exact I.
  - destruct (Hr _ _ _ (runs_here _ _)) as (v & Hv & _). cbn [held]. rewrite Hv. cbn [fst]. intros Hin. apply in_map_iff in Hin.
    destruct Hin as (sub & E & Hsub). injection E as <- <-. destruct d; cbn; [reflexivity|]. split; [reflexivity|]. split; [reflexivity|].
    exists [], k, o, vs, ctx, v. rewrite app_nil_r. split; [reflexivity|]. split; [constructor|]. split; [reflexivity|]. split; [exact Hv|].
    split; [exact Hsub|]. apply nfa_nil.
  - cbn. intros [E|[]]. injection E as <- <-. destruct d; cbn; [reflexivity|]. split; [reflexivity|]. split; [reflexivity|].
    exists [], (PEmpty k), ctx. rewrite app_nil_r. split; [reflexivity|]. split; [constructor|]. split; [|apply nfa_nil].
    intros a n c H. inversion H; subst; exact I.
Qed.

(** Conversely. *)
Lemma base_held t p : forall at_ ctx rel n c, runnable p ctx -> runs_at p ctx rel n c -> same_for_all_tasks n c ->
  no_feed_above p ctx rel -> In (at_ ++ rel, Base (at_ ++ rel)) (fst (held t p at_ ctx false)).
Proof.
  induction p as [o cs IH|k m cs IH|b k tt cs _|k o vs _ _|k] using plan_ind'; intros at_ ctx rel n c Hr Hruns Hsame Hn.
  - pose proof (held_changed t (POp o cs) at_ ctx false Hr) as Hch. rewrite held_op in *. cbn [fst snd] in *.
    inversion Hruns as [| ? ? ? i ch a' ? ? Hi Hruns' |]; subst.
    + left. rewrite app_nil_r. cbn [orb]. apply Hch in Hsame. cbn [orb] in Hsame. rewrite Hsame. reflexivity.
    + right. apply (nfa_op _ _ _ _ _ _ Hi) in Hn. destruct Hn as [Ho Hn]. apply in_flat_map.
      exists (held t ch (at_ ++ [i]) ctx (false || own_feed o)). split; [apply in_map_iff; exists (i, ch); split; [reflexivity|now apply in_numbered]|].
      rewrite Ho. rewrite Forall_forall in IH.
      specialize (IH ch (nth_error_In _ _ Hi) (at_ ++ [i]) ctx a' n c (runnable_op _ _ _ _ _ Hr Hi) Hruns' Hsame Hn).
      rewrite <- app_assoc in IH. exact IH.
  - destruct (Hr _ _ _ (runs_here _ _)) as (s & Hs & Hnd & _). rewrite (held_ciu _ _ _ _ _ _ _ _ Hs). cbn [fst].
    inversion Hruns as [| |? ? ? ? s' i ch cctx a' ? ? Hs' Hin Hi Hruns']; subst.
    + destruct (runs_ordinary _ _ Hsame).
    + replace s' with s in * by congruence. right. apply (nfa_ciu _ _ _ _ _ _ _ _ _ Hs Hnd Hin Hi) in Hn. apply in_flat_map.
      exists (union_child t at_ false s (i, ch)). split; [apply in_map; now apply in_numbered|].
      unfold union_child. cbn [fst snd]. rewrite (proj2 (slot_ctx_in _ _ _ Hnd) Hin). rewrite Forall_forall in IH.
      specialize (IH ch (nth_error_In _ _ Hi) (at_ ++ [i]) cctx a' n c (runnable_union _ _ _ _ _ _ _ _ Hr Hs Hin Hi) Hruns' Hsame Hn).
      rewrite <- app_assoc in IH. exact IH.
  - inversion Hruns; subst. cbn. rewrite app_nil_r. now left.
  - inversion Hruns; subst. destruct (runs_ordinary _ _ Hsame).
  - inversion Hruns; subst. cbn. rewrite app_nil_r. now left.
Qed.

Lemma variant_held t p : forall at_ ctx rel k o vs c w sub, runnable p ctx -> runs_at p ctx rel (PDle k o vs) c ->
  nth_error vs (task_index c) = Some w -> In sub (all_positions w) -> no_feed_above p ctx rel ->
  In ((at_ ++ rel) ++ sub, OfVariant (at_ ++ rel) (task_index c) sub) (fst (held t p at_ ctx false)).
Proof.
  induction p as [o cs IH|k m cs IH|b k tt cs _|k o vs _ _|k] using plan_ind'; intros at_ ctx rel k' o' vs' c w sub Hr Hruns Hw Hsub Hn.
  - rewrite held_op in *. cbn [fst snd] in *. inversion Hruns as [| ? ? ? i ch a' ? ? Hi Hruns' |]; subst.
    right. apply (nfa_op _ _ _ _ _ _ Hi) in Hn. destruct Hn as [Ho Hn]. apply in_flat_map.
    exists (held t ch (at_ ++ [i]) ctx (false || own_feed o)). split; [apply in_map_iff; exists (i, ch); split; [reflexivity|now apply in_numbered]|].
    rewrite Ho. rewrite Forall_forall in IH.
    specialize (IH ch (nth_error_In _ _ Hi) (at_ ++ [i]) ctx a' k' o' vs' c w sub (runnable_op _ _ _ _ _ Hr Hi) Hruns' Hw Hsub Hn).
    change (i :: a') with ([i] ++ a'). rewrite app_assoc. exact IH.
  - destruct (Hr _ _ _ (runs_here _ _)) as (s & Hs & Hnd & _). rewrite (held_ciu _ _ _ _ _ _ _ _ Hs). cbn [fst].
    inversion Hruns as [| |? ? ? ? s' i ch cctx a' ? ? Hs' Hin Hi Hruns']; subst.
    replace s' with s in * by congruence. right. apply (nfa_ciu _ _ _ _ _ _ _ _ _ Hs Hnd Hin Hi) in Hn. apply in_flat_map.
    exists (union_child t at_ false s (i, ch)). split; [apply in_map; now apply in_numbered|].
    unfold union_child. cbn [fst snd]. rewrite (proj2 (slot_ctx_in _ _ _ Hnd) Hin). rewrite Forall_forall in IH.
    specialize (IH ch (nth_error_In _ _ Hi) (at_ ++ [i]) cctx a' k' o' vs' c w sub (runnable_union _ _ _ _ _ _ _ _ Hr Hs Hin Hi) Hruns' Hw Hsub Hn).
    change (i :: a') with ([i] ++ a'). rewrite app_assoc. exact IH.
  - inversion Hruns.
  - inversion Hruns; subst. cbn [held]. rewrite Hw. cbn [fst]. rewrite app_nil_r. apply in_map_iff. exists sub. auto.
  - inversion Hruns.
Qed.

(** The nodes of the plan are all accounted for. *)
Lemma held_made t p at_ ctx d x t' a : runnable p ctx -> In (x, Made t' a) (fst (held t p at_ ctx d)) -> t' = t.
Proof. intros Hr H. exact (held_found _ _ _ _ _ _ _ Hr H). Qed.
