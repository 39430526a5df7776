(** Proofs about the planner. *)
From Verif Require Import Base NetModel CiuModel CiuSpec CiuProofs CiuFloat CiuProps EventsModel JoinModel JoinSpec JoinProofs
  PlannerModel PlannerSpec.
From Coq Require Import ZArith NArith.

Section Trees.
Context {row : Type}.
Notation tree := (tree row).

Lemma tree_ind' (P : tree -> Prop) :
  (forall k cs, Forall P cs -> P (Node k cs)) ->
  (forall w m cs, Forall P cs -> P (Ciu w m cs)) ->
  (forall b part q n ts i, P i -> P (Net b part q n ts i)) ->
  forall t, P t.
Proof.
  intros HN HC HB. fix IH 1. intros [k cs|w m cs|b part q n ts i].
  - apply HN. induction cs; constructor; auto.
  - apply HC. induction cs; constructor; auto.
  - apply HB. apply IH.
Qed.

Lemma Forall2_map_l {A B C} (f : A -> B) (R : B -> C -> Prop) l l' :
  Forall2 R (map f l) l' <-> Forall2 (fun x y => R (f x) y) l l'.
Proof.
  revert l'. induction l as [|x l IH]; intros l'; cbn; split; intros H; inversion H; subst; constructor; auto;
  now apply IH.
Qed.

Lemma Forall2_impl_in {A B} (R R' : A -> B -> Prop) l l' :
  (forall x y, In x l -> R x y -> R' x y) -> Forall2 R l l' -> Forall2 R' l l'.
Proof.
  intros H F. induction F as [|x y l l' Hr F IH]; constructor.
  - apply H; [now left|assumption].
  - apply IH. intros a b Hin. apply H. now right.
Qed.

Lemma Forall2_nth {A B} (R : A -> B -> Prop) l l' :
  Forall2 R l l' <-> List.length l = List.length l' /\
    forall i x y, nth_error l i = Some x -> nth_error l' i = Some y -> R x y.
Proof.
  split.
  - intros F. induction F as [|x y l l' Hr F [L IH]]; [split; [reflexivity|intros [|i] ? ? E; discriminate]|].
    split; [cbn; lia|]. intros [|i] a b Ha Hb; cbn in *; [congruence|eauto].
  - revert l'. induction l as [|x l IH]; intros [|y l'] [L H]; try discriminate; constructor.
    + exact (H 0 x y eq_refl eq_refl).
    + apply IH. split; [cbn in L; lia|]. intros i a b. exact (H (S i) a b).
Qed.

Lemma Forall2_len {A B} (R : A -> B -> Prop) l l' : Forall2 R l l' -> List.length l = List.length l'.
Proof. induction 1; cbn; congruence. Qed.

Lemma seqM_inv {A} (l : list (Res A)) ys : seqM l = Ok ys -> Forall2 (fun r y => r = Ok y) l ys.
Proof. exact (mapM_ok_inv (fun x => x) l ys). Qed.

Lemma seqM_map_inv {A B} (f : A -> Res B) l ys : seqM (map f l) = Ok ys -> Forall2 (fun x y => f x = Ok y) l ys.
Proof. intros H. apply seqM_inv in H. now apply Forall2_map_l in H. Qed.

Lemma seqM_intro {A} (l : list (Res A)) ys : Forall2 (fun r y => r = Ok y) l ys -> seqM l = Ok ys.
Proof. induction 1 as [|r y l ys -> F IH]; cbn; [reflexivity|]. unfold seqM in IH. rewrite IH. reflexivity. Qed.

Lemma map_task_counts_length n m : List.length (map_task_counts n m) = n.
Proof.
  unfold map_task_counts. revert n. assert (G : forall (m : list slot) counts,
    List.length (fold_left (fun counts s => fold_left (fun counts '(i, ctx) =>
        match nth_error counts i with
        | Some k => upd counts i (Nat.max k (task_count ctx)) | None => counts end) s counts) m counts)
    = List.length counts).
  { clear. induction m as [|s m IH]; intros counts; cbn; [reflexivity|]. rewrite IH. clear.
    revert counts. induction s as [|[i ctx] s IH]; intros counts; cbn; [reflexivity|]. rewrite IH.
    destruct (nth_error counts i); [apply upd_length|reflexivity]. }
  intros n. rewrite G. apply repeat_length.
Qed.

(** Children of a union with their counts. *)
Lemma union_children {A B} (f : A -> nat -> B -> Prop) (cs : list A) counts qs :
  List.length counts = List.length cs ->
  Forall2 (fun (P : B -> Prop) q => P q) (map (fun '(P, k) => P k) (combine (map f cs) counts)) qs <->
  List.length qs = List.length cs /\
  forall i c q, nth_error cs i = Some c -> nth_error qs i = Some q -> f c (nth i counts 0) q.
Proof.
  revert counts qs. induction cs as [|c cs IH]; intros [|k counts] qs L; try discriminate; cbn.
  - split; intros H; [inversion H; subst; split; [reflexivity|intros [|i] ? ? E; discriminate]|].
    destruct qs; [constructor|destruct H; discriminate].
  - split.
    + intros H. inversion H; subst. apply IH in H4; [|cbn in L; lia]. destruct H4 as [L4 H4].
      split; [cbn; lia|]. intros [|i] c' q' Hc Hq; cbn in *; [congruence|eauto].
    + intros [L' H]. destruct qs as [|q qs]; [discriminate|]. constructor.
      * exact (H 0 c q eq_refl eq_refl).
      * apply IH; [cbn in L; lia|]. split; [cbn in L'; lia|]. intros i. exact (H (S i)).
Qed.

Lemma combine_ok {A B} (f : A -> nat -> Res B) qs : forall l ys,
  Forall2 (fun r y => r = Ok y) (map (fun '(f, n) => f n) (combine (map f qs) l)) ys ->
  Forall2 (fun (P : B -> Prop) q => P q)
    (map (fun '(P, k) => P k) (combine (map (fun q k q' => f q k = Ok q') qs) l)) ys.
Proof.
  induction qs as [|q qs IH]; intros [|k l] ys H; cbn in *; inversion H; subst; constructor; auto.
Qed.

Lemma existsb_false {A} (f : A -> bool) l : existsb f l = false <-> forall x, In x l -> f x = false.
Proof.
  induction l as [|a l IH]; cbn; [tauto|]. rewrite orb_false_iff, IH. split.
  - intros [Ha H] x [<-|Hx]; auto.
  - auto.
Qed.

Lemma list_max_le_in l n : list_max l <= n -> forall x, In x l -> x <= n.
Proof. intros H x Hx. apply list_max_le in H. rewrite Forall_forall in H. auto. Qed.

End Trees.

Section Planned.
Context {row : Type}.
Notation tree := (tree row).
Variable cfg : settings row.
Variable Q : tree -> nat -> Prop.

Definition pchild (below : bool) (c : tree) (P : nat -> tree -> Prop) (n : nat) (q : tree) : Prop :=
  match cut below c with
  | None => P n q
  | Some b => exists tasks i,
      q = Net b (boundary_partitioning b i tasks) 0 0 tasks i /\ Q c tasks /\ P tasks i
  end.

Lemma planned_node k cs n q : cs <> [] ->
  planned cfg Q (Node k cs) n q <->
  exists qs, q = Node k qs /\
    Forall2 (fun c q => pchild (is_coalesce (Node k cs)) c (planned cfg Q c) n q) cs qs.
Proof.
  intros H. destruct cs as [|c cs]; [congruence|].
  change (planned cfg Q (Node k (c :: cs)) n q) with (exists qs, q = Node k qs /\
      Forall2 (fun P q => P q) (map (fun c0 => pchild (is_coalesce (Node k (c :: cs))) c0 (planned cfg Q c0) n) (c :: cs)) qs).
  split; intros (qs & E & F); exists qs; (split; [exact E|]); now apply Forall2_map_l in F || apply Forall2_map_l.
Qed.

Lemma planned_ciu w0 m0 cs n q : cs <> [] ->
  planned cfg Q (Ciu w0 m0 cs) n q <->
  exists w m qs, q = Ciu w m qs /\ split_children w n = Ok m /\ good_allocation w n m /\ List.length w = List.length cs /\
    (forall i c, nth_error cs i = Some c -> cut false c = None -> Q c (nth i (map_task_counts (List.length cs) m) 0)) /\
    List.length qs = List.length cs /\
    forall i c q, nth_error cs i = Some c -> nth_error qs i = Some q ->
      pchild false c (planned cfg Q c) (nth i (map_task_counts (List.length cs) m) 0) q.
Proof.
  intros H. destruct cs as [|c cs]; [congruence|].
  split.
  - intros (w & m & qs & E & S & G & L & HQ & F). exists w, m, qs. split; [exact E|]. split; [exact S|].
    split; [exact G|]. split; [exact L|]. split; [exact HQ|].
    exact (proj1 (union_children (fun c => pchild false c (planned cfg Q c)) (c :: cs) _ qs (map_task_counts_length _ _)) F).
  - intros (w & m & qs & E & S & G & L & HQ & F). exists w, m, qs. split; [exact E|]. split; [exact S|].
    split; [exact G|]. split; [exact L|]. split; [exact HQ|].
    exact (proj2 (union_children (fun c => pchild false c (planned cfg Q c)) (c :: cs) _ qs (map_task_counts_length _ _)) F).
Qed.
End Planned.

(** ** Counts *)

Section Counts.
Context {row : Type}.
Notation tree := (tree row).
Variable cfg : settings row.
Variable most : nat.
Hypothesis Hmost : max_tasks cfg = Ok most.
Hypothesis Hsane : sane_handlers cfg.

Lemma most_pos : 1 <= most.
Proof using Hmost.
  unfold max_tasks in Hmost. destruct (max_tasks_per_stage cfg) as [|v].
  - destruct (worker_urls cfg); cbn in Hmost; try discriminate. injection Hmost as <-. lia.
  - injection Hmost as <-. lia.
Qed.

(** What the annotation of a node in the middle of a stage guarantees. *)
Definition limited (c : tree) (a : annotation) : Prop :=
  (forall k, In k (announced cfg c) -> as_usize a <= k) /\
  (announced cfg c <> [] -> exists k, a = Maximum k) /\
  as_usize a <= most.

Definition machine (a : annotation) : Prop :=
  (Z.of_nat (as_usize a) < 2 ^ 64)%Z /\ forall k, a = Maximum k -> 1 <= k.

Definition ok_ann (c : tree) (a : annotation) : Prop :=
  machine a /\ (cut false c = None -> limited c a).

Lemma ceil_bound x : (N.to_nat (ceil_as_usize x) <= N.to_nat usize_max).
Proof. unfold ceil_as_usize. destruct x as [|[|]| |]; try (cbn [N.to_nat]; lia). Qed.

Lemma announced_leaf (t : tree) :
  match t with Node _ [] | Ciu _ _ [] => True | _ => False end ->
  announced cfg t = match desired_task_count cfg t with
                    | Ok None => [1] | Ok (Some (Maximum k)) => [k] | _ => [] end.
Proof.
  destruct t as [k [|]|w m [|]|]; try contradiction; intros _; cbn [announced].
  - destruct k; destruct (desired_task_count cfg _) as [[[|]|]| |]; reflexivity.
  - destruct (desired_task_count cfg _) as [[[|]|]| |]; reflexivity.
Qed.

(** Folding a list of annotations into one. *)
Definition maxes (l : list annotation) : list nat :=
  flat_map (fun a => match a with Maximum k => [k] | Desired _ => [] end) l.

Lemma fold_merge_max l : forall k, exists k', fold_left merge l (Maximum k) = Maximum k' /\ k' <= k /\
  (forall x, In x (maxes l) -> k' <= x) /\ (1 <= k -> (forall x, In x (maxes l) -> 1 <= x) -> 1 <= k').
Proof.
  induction l as [|a l IH]; intros k; cbn; [exists k; repeat split; try tauto; lia|].
  destruct a as [d|m]; cbn.
  - destruct (IH k) as (k' & E & H1 & H2 & H3). exists k'. auto.
  - destruct (IH (Nat.min k m)) as (k' & E & H1 & H2 & H3). exists k'. split; [exact E|]. split; [lia|]. split.
    + intros x [<-|Hx]; [lia|auto].
    + intros Hk Hx. apply H3; [|auto]. specialize (Hx m (or_introl eq_refl)). lia.
Qed.

Lemma fold_merge l : forall b, 1 <= as_usize b -> (forall x, In x (maxes l) -> 1 <= x) ->
  let r := fold_left merge l b in
  1 <= as_usize r /\ (forall x, In x (maxes (b :: l)) -> as_usize r <= x) /\
  (maxes (b :: l) <> [] -> exists k, r = Maximum k).
Proof.
  induction l as [|a l IH]; intros b Hb Hl; cbn zeta.
  - cbn [fold_left]. split; [exact Hb|]. split.
    + destruct b; cbn; [intros x []|intros x [<-|[]]; lia].
    + destruct b; cbn; [congruence|]. eauto.
  - destruct b as [d|m].
    + destruct a as [d'|m'].
      * cbn [fold_left merge]. apply IH; [cbn in *; lia|]. intros x Hx. apply Hl. exact Hx.
      * cbn [fold_left merge]. destruct (fold_merge_max l m') as (k' & E & H1 & H2 & H3). rewrite E. cbn.
        assert (Hm : 1 <= m') by (apply Hl; now left).
        split; [apply H3; [exact Hm|]; intros x Hx; apply Hl; now right|]. split; [|eauto].
        intros x [<-|Hx]; auto.
    + destruct (fold_merge_max (a :: l) m) as (k' & E & H1 & H2 & H3). rewrite E. cbn [as_usize].
      split; [apply H3; [exact Hb|exact Hl]|]. split; [|eauto].
      cbn. intros x [<-|Hx]; [lia|]. apply H2. exact Hx.
Qed.

Lemma limit_facts a : let r := limit a most in
  as_usize r <= most /\ as_usize r <= as_usize a /\ (1 <= as_usize a -> 1 <= as_usize r) /\
  (forall k, a = Maximum k -> exists k', r = Maximum k') /\ (forall k, r = Maximum k -> exists k', a = Maximum k').
Proof using Hmost.
  pose proof most_pos. destruct a; cbn; (split; [lia|]); (split; [lia|]); (split; [lia|]); split; intros k E; eauto; discriminate.
Qed.

End Counts.

(** ** Injection *)

Section Inject.
Context {row : Type}.
Notation tree := (tree row).
Variable cfg : settings row.
Variable most : nat.
Hypothesis Hmost : max_tasks cfg = Ok most.
Hypothesis Hsane : sane_handlers cfg.
Let Q := within_limits cfg most.

(** The plan of an unfinished stage. *)
Fixpoint drafted (p q : tree) : Prop :=
  let child (below : bool) (c : tree) (D : tree -> Prop) (q : tree) :=
    match cut below c with
    | None => D q
    | Some b => exists tasks i,
        q = Net b (boundary_partitioning b i tasks) 0 0 tasks i /\ Q c tasks /\ planned cfg Q c tasks i
    end in
  match p with
  | Node _ [] | Ciu _ _ [] => q = p
  | Node k cs => exists qs, q = Node k qs /\
      Forall2 (fun P q => P q) (map (fun c => child (is_coalesce p) c (drafted c)) cs) qs
  | Ciu _ m0 cs => exists anns qs, q = Ciu (map child_weight anns) m0 qs /\
      List.length anns = List.length cs /\
      (forall i c a, nth_error cs i = Some c -> nth_error anns i = Some a -> ok_ann cfg most c a) /\
      Forall2 (fun P q => P q) (map (fun c => child false c (drafted c)) cs) qs
  | Net _ _ _ _ _ _ => False
  end.

Definition qchild (below : bool) (c : tree) (q : tree) : Prop :=
  match cut below c with
  | None => drafted c q
  | Some b => exists tasks i,
      q = Net b (boundary_partitioning b i tasks) 0 0 tasks i /\ Q c tasks /\ planned cfg Q c tasks i
  end.

Lemma drafted_node k cs q : cs <> [] ->
  drafted (Node k cs) q <-> exists qs, q = Node k qs /\ Forall2 (qchild (is_coalesce (Node k cs))) cs qs.
Proof using.
  intros H. destruct cs as [|c cs]; [congruence|].
  split; intros (qs & E & F); exists qs; (split; [exact E|]).
  - now apply (proj1 (Forall2_map_l _ _ _ _)) in F.
  - now apply (proj2 (Forall2_map_l (fun c0 => qchild (is_coalesce (Node k (c :: cs))) c0) (fun P q => P q) (c :: cs) qs)).
Qed.

Lemma drafted_ciu w m0 cs q : cs <> [] ->
  drafted (Ciu w m0 cs) q <-> exists anns qs, q = Ciu (map child_weight anns) m0 qs /\
      List.length anns = List.length cs /\
      (forall i c a, nth_error cs i = Some c -> nth_error anns i = Some a -> ok_ann cfg most c a) /\
      Forall2 (qchild false) cs qs.
Proof using.
  intros H. destruct cs as [|c cs]; [congruence|].
  split; intros (anns & qs & E & L & A & F); exists anns, qs; (split; [exact E|]); (split; [exact L|]); (split; [exact A|]).
  - now apply (proj1 (Forall2_map_l _ _ _ _)) in F.
  - now apply (proj2 (Forall2_map_l (fun c0 => qchild false c0) (fun P q => P q) (c :: cs) qs)).
Qed.

Lemma child_weights_ok anns (cs : list tree) n :
  anns <> [] -> List.length anns = List.length cs -> 1 <= n <= most ->
  (Z.of_nat most * (2 * Z.of_nat (List.length cs) + 3) < 2 ^ 53)%Z ->
  (forall i c a, nth_error cs i = Some c -> nth_error anns i = Some a -> ok_ann cfg most c a) ->
  planner_weights (map child_weight anns) n.
Proof using.
  intros Hne L Hn Hf H. split; [destruct anns; [congruence|discriminate]|]. split; [lia|]. split.
  - apply Forall_forall. intros w Hw. apply in_map_iff in Hw as (a & <- & Ha).
    apply In_nth_error in Ha as (i & Hi).
    destruct (nth_error cs i) as [c|] eqn:Hc.
    + destruct (H i c a Hc Hi) as ((Hz & Hm) & _). destruct a as [d|k]; cbn.
      * split; [exists d; auto|discriminate].
      * split; [exists k; auto|]. intros E. injection E as E. specialize (Hm k eq_refl). lia.
    + apply nth_error_None in Hc. assert (i < List.length anns) by (apply nth_error_Some; congruence). lia.
  - rewrite map_length, L. nia.
Qed.

(** The counts of the children of a union. *)
Lemma counts_good weights n m : planner_weights weights n -> split_children weights n = Ok m ->
  forall i w, nth_error weights i = Some w ->
    let k := nth i (map_task_counts (List.length weights) m) 0 in
    1 <= k <= n /\ forall c, cw_max w = Some c -> k <= c.
Proof using.
  intros Hp Es i w Hw. cbn zeta.
  destruct (planner_weights_good weights n Hp) as (m' & Es' & Hg).
  assert (m' = m) by congruence. subst m'.
  assert (Hgood : forall m', split_children weights n = Ok m' -> good_allocation weights n m')
    by (intros m' E; congruence).
  pose proof Hp as (Hne & Hb & _).
  set (children := repeat (mkChild 0 (fun (_ : TaskCtx) (_ : nat) => Ok (@nil unit))) (List.length weights)).
  assert (Hl : List.length children = List.length weights) by (unfold children; apply repeat_length).
  destruct (ciu_new_ok children weights n m Hl Hb Es Hg) as (u & Hu).
  pose proof (built_child_task_counts children weights n u Hu Hgood) as E.
  unfold child_task_counts in E. rewrite (built_children children weights n u Hu), Hl in E.
  destruct (ciu_new_inv _ _ _ _ Hu) as (_ & m' & ? & Es2 & _ & Eu). assert (m' = m) by congruence. subst m'.
  rewrite Eu in E. cbn [task_idx_map] in E. rewrite E.
  assert (Hi : i < List.length weights) by (apply nth_error_Some; congruence).
  rewrite (nth_indep _ 0 (run_count m 0)) by (rewrite map_length, seq_length; exact Hi).
  rewrite map_nth, seq_nth by exact Hi. cbn [plus].
  destruct (ga_exact _ _ _ Hg i w Hw) as (k & Hk & Hm & Hr).
  unfold run_count. rewrite Hr, all_tasks_length. auto.
Qed.

Lemma union_width_child k (cs : list tree) c : In c cs -> union_width c <= union_width (Node k cs).
Proof.
  intros H. pose proof (list_max_le_in (map union_width cs) _ (le_n _) (union_width c) (in_map _ _ _ H)).
  destruct k; cbn [union_width]; lia.
Qed.
Lemma union_width_ciu w m (cs : list tree) c : In c cs -> union_width c <= union_width (Ciu w m cs).
Proof.
  intros H. cbn. pose proof (list_max_le_in (map union_width cs) _ (le_n _) (union_width c) (in_map _ _ _ H)). lia.
Qed.

Lemma fits_mono (t t' : tree) : union_width t' <= union_width t -> fits most t -> fits most t'.
Proof. unfold fits. intros H F. nia. Qed.

(** Propagation finishes a stage. *)
Lemma propagate_planned : forall p q n q', fits most p -> 1 <= n <= most ->
  drafted p q -> propagate cfg q n = Ok q' -> planned cfg Q p n q'.
Proof using Hmost Hsane.
  induction p as [k cs IH|w m cs IH|b part qi num ts i IH] using tree_ind'; intros q n q' Hf Hn Hd Hp.
  - destruct cs as [|c0 cs0].
    { cbn in Hd. subst q. cbn in Hp |- *. unfold scaled. destruct (scale_up_leaf cfg (Node k []) n); [exact Hp|].
      now injection Hp. }
    set (cs := c0 :: cs0) in *. assert (Hne : cs <> []) by discriminate.
    apply drafted_node in Hd as (qs & -> & Hqs); [|exact Hne].
    apply planned_node; [exact Hne|].
    assert (Hq : qs <> []) by (intros ->; inversion Hqs).
    destruct qs as [|q0 qs0]; [congruence|]. set (qs := q0 :: qs0) in *.
    change (propagate cfg (Node k qs) n) with (let* cs' := seqM (map (fun c => propagate cfg c n) qs) in Ok (Node k cs')) in Hp.
    destruct (seqM _) as [qs'| |] eqn:Es; cbn in Hp; try discriminate. injection Hp as <-.
    exists qs'. split; [reflexivity|].
    apply seqM_map_inv in Es. apply Forall2_nth. apply Forall2_nth in Hqs as [L1 H1]. apply Forall2_nth in Es as [L2 H2].
    split; [congruence|]. intros i c q' Hc Hq'.
    assert (Hi : i < List.length qs) by (rewrite L2; apply nth_error_Some; congruence).
    destruct (nth_error qs i) as [q|] eqn:Eq; [|apply nth_error_None in Eq; lia].
    specialize (H1 i c q Hc Eq). specialize (H2 i q q' Eq Hq').
    assert (Hin : In c cs) by (eapply nth_error_In; exact Hc).
    unfold qchild in H1. unfold pchild. destruct (cut (is_coalesce (Node k cs)) c) as [b|].
    + destruct H1 as (tasks & i' & -> & HQ & HP). cbn in H2. injection H2 as <-. exists tasks, i'. auto.
    + rewrite Forall_forall in IH. apply (IH c Hin q n q'); auto.
      eapply fits_mono; [|exact Hf]. apply union_width_child. exact Hin.
  - destruct cs as [|c0 cs0].
    { cbn in Hd. subst q. cbn in Hp |- *. unfold scaled. destruct (scale_up_leaf cfg (Ciu w m []) n); [exact Hp|].
      now injection Hp. }
    set (cs := c0 :: cs0) in *. assert (Hne : cs <> []) by discriminate.
    apply drafted_ciu in Hd as (anns & qs & -> & L & HA & Hqs); [|exact Hne].
    apply planned_ciu; [exact Hne|].
    assert (Hq : qs <> []) by (intros ->; inversion Hqs).
    apply Forall2_nth in Hqs as [L1 H1].
    destruct qs as [|q0 qs0]; [congruence|]. set (qs := q0 :: qs0) in *.
    change (propagate cfg (Ciu (map child_weight anns) m qs) n) with
      (if negb (List.length qs =? List.length (map child_weight anns)) then Err "children and weights differ" else
       let* m := split_children (map child_weight anns) n in
       let* cs' := seqM (map (fun '(f, n) => f n)
                     (combine (map (propagate cfg) qs) (map_task_counts (List.length qs) m))) in
       Ok (Ciu (map child_weight anns) m cs')) in Hp.
    destruct (negb _); [discriminate|].
    destruct (split_children (map child_weight anns) n) as [m'| |] eqn:Em; cbn [bind] in Hp; try discriminate.
    destruct (seqM _) as [qs'| |] eqn:Es; cbn [bind] in Hp; try discriminate. injection Hp as <-.
    apply seqM_inv in Es.
    assert (Es' : Forall2 (fun (P : tree -> Prop) q => P q)
       (map (fun '(P, k) => P k) (combine (map (fun q k q' => propagate cfg q k = Ok q') qs) (map_task_counts (List.length qs) m'))) qs').
    { exact (combine_ok (propagate cfg) qs _ qs' Es). }
    apply union_children in Es' as [L2 H2]; [|apply map_task_counts_length].
    assert (Hf' : (Z.of_nat most * (2 * Z.of_nat (List.length cs) + 3) < 2 ^ 53)%Z).
    { unfold fits in Hf. change (union_width (Ciu w m cs)) with (Nat.max (List.length cs) (list_max (map union_width cs))) in Hf. nia. }
    assert (Hpw : planner_weights (map child_weight anns) n).
    { apply (child_weights_ok anns cs n); auto. intros ->. cbn in L. discriminate. }
    pose proof (counts_good _ n m' Hpw Em) as Hc. rewrite map_length, L in Hc.
    exists (map child_weight anns), m', qs'. split; [reflexivity|]. split; [exact Em|].
    split; [destruct (planner_weights_good _ _ Hpw) as (m2 & E2 & Hg2); congruence|].
    split; [rewrite map_length; exact L|]. split; [|split; [congruence|]].
    + intros i c Hci Hcut.
      assert (Hi : i < List.length anns) by (rewrite L; apply nth_error_Some; congruence).
      destruct (nth_error anns i) as [a|] eqn:Ea; [|apply nth_error_None in Ea; lia].
      destruct (HA i c a Hci Ea) as (_ & Hlim). destruct (Hlim Hcut) as (H3 & H4 & H5).
      destruct (Hc i (child_weight a)) as [Hk1 Hk2]; [now apply map_nth_error|].
      split; [lia|]. intros k Hk. destruct H4 as (k' & ->); [intros E; rewrite E in Hk; inversion Hk|].
      specialize (H3 k Hk). cbn in H3. specialize (Hk2 k' eq_refl). lia.
    + intros i c q' Hci Hq'.
      assert (Hi : i < List.length qs) by (rewrite <- L1; apply nth_error_Some; congruence).
      destruct (nth_error qs i) as [q|] eqn:Eq; [|apply nth_error_None in Eq; lia].
      specialize (H1 i c q Hci Eq). specialize (H2 i q q' Eq Hq').
      assert (Hin : In c cs) by (eapply nth_error_In; exact Hci).
      rewrite <- L1 in H2. unfold qchild in H1. unfold pchild. destruct (cut false c) as [b|].
      * destruct H1 as (tasks & i' & -> & HQ & HP). cbn in H2. injection H2 as <-. exists tasks, i'. auto.
      * rewrite Forall_forall in IH. apply (IH c Hin q _ q'); auto.
        { eapply fits_mono; [|exact Hf]. apply union_width_ciu. exact Hin. }
        destruct (nth_error anns i) as [a|] eqn:Ea; [|apply nth_error_None in Ea; lia].
        destruct (Hc i (child_weight a)) as [Hk1 Hk2]; [now apply map_nth_error|]. lia.
  - destruct Hd.
Qed.

(** What [inject] returns for a child of [p]. *)
Definition injected (par : option bool) (p : tree) (r : tree * annotation) : Prop :=
  let '(q, a) := r in
  machine a /\
  match cut (match par with Some b => b | None => false end) p with
  | Some b =>
      (exists tasks i, q = Net b (boundary_partitioning b i tasks) 0 0 tasks i /\ Q p tasks /\ planned cfg Q p tasks i) /\
      (b = BCoalesce -> a = Maximum 1)
  | None =>
      limited cfg most p a /\
      match par with
      | None => Q p (as_usize a) /\ planned cfg Q p (as_usize a) q
      | Some _ => drafted p q
      end
  end.

Lemma boundary_inv b t count q a : boundary cfg b t count = Ok (q, a) -> 1 <= as_usize count ->
  exists i, propagate cfg t (as_usize count) = Ok i /\
    q = Net b (boundary_partitioning b i (as_usize count)) 0 0 (as_usize count) i /\
    machine a /\ (b = BCoalesce -> a = Maximum 1).
Proof using.
  unfold boundary. intros H Hc. destruct (propagate cfg t (as_usize count)) as [i| |]; cbn [bind] in H; try discriminate.
  exists i. split; [reflexivity|].
  assert (HD : forall x, machine (Desired (N.to_nat (ceil_as_usize x)))).
  { intros x. split; [|discriminate]. cbn [as_usize]. unfold ceil_as_usize.
    destruct x as [|[|]| |]; unfold usize_max in *; try lia. }
  destruct b.
  - injection H as <- <-. split; [reflexivity|]. split; [apply HD|discriminate].
  - injection H as <- <-. split; [reflexivity|]. split; [apply HD|discriminate].
  - assert (E : Nat.max (div_ceil (as_usize count) 1) 1 = as_usize count).
    { unfold div_ceil. replace (as_usize count + 1 - 1) with (as_usize count) by lia. rewrite Nat.div_1_r. lia. }
    rewrite E in H. destruct (scale_partitioning _ _) as [p| |] eqn:Ep; cbn [bind] in H; try discriminate.
    injection H as <- <-. split.
    + f_equal. unfold boundary_partitioning, scale_partitioning in *. destruct (tpartitioning i); try discriminate; congruence.
    + split; [|auto]. split; [cbn; lia|]. intros k E'. injection E' as <-. lia.
Qed.

Lemma maxes_in (l : list annotation) k : In k (maxes l) <-> In (Maximum k) l.
Proof.
  unfold maxes. rewrite in_flat_map. split.
  - intros ([d|m] & H & E); cbn in E; [tauto|]. destruct E as [<-|[]]. exact H.
  - intros H. exists (Maximum k). split; [exact H|]. now left.
Qed.

Lemma rebuild_children (t : tree) rs : is_net t = false ->
  is_hash_repart (rebuild t rs) = is_hash_repart t /\ is_bcast (rebuild t rs) = is_bcast t.
Proof. destruct t as [k cs|w m [|c cs]|]; cbn; intros H; auto. discriminate. Qed.

(** A builder may raise a count that is not a maximum, up to the number of tasks allowed for a stage. *)
Definition chosen (count : annotation) (tasks : nat) : Prop :=
  tasks = as_usize count \/ exists c, 1 <= c <= most /\ tasks = as_usize (merge count (Desired c)).
Definition builds (build : list nat -> bkind -> tree -> annotation -> Res (tree * annotation)) : Prop :=
  forall at_ b t count q a, build at_ b t count = Ok (q, a) ->
  exists tasks i, propagate cfg t tasks = Ok i /\ chosen count tasks /\
    (1 <= tasks -> q = Net b (boundary_partitioning b i tasks) 0 0 tasks i) /\
    machine a /\ (b = BCoalesce -> a = Maximum 1).

Lemma seqM_positions {A B} (f : A -> list nat -> Res B) at_ : forall cs s rs,
  seqM (map (fun '(g, i) => g (i :: at_)) (combine (map f cs) (seq s (List.length cs)))) = Ok rs ->
  Forall2 (fun c r => exists at_, f c at_ = Ok r) cs rs.
Proof.
  induction cs as [|c cs IH]; intros s rs H; cbn in H; [injection H as <-; constructor|].
  destruct (f c (s :: at_)) as [r| |] eqn:E; cbn [bind] in H; try discriminate.
  destruct (mapM _ _) as [rs'| |] eqn:Es in H; cbn [bind] in H; try discriminate. injection H as <-.
  constructor; [eauto|]. exact (IH (S s) rs' Es).
Qed.

(** The annotation and the rebuilt node, from the injected children. *)
Lemma node_facts (t : tree) rs des : is_net t = false -> fits most t ->
  Forall2 (injected (Some (is_coalesce t))) (children t) rs -> desired_task_count cfg t = Ok des ->
  let count := limit (node_count cfg t des (map snd rs)) most in
  limited cfg most t count /\ machine count /\ drafted t (rebuild t rs) /\
  (1 <= as_usize count \/
   match t with Ciu _ _ (_ :: _) => count = limit (Desired (list_sum (map as_usize (map snd rs)))) most | _ => False end).
Proof using Hmost Hsane.
  intros Hnet Hf Hcs Ed. cbn zeta. destruct t as [k cs|w m cs|b part qi num ts i]; [| |discriminate Hnet].
  all: match type of Hf with fits _ ?p => set (t := p) in * end.
  all: change (children t) with cs in Hcs.
  all: set (raw := node_count cfg t des (map snd rs)) in *.
  all: set (count := limit raw most) in *.
  all: pose proof (most_pos cfg most Hmost) as Hpos.
  all: pose proof (limit_facts cfg most Hmost raw) as (Hl1 & Hl2 & Hl3 & Hl4 & Hl5); fold count in Hl1, Hl2, Hl3, Hl4, Hl5.
  (* the raw annotation *)
  all: assert (Hraw : (1 <= as_usize raw \/ (match t with Ciu _ _ (_ :: _) => True | _ => False end)) /\
          (forall k', raw = Maximum k' -> 1 <= k') /\
          (forall k', In k' (announced cfg t) -> as_usize count <= k') /\
          (announced cfg t <> [] -> exists k', raw = Maximum k')).
  - (* Node *)
    destruct cs as [|c0 cs0].
    { inversion Hcs; subst rs. rewrite (announced_leaf cfg t Logic.I), Ed. unfold raw, node_count, t in *. cbn [map].
      destruct des as [[d|x]|]; cbn [as_usize].
      - specialize (Hsane _ _ Ed). cbn in Hsane. split; [auto|]. split; [discriminate|]. split; [intros ? []|congruence].
      - specialize (Hsane _ _ Ed). cbn in Hsane. split; [auto|]. split; [intros ? E; injection E as <-; exact Hsane|].
        split; [|eauto]. intros ? [<-|[]]. cbn in Hl2. exact Hl2.
      - split; [auto|]. split; [intros ? E; injection E as <-; lia|]. split; [|eauto]. intros ? [<-|[]]. exact Hl2. }
    assert (Hdes : 1 <= as_usize (match des with Some a => a | None => Desired 1 end)).
    { destruct des as [a|]; [exact (Hsane _ _ Ed)|cbn; lia]. }
    assert (Hms : forall x, In x (maxes (map snd rs)) -> 1 <= x).
    { intros x Hx. apply maxes_in in Hx. apply in_map_iff in Hx as ([q a] & Ea & Hin). cbn in Ea. subst a.
      clear -Hcs Hin. induction Hcs as [|c r cs rs Hr Hcs IH]; [destruct Hin|]. destruct Hin as [->|Hin]; [|auto].
      destruct Hr as ((_ & Hm) & _). exact (Hm x eq_refl). }
    set (base := match des with Some a => a | None => Desired 1 end) in *.
    pose proof (fold_merge (map snd rs) base Hdes Hms) as (F1 & F2 & F3). cbn zeta in F1, F2, F3.
    (* announced limits of the children are among the maxima *)
    assert (Hann : forall k', In k' (flat_map (fun c => match cut (is_coalesce t) c with
                                 | None => announced cfg c | Some BCoalesce => [1] | Some _ => [] end) (c0 :: cs0)) ->
               exists x, In x (maxes (map snd rs)) /\ x <= k').
    { intros k' Hk. apply in_flat_map in Hk as (c & Hc & Hk).
      apply In_nth_error in Hc as (i & Hi). apply Forall2_nth in Hcs as [L Hcs].
      destruct (nth_error rs i) as [[q a]|] eqn:Er;
        [|apply nth_error_None in Er; assert (i < List.length (c0 :: cs0)) by (apply nth_error_Some; congruence); lia].
      specialize (Hcs i c (q, a) Hi Er). destruct Hcs as (_ & Hcs).
      assert (Hin : In a (map snd rs)) by (apply in_map_iff; exists (q, a); split; [reflexivity|eapply nth_error_In; exact Er]).
      destruct (cut (is_coalesce t) c) as [[| |]|]; cbn in Hk.
      - destruct Hk.
      - destruct Hk.
      - destruct Hk as [<-|[]]. destruct Hcs as (_ & Ha). rewrite (Ha eq_refl) in Hin. exists 1. split; [now apply maxes_in|lia].
      - destruct Hcs as ((Ha1 & Ha2 & _) & _). destruct Ha2 as (x & ->); [intros E; rewrite E in Hk; destruct Hk|].
        exists x. split; [now apply maxes_in|]. exact (Ha1 k' Hk). }
    assert (Hown : forall k', In k' (match des with Some (Maximum k') => [k'] | _ => [] end) -> In k' (maxes (base :: map snd rs))).
    { unfold base. destruct des as [[d|x]|]; cbn; try tauto. }
    assert (Hlist : map snd rs <> []) by (inversion Hcs; subst; discriminate).
    assert (Hgen : raw = fold_left merge (map snd rs) base \/
        (exists j a b c d, k = KJoin j a b c d /\ single_task_join (broadcast_joins cfg) j = true /\ raw = Maximum 1)).
    { unfold raw, node_count, t. destruct (map snd rs); [congruence|]. fold base.
      destruct k as [| | | | |j x1 x2 x3 x4|]; auto. destruct (single_task_join (broadcast_joins cfg) j) eqn:Ej; [|auto].
      right. exists j, x1, x2, x3, x4. auto. }
    assert (Hset : forall k', In k' (announced cfg t) -> k' = 1 /\ raw = Maximum 1 \/
        In k' (maxes (base :: map snd rs)) \/ exists x, In x (maxes (map snd rs)) /\ x <= k').
    { intros k' Hk. unfold t in Hk, Hann. cbn [announced] in Hk. fold t in Hk. rewrite Ed in Hk.
      assert (Eown : match des with Some (Maximum k0) => [k0] | _ => [] end = match (Ok des : Res (option annotation)) with Ok (Some (Maximum k0)) => [k0] | _ => [] end) by reflexivity.
      destruct k as [| | | | |j x1 x2 x3 x4|]; cbn [is_coalesce] in Hann, Hk;
        try (apply in_app_iff in Hk as [Hk|Hk]; [right; left; apply Hown; exact Hk|right; right; apply Hann; exact Hk]).
      apply in_app_iff in Hk as [Hk|Hk]; [right; left; apply Hown; exact Hk|].
      apply in_app_iff in Hk as [Hk|Hk]; [|right; right; apply Hann; exact Hk].
      rewrite one_task_join_eq in Hk. destruct (single_task_join (broadcast_joins cfg) j) eqn:Ej; [|destruct Hk]. destruct Hk as [<-|[]]. left.
      split; [reflexivity|]. unfold raw, node_count, t. destruct (map snd rs); [congruence|]. rewrite Ej. reflexivity. }
    assert (Hpos' : forall x, In x (maxes (base :: map snd rs)) -> 1 <= x).
    { intros x Hx. apply maxes_in in Hx as [Hx|Hx]; [rewrite Hx in Hdes; exact Hdes|apply Hms; now apply maxes_in]. }
    destruct Hgen as [Hgen|(j & a & b & c & d & -> & Hj & Hgen)].
    + rewrite Hgen in *. split; [left; exact F1|]. split.
      { intros k' E. rewrite E in F1. exact F1. }
      split.
      * intros k' Hk. destruct (Hset k' Hk) as [(-> & E)|[Hx|(x & Hx & Hle)]].
        { rewrite E in Hl2. cbn in Hl2. exact Hl2. }
        { specialize (F2 k' Hx). lia. }
        { assert (Hx' : In x (maxes (base :: map snd rs))) by (apply maxes_in; right; now apply maxes_in).
          specialize (F2 x Hx'). lia. }
      * intros Hne. destruct (announced cfg t) as [|k' l] eqn:Ea; [congruence|].
        destruct (Hset k') as [(-> & E)|[Hx|(x & Hx & Hle)]]; [now left|eauto| |].
        { apply F3. intros E. rewrite E in Hx. destruct Hx. }
        { apply F3. assert (Hx' : In x (maxes (base :: map snd rs))) by (apply maxes_in; right; now apply maxes_in).
          intros E. rewrite E in Hx'. destruct Hx'. }
    + rewrite Hgen in *. cbn [as_usize] in *. split; [left; lia|]. split; [intros k' E; injection E as <-; lia|].
      split; [|eauto]. intros k' Hk.
      destruct (Hset k' Hk) as [(-> & E)|[Hx|(x & Hx & Hle)]]; [lia|specialize (Hpos' k' Hx); lia|].
      specialize (Hms x Hx). lia.
  - (* conclude, Node *)
    destruct Hraw as (HrA & HrB & HrC & HrD).
    assert (HrA' : 1 <= as_usize count) by (apply Hl3; destruct HrA as [?|[]]; assumption).
    assert (Hlim : limited cfg most t count).
    { split; [exact HrC|]. split; [|exact Hl1]. intros Hne. destruct (HrD Hne) as (x & Hx). exact (Hl4 x Hx). }
    assert (HQ : Q t (as_usize count)) by (split; [lia|exact HrC]).
    assert (Hmach : machine count).
    { split; [unfold fits in Hf; lia|]. intros x Hx. destruct (Hl5 x Hx) as (y & Hy). specialize (HrB y Hy).
      rewrite Hx in HrA'. exact HrA'. }
    assert (Hdr : drafted t (rebuild t rs)).
    { unfold t. destruct cs as [|c0 cs0]; [inversion Hcs; subst; reflexivity|].
      apply drafted_node; [discriminate|]. cbn [rebuild]. exists (map fst rs). split; [reflexivity|].
      apply Forall2_nth. apply Forall2_nth in Hcs as [L Hcs]. split; [rewrite map_length; exact L|].
      intros i c q Hc Hq. rewrite nth_error_map in Hq. destruct (nth_error rs i) as [[q' a]|] eqn:Er; [|discriminate].
      cbn in Hq. injection Hq as ->. specialize (Hcs i c (q, a) Hc Er). destruct Hcs as (_ & Hcs).
      unfold qchild. destruct (cut (is_coalesce (Node k (c0 :: cs0))) c) as [b|] eqn:Ec; unfold t in Hcs; rewrite Ec in Hcs.
      - destruct Hcs as ((tasks & i' & E1 & E2 & E3) & _). exists tasks, i'. auto.
      - exact (proj2 Hcs). }
    auto.
  - (* Ciu, raw *)
    destruct cs as [|c0 cs0].
    { inversion Hcs; subst rs. rewrite (announced_leaf cfg t Logic.I), Ed. unfold raw, node_count, t in *. cbn [map].
      destruct des as [[d|x]|]; cbn [as_usize].
      - specialize (Hsane _ _ Ed). cbn in Hsane. split; [auto|]. split; [discriminate|]. split; [intros ? []|congruence].
      - specialize (Hsane _ _ Ed). cbn in Hsane. split; [auto|]. split; [intros ? E; injection E as <-; exact Hsane|].
        split; [|eauto]. intros ? [<-|[]]. cbn in Hl2. exact Hl2.
      - split; [auto|]. split; [intros ? E; injection E as <-; lia|]. split; [|eauto]. intros ? [<-|[]]. exact Hl2. }
    split; [right; exact Logic.I|]. split.
    { unfold raw, node_count, t. destruct rs; [inversion Hcs|]. cbn. discriminate. }
    unfold t. cbn [announced]. split; [intros ? []|congruence].
  - (* Ciu, conclude *)
    destruct Hraw as (HrA & HrB & HrC & HrD).
    assert (Hlim : limited cfg most t count).
    { split; [exact HrC|]. split; [|exact Hl1]. intros Hne. destruct (HrD Hne) as (x & Hx). exact (Hl4 x Hx). }
    assert (Hmach : machine count).
    { split; [unfold fits in Hf; lia|]. intros x Hx. destruct (Hl5 x Hx) as (y & Hy).
      assert (H0 : 1 <= as_usize raw) by (rewrite Hy; exact (HrB y Hy)). specialize (Hl3 H0). rewrite Hx in Hl3. exact Hl3. }
    assert (Hdr : drafted t (rebuild t rs)).
    { unfold t. destruct cs as [|c0 cs0]; [inversion Hcs; subst; reflexivity|].
      apply drafted_ciu; [discriminate|]. cbn [rebuild]. exists (map snd rs), (map fst rs).
      split; [rewrite map_map; reflexivity|]. apply Forall2_nth in Hcs as [L Hcs].
      split; [rewrite map_length; symmetry; exact L|]. split.
      - intros i c a Hc Ha. rewrite nth_error_map in Ha. destruct (nth_error rs i) as [[q a']|] eqn:Er; [|discriminate].
        cbn in Ha. injection Ha as ->. specialize (Hcs i c (q, a) Hc Er). destruct Hcs as (Hm & Hcs).
        split; [exact Hm|]. intros Ecut. cbn in Hcs. rewrite Ecut in Hcs. exact (proj1 Hcs).
      - apply Forall2_nth. split; [rewrite map_length; exact L|].
        intros i c q Hc Hq. rewrite nth_error_map in Hq. destruct (nth_error rs i) as [[q' a]|] eqn:Er; [|discriminate].
        cbn in Hq. injection Hq as ->. specialize (Hcs i c (q, a) Hc Er). destruct Hcs as (_ & Hcs). cbn in Hcs.
        unfold qchild. destruct (cut false c) as [b|] eqn:Ec.
        + destruct Hcs as ((tasks & i' & E1 & E2 & E3) & _). exists tasks, i'. auto.
        + exact (proj2 Hcs). }
    split; [exact Hlim|]. split; [exact Hmach|]. split; [exact Hdr|].
    destruct HrA as [?|Hc]; [left; auto|right]. unfold t, count, raw in *. destruct cs as [|c0 cs0]; [destruct Hc|].
    inversion Hcs; subst. reflexivity.
Qed.

Section By.
Variable prop : tree -> nat -> Res tree.
Hypothesis Hprop : forall t n i, prop t n = Ok i -> propagate cfg t n = Ok i.
Variable build : list nat -> bkind -> tree -> annotation -> Res (tree * annotation).
Hypothesis Hbuild : builds build.

Lemma chosen_limits t count tasks : limited cfg most t count -> 1 <= tasks -> chosen count tasks ->
  within_limits cfg most t tasks.
Proof using.
  intros (H1 & H2 & H3) Hc [->|(c & Hc1 & ->)]; [split; [lia|exact H1]|].
  destruct count as [d|x]; cbn [merge as_usize] in *; [|split; [lia|exact H1]].
  split; [lia|]. intros k Hk. destruct H2 as (x & E); [intros E; rewrite E in Hk; destruct Hk|discriminate].
Qed.

Lemma chosen_pos count tasks : 1 <= as_usize count -> chosen count tasks -> 1 <= tasks.
Proof using. intros H [->|(c & Hc & ->)]; [exact H|]. destruct count; cbn in *; lia. Qed.

Lemma built at_ b t t' count q a : fits most t -> limited cfg most t count -> drafted t t' ->
  (forall tasks i, propagate cfg t' tasks = Ok i -> chosen count tasks -> 1 <= tasks) ->
  build at_ b t' count = Ok (q, a) ->
  machine a /\ (exists tasks i, q = Net b (boundary_partitioning b i tasks) 0 0 tasks i /\ Q t tasks /\ planned cfg Q t tasks i) /\
  (b = BCoalesce -> a = Maximum 1).
Proof using Hmost Hsane Hbuild.
  intros Hf Hl Hd Hpos H. destruct (Hbuild _ _ _ _ _ _ H) as (tasks & i & Hp & Hc & Hq & Hm & Ha).
  specialize (Hpos tasks i Hp Hc). assert (HQ : Q t tasks) by (eapply chosen_limits; eauto).
  split; [exact Hm|]. split; [|exact Ha]. exists tasks, i. split; [auto|]. split; [exact HQ|].
  eapply propagate_planned; eauto. exact (proj1 HQ).
Qed.

Theorem inject_by_spec : forall p at_ par r, has_net p = false -> fits most p ->
  inject_by cfg prop build at_ par p = Ok r -> injected par p r.
Proof using Hmost Hsane Hprop Hbuild.
  induction p as [k cs IH|w m cs IH|b part qi num ts i IH] using tree_ind'; intros at_ par r Hnet Hf H;
    [| |discriminate Hnet].
  all: match type of Hf with fits _ ?p => set (t := p) in * end.
  all: unfold t in H; cbn [inject_by] in H; fold t in H.
  all: match type of H with bind (seqM ?l) _ = _ => destruct (seqM l) as [rs| |] eqn:Es; cbn [bind] in H; try discriminate end.
  all: apply seqM_positions in Es.
  all: assert (Hcs : Forall2 (injected (Some (is_coalesce t))) cs rs)
    by (apply Forall2_impl_in with (2 := Es); intros c r' Hin (at' & Hr); rewrite Forall_forall in IH;
        apply (IH c Hin at'); [exact (proj1 (existsb_false has_net cs) Hnet c Hin)| |exact Hr];
        eapply fits_mono; [|exact Hf]; first [apply union_width_child|apply union_width_ciu]; exact Hin).
  all: clear IH Es.
  all: unfold inject_node in H.
  all: destruct (desired_task_count cfg t) as [des| |] eqn:Ed; cbn [bind] in H; try discriminate.
  all: rewrite Hmost in H; cbn [bind] in H.
  all: destruct (node_facts t rs des) as (Hlim & Hmach & Hdr & HrA); [reflexivity|exact Hf|exact Hcs|exact Ed|].
  all: set (count := limit (node_count cfg t des (map snd rs)) most) in *.
  - (* Node *)
    assert (HrA' : 1 <= as_usize count) by (destruct HrA as [?|[]]; assumption).
    assert (HQ : Q t (as_usize count)) by (destruct Hlim as (HrC & _ & Hl1); split; [lia|exact HrC]).
    destruct (rebuild_children t rs eq_refl) as [Hh Hb].
    rewrite Hh, Hb in H. unfold injected. destruct r as [q a].
    destruct (is_hash_repart t) eqn:Eh.
    { unfold cut. rewrite Eh. eapply built; eauto using chosen_pos. }
    destruct (is_bcast t) eqn:Eb.
    { unfold cut. rewrite Eh, Eb. eapply built; eauto using chosen_pos. }
    unfold cut. rewrite Eh, Eb. destruct par as [[|]|].
    + eapply built; eauto using chosen_pos.
    + injection H as <- <-. auto.
    + destruct (prop (rebuild t rs) (as_usize count)) as [q'| |] eqn:Ep; cbn [bind] in H; try discriminate.
      apply Hprop in Ep.
      injection H as <- <-. split; [exact Hmach|]. split; [exact Hlim|]. split; [exact HQ|]. eapply propagate_planned; eauto; exact (proj1 HQ).
  - (* Ciu *)
    assert (Hzero : forall q', propagate cfg (rebuild t rs) (as_usize count) = Ok q' -> 1 <= as_usize count).
    { intros q' Hp. destruct HrA as [?|Hc]; [auto|]. unfold t in Hc, Hp, Hcs. destruct cs as [|c0 cs0]; [destruct Hc|].
      destruct (Nat.eq_dec (as_usize count) 0) as [E|E]; [|lia]. rewrite E in Hp. exfalso.
      destruct rs as [|r0 rs0]; [inversion Hcs|]. cbn [rebuild] in Hp. set (rs := r0 :: rs0) in *.
      set (qs := map fst rs) in *. assert (Hqs : exists a b, qs = a :: b) by (unfold qs, rs; cbn; eauto).
      destruct Hqs as (qa & qb & Eq). rewrite Eq in Hp. cbn [propagate] in Hp.
      destruct (negb _); discriminate. }
    destruct (rebuild_children t rs eq_refl) as [Hh Hb].
    rewrite Hh, Hb in H. unfold injected. destruct r as [q a]. cbn [is_hash_repart is_bcast t] in H.
    unfold cut. cbn [is_hash_repart is_bcast t]. destruct par as [[|]|].
    + eapply built; eauto. intros tasks i Hi [->|(c & Hc & ->)]; [eauto|].
      destruct count as [n|x] eqn:Ecount; cbn [merge as_usize] in *; [lia|eauto].
    + injection H as <- <-. auto.
    + destruct (prop (rebuild t rs) (as_usize count)) as [q'| |] eqn:Ep; cbn [bind] in H; try discriminate.
      apply Hprop in Ep.
      injection H as <- <-. assert (H1 : 1 <= as_usize count) by eauto.
      assert (HQ : Q t (as_usize count)) by (destruct Hlim as (HrC & _ & Hl1); split; [lia|exact HrC]).
      split; [exact Hmach|]. split; [exact Hlim|]. split; [exact HQ|]. eapply propagate_planned; eauto; exact (proj1 HQ).
Qed.

End By.

Lemma boundary_builds : builds (fun _ => boundary cfg).
Proof using.
  intros _ b t count q a H. destruct (propagate cfg t (as_usize count)) as [i| |] eqn:Ep.
  - exists (as_usize count), i. split; [exact Ep|]. split; [now left|].
    destruct (Nat.eq_dec (as_usize count) 0) as [E|E].
    + split; [lia|]. revert H. unfold boundary. rewrite Ep. cbn [bind].
      assert (HD : forall x, machine (Desired (N.to_nat (ceil_as_usize x)))).
      { intros x. split; [|discriminate]. cbn [as_usize]. unfold ceil_as_usize.
        destruct x as [|[|]| |]; unfold usize_max in *; try lia. }
      destruct b; intros H.
      * injection H as <- <-. split; [apply HD|discriminate].
      * injection H as <- <-. split; [apply HD|discriminate].
      * destruct (scale_partitioning _ _); cbn [bind] in H; try discriminate. injection H as <- <-.
        split; [|auto]. split; [cbn; lia|]. intros k E'. injection E' as <-. lia.
    + destruct (boundary_inv _ _ _ _ _ H ltac:(lia)) as (i' & Hp & Hq & Hm). assert (i' = i) as -> by congruence. auto.
  - unfold boundary in H. rewrite Ep in H. discriminate.
  - unfold boundary in H. rewrite Ep in H. discriminate.
Qed.

Theorem inject_spec : forall p par r, has_net p = false -> fits most p ->
  inject cfg par p = Ok r -> injected par p r.
Proof using Hmost Hsane.
  intros p par r. apply (inject_by_spec (propagate cfg)); [auto|apply boundary_builds].
Qed.

End Inject.

(** ** Preparation *)

Section Prepare.
Context {row : Type}.
Notation tree := (tree row).
Variable cfg : settings row.

Lemma seqS_inv {A} (nums : A -> list nat) (fs : list (nat -> Res (A * nat))) : forall id ds id',
  seqS fs id = Ok (ds, id') ->
  (forall f, In f fs -> forall a x b, f a = Ok (x, b) -> a <= b /\ nums x = seq a (b - a)) ->
  id <= id' /\ flat_map nums ds = seq id (id' - id) /\
  Forall2 (fun f x => exists a b, f a = Ok (x, b)) fs ds.
Proof.
  induction fs as [|f fs IH]; intros id ds id' H Hf; cbn in H.
  - injection H as <- <-. rewrite Nat.sub_diag. repeat split; auto.
  - destruct (f id) as [[x id1]| |] eqn:Ef; cbn [bind] in H; try discriminate.
    destruct (seqS fs id1) as [[xs id2]| |] eqn:Es; cbn [bind] in H; try discriminate.
    injection H as <- <-.
    destruct (Hf f (or_introl eq_refl) _ _ _ Ef) as [L1 E1].
    destruct (IH _ _ _ Es) as (L2 & E2 & F); [intros g Hg; apply Hf; now right|].
    split; [lia|]. split; [|constructor; eauto].
    cbn. rewrite E1, E2. rewrite <- (seq_tile id (id1 - id) (id2 - id1)) || idtac.
    replace (id2 - id) with ((id1 - id) + (id2 - id1)) by lia. rewrite seq_app.
    f_equal. f_equal. lia.
Qed.

Definition combined {A B} (f : A -> nat -> B) (cs : list A) (ns : list nat) : list B :=
  map (fun '(f, n) => f n) (combine (map f cs) ns).
Lemma combined_in {A B} (f : A -> nat -> B) cs ns g : In g (combined f cs ns) -> exists c n, In c cs /\ g = f c n.
Proof.
  unfold combined. intros H. apply in_map_iff in H as ([h n] & <- & H). apply in_combine_l in H.
  apply in_map_iff in H as (c & <- & H). eauto.
Qed.
Lemma combined_Forall2 {A B C} (f : A -> nat -> B) (R : B -> C -> Prop) cs : forall ns ds, List.length ns = List.length cs ->
  Forall2 R (combined f cs ns) ds <->
  List.length ds = List.length cs /\ forall i c d, nth_error cs i = Some c -> nth_error ds i = Some d -> R (f c (nth i ns 0)) d.
Proof.
  unfold combined. induction cs as [|c cs IH]; intros [|n ns] ds L; try discriminate; cbn.
  - split; intros H; [inversion H; subst; split; [reflexivity|intros [|i] ? ? E; discriminate]|].
    destruct ds; [constructor|destruct H; discriminate].
  - split.
    + intros H. inversion H; subst. apply IH in H4; [|cbn in L; lia]. destruct H4 as [L4 H4].
      split; [cbn; lia|]. intros [|i] c' q' Hc Hq; cbn in *; [congruence|eauto].
    + intros [L' H]. destruct ds as [|q qs]; [discriminate|]. constructor.
      * exact (H 0 c q eq_refl eq_refl).
      * apply IH; [cbn in L; lia|]. split; [cbn in L'; lia|]. intros i. exact (H (S i)).
Qed.
Lemma combined_Forall {A} (f : A -> nat -> Prop) cs : forall ns, List.length ns = List.length cs ->
  Forall (fun P => P) (combined f cs ns) <-> forall i c, nth_error cs i = Some c -> f c (nth i ns 0).
Proof.
  unfold combined. induction cs as [|c cs IH]; intros [|n ns] L; try discriminate; cbn.
  - split; [intros _ [|i] ? E; discriminate|constructor].
  - split.
    + intros H [|i] c' E; inversion H; subst; cbn in E; [injection E as <-; assumption|].
      apply (proj1 (IH ns ltac:(cbn in L; lia)) H3 i c' E).
    + intros H. constructor; [exact (H 0 c eq_refl)|]. apply IH; [cbn in L; lia|]. intros i. exact (H (S i)).
Qed.

Lemma strip_nums (t : tree) : stage_nums (strip t) = stage_nums t.
Proof. destruct t as [[] [|c []]| |]; cbn; rewrite ?app_nil_r; reflexivity. Qed.
Lemma strip_queries (t : tree) : stage_queries (strip t) = stage_queries t.
Proof. destruct t as [[] [|c []]| |]; cbn; rewrite ?app_nil_r; reflexivity. Qed.
Lemma strip_tasks (t : tree) : stage_tasks (strip t) = stage_tasks t.
Proof. destruct t as [[] [|c []]| |]; cbn; rewrite ?app_nil_r; reflexivity. Qed.
Lemma strip_boundaries B (t : tree) n : all_boundaries B t n -> all_boundaries B (strip t) n.
Proof. destruct t as [[] [|c []]| |]; cbn; intros H; try exact H; now inversion H. Qed.

Lemma insert_head_shape h (i plan : tree) : insert_head_node h i = Ok plan ->
  plan = strip i \/ (exists n, plan = Node (KBcast n) [strip i]) \/ exists p, plan = Node (KRepart p) [strip i].
Proof.
  unfold insert_head_node. destruct h as [|out|p]; intros H.
  - injection H as <-. auto.
  - destruct (tparts (strip i) =? 0); [discriminate|]. injection H as <-. eauto.
  - injection H as <-. eauto.
Qed.

Lemma insert_head_nums h (i plan : tree) : insert_head_node h i = Ok plan -> stage_nums plan = stage_nums i.
Proof.
  intros H. destruct (insert_head_shape h i plan H) as [->|[(n & ->)|(p & ->)]]; cbn; rewrite ?app_nil_r; apply strip_nums.
Qed.
Lemma insert_head_queries h (i plan : tree) : insert_head_node h i = Ok plan -> stage_queries plan = stage_queries i.
Proof.
  intros H. destruct (insert_head_shape h i plan H) as [->|[(n & ->)|(p & ->)]]; cbn; rewrite ?app_nil_r; apply strip_queries.
Qed.
Lemma insert_head_tasks h (i plan : tree) : insert_head_node h i = Ok plan -> stage_tasks plan = stage_tasks i.
Proof.
  intros H. destruct (insert_head_shape h i plan H) as [->|[(n & ->)|(p & ->)]]; cbn; rewrite ?app_nil_r; apply strip_tasks.
Qed.
Lemma insert_head_boundaries B h (i plan : tree) n : insert_head_node h i = Ok plan ->
  all_boundaries B i n -> all_boundaries B plan n.
Proof.
  intros H Ha. apply strip_boundaries in Ha.
  destruct (insert_head_shape h i plan H) as [->|[(m & ->)|(p & ->)]]; cbn; auto.
Qed.

Lemma prepare_tidy : forall t n id d id', prepare cfg t n id = Ok (d, id') ->
  id <= id' /\ stage_nums d = seq id (id' - id) /\ Forall (eq (query cfg)) (stage_queries d) /\
  all_boundaries prepared d n.
Proof.
  induction t as [k cs IH|w m cs IH|b part q num tasks i IH] using tree_ind'; intros n id d id' H; cbn [prepare] in H.
  - destruct (seqS _ id) as [[ds id1]| |] eqn:Es; cbn [bind] in H; try discriminate. injection H as <- <-.
    rewrite Forall_forall in IH.
    assert (Hf : forall f, In f (map (fun c => prepare cfg c n) cs) -> exists c, In c cs /\ f = prepare cfg c n).
    { intros f Hf. apply in_map_iff in Hf as (c & <- & Hc). eauto. }
    destruct (seqS_inv stage_nums _ _ _ _ Es) as (L & E & F).
    { intros f Hin a x b Hx. destruct (Hf f Hin) as (c & Hc & ->). destruct (IH c Hc _ _ _ _ Hx) as (? & ? & _). auto. }
    assert (G : forall d, In d ds -> Forall (eq (query cfg)) (stage_queries d) /\ all_boundaries prepared d n).
    { clear -F IH. apply Forall2_map_l in F. intros d Hd.
      apply In_nth_error in Hd as (i & Hi). apply Forall2_nth in F as [L F].
      destruct (nth_error cs i) as [c|] eqn:Ec.
      - destruct (F i c d Ec Hi) as (a & b & Hx). destruct (IH c ltac:(eapply nth_error_In; exact Ec) _ _ _ _ Hx) as (_ & _ & ?). auto.
      - apply nth_error_None in Ec. assert (i < List.length ds) by (apply nth_error_Some; congruence). lia. }
    split; [exact L|]. split; [exact E|]. split.
    + cbn. apply Forall_flat_map. apply Forall_forall. intros x Hx. now apply G.
    + cbn. apply Forall_forall. intros P HP. apply in_map_iff in HP as (x & <- & Hx). now apply G.
  - destruct (seqS _ id) as [[ds id1]| |] eqn:Es; cbn [bind] in H; try discriminate. injection H as <- <-.
    rewrite Forall_forall in IH. fold (combined (prepare cfg) cs (map_task_counts (List.length cs) m)) in Es.
    destruct (seqS_inv stage_nums _ _ _ _ Es) as (L & E & F).
    { intros f Hin a x b Hx. destruct (combined_in _ _ _ _ Hin) as (c & k & Hc & ->).
      destruct (IH c Hc _ _ _ _ Hx) as (? & ? & _). auto. }
    apply combined_Forall2 in F as [LF F]; [|apply map_task_counts_length].
    assert (G : forall i d, nth_error ds i = Some d -> Forall (eq (query cfg)) (stage_queries d) /\
       all_boundaries prepared d (nth i (map_task_counts (List.length cs) m) 0)).
    { intros i d Hd. destruct (nth_error cs i) as [c|] eqn:Ec.
      - destruct (F i c d Ec Hd) as (a & b & Hx). destruct (IH c ltac:(eapply nth_error_In; exact Ec) _ _ _ _ Hx) as (_ & _ & ?). auto.
      - apply nth_error_None in Ec. assert (i < List.length ds) by (apply nth_error_Some; congruence). lia. }
    split; [exact L|]. split; [exact E|]. split.
    + cbn. apply Forall_flat_map. apply Forall_forall. intros x Hx. apply In_nth_error in Hx as (i & Hi). now apply (G i x).
    + cbn. fold (combined (all_boundaries prepared) ds (map_task_counts (List.length ds) m)).
      apply combined_Forall; [apply map_task_counts_length|]. intros i d Hd. rewrite LF. now apply G.
  - destruct (prepare cfg i tasks id) as [[i' id1]| |] eqn:Ei; cbn [bind] in H; try discriminate.
    destruct (IH _ _ _ _ Ei) as (L & E & Hq & Hb).
    destruct ((n =? 1) && (tasks =? 1)) eqn:Eone.
    { injection H as <- <-. apply andb_true_iff in Eone as [En Et]. apply Nat.eqb_eq in En, Et. subst. auto. }
    destruct (producer_head_of b part n) as [h| |] eqn:Eh; cbn [bind] in H; try discriminate.
    destruct (insert_head_node h i') as [plan| |] eqn:Ep; cbn [bind] in H; try discriminate.
    destruct (restage b part tasks tasks) as [part'| |] eqn:Er; cbn [bind] in H; try discriminate.
    injection H as <- <-. split; [lia|]. split; [|split].
    + cbn. rewrite (insert_head_nums h i' plan Ep), E. replace (id1 + 1 - id) with ((id1 - id) + 1) by lia.
      rewrite seq_app. f_equal. cbn. f_equal. lia.
    + cbn. apply Forall_app. split; [now rewrite (insert_head_queries h i' plan Ep)|auto].
    + cbn. split; [|exact (insert_head_boundaries prepared h i' plan tasks Ep Hb)].
      split.
      * intros [-> ->]. rewrite Nat.eqb_refl in Eone. discriminate.
      * exists h, i'. split; [|exact Ep]. unfold restage in Er. destruct b; [| |exact Eh].
        { injection Er as <-. exact Eh. }
        { injection Er as <-. exact Eh. }
Qed.

Lemma prepare_local : forall t n id, has_net t = false -> prepare cfg t n id = Ok (t, id).
Proof.
  assert (S : forall (cs : list tree) (fs : list (nat -> Res (tree * nat))) id,
    Forall2 (fun f c => forall id, f id = Ok (c, id)) fs cs -> seqS fs id = Ok (cs, id)).
  { intros cs fs id F. revert id. induction F as [|f c fs cs Hf F IH]; intros id; cbn; [reflexivity|].
    rewrite Hf. cbn. rewrite IH. reflexivity. }
  induction t as [k cs IH|w m cs IH|b part q num tasks i IH] using tree_ind'; intros n id H; cbn [prepare];
    [| |discriminate H]; cbn in H; rewrite Forall_forall in IH.
  - erewrite S; [reflexivity|]. apply Forall2_map_l. apply Forall2_nth. split; [reflexivity|].
    intros j c c' Hc Hc' id'. assert (c = c') by congruence. subst c'. apply nth_error_In in Hc.
    apply IH; [exact Hc|]. exact (proj1 (existsb_false has_net cs) H c Hc).
  - erewrite S; [reflexivity|]. fold (combined (prepare cfg) cs (map_task_counts (List.length cs) m)).
    apply combined_Forall2; [apply map_task_counts_length|]. split; [reflexivity|].
    intros j c c' Hc Hc' id'. assert (c = c') by congruence. subst c'. apply nth_error_In in Hc.
    apply IH; [exact Hc|]. exact (proj1 (existsb_false has_net cs) H c Hc).
Qed.

(** ** From [planned] to [deployed] *)

Variable Q : tree -> nat -> Prop.
Hypothesis HQ : forall c k, Q c k -> 1 <= k.
Hypothesis Hleaf : leaf_handlers cfg.

Hypothesis Hstatic : dynamic_task_count cfg = false.
Lemma elided_true n tasks : elided cfg n tasks = true -> n = 1 /\ tasks = 1.
Proof using. unfold elided. rewrite !andb_true_iff, !Nat.eqb_eq. tauto. Qed.
Lemma elided_static n tasks : elided cfg n tasks = ((n =? 1) && (tasks =? 1))%bool.
Proof using Hstatic. unfold elided. now rewrite Hstatic. Qed.

Definition dchild (below : bool) (c : tree) (P : nat -> nat -> tree -> Prop) (s n : nat) (d : tree) : Prop :=
  match cut below c with
  | None => P s n d
  | Some b => exists tasks i,
      Q c tasks /\ P tasks tasks i /\
      if elided cfg n tasks then d = i
      else exists num h plan,
        producer_head_of b (boundary_partitioning b i tasks) n = Ok h /\
        insert_head_node h i = Ok plan /\
        d = Net b (boundary_partitioning b i tasks) (query cfg) num tasks plan
  end.

Lemma deployed_node k cs s n d : cs <> [] ->
  deployed cfg Q (Node k cs) s n d <->
  exists ds, d = Node k ds /\
    Forall2 (fun c d => dchild (is_coalesce (Node k cs)) c (deployed cfg Q c) s n d) cs ds.
Proof using.
  intros H. destruct cs as [|c cs]; [congruence|].
  change (deployed cfg Q (Node k (c :: cs)) s n d) with (exists ds, d = Node k ds /\
      Forall2 (fun P d => P d) (map (fun c0 => dchild (is_coalesce (Node k (c :: cs))) c0 (deployed cfg Q c0) s n) (c :: cs)) ds).
  split; intros (ds & E & F); exists ds; (split; [exact E|]); now apply Forall2_map_l in F || apply Forall2_map_l.
Qed.

Lemma deployed_ciu w0 m0 cs s n d : cs <> [] ->
  deployed cfg Q (Ciu w0 m0 cs) s n d <->
  exists w m ds, d = Ciu w m ds /\ split_children w s = Ok m /\ good_allocation w s m /\ List.length w = List.length cs /\
    (forall i c, nth_error cs i = Some c -> cut false c = None -> Q c (nth i (map_task_counts (List.length cs) m) 0)) /\
    List.length ds = List.length cs /\
    forall i c d, nth_error cs i = Some c -> nth_error ds i = Some d ->
      let k := nth i (map_task_counts (List.length cs) m) 0 in
      dchild false c (deployed cfg Q c) k k d.
Proof using.
  intros H. destruct cs as [|c cs]; [congruence|].
  split; intros (w & m & ds & E & S & G & L & HA & F); exists w, m, ds; (split; [exact E|]); (split; [exact S|]);
    (split; [exact G|]); (split; [exact L|]); (split; [exact HA|]).
  - exact (proj1 (combined_Forall2 (fun c k => dchild false c (deployed cfg Q c) k k) (fun P d => P d) (c :: cs) _ ds (map_task_counts_length _ _)) F).
  - exact (proj2 (combined_Forall2 (fun c k => dchild false c (deployed cfg Q c) k k) (fun P d => P d) (c :: cs) _ ds (map_task_counts_length _ _)) F).
Qed.

Lemma tpartitioning_count (t : tree) : partition_count (tpartitioning t) = tparts t.
Proof. destruct t as [[] cs| |]; reflexivity. Qed.

Lemma boundary_partitioning_count b (i : tree) tasks :
  partition_count (boundary_partitioning b i tasks) = match b with BCoalesce => tparts i * tasks | _ => tparts i end.
Proof.
  destruct b; cbn [boundary_partitioning]; [apply tpartitioning_count|reflexivity|].
  rewrite <- tpartitioning_count. destruct (tpartitioning i); reflexivity.
Qed.

(** [tparts] looks at the children only through their own number of partitions. *)
Lemma tparts_ext k (cs ds : list tree) : map tparts cs = map tparts ds -> tparts (Node k cs) = tparts (Node k ds).
Proof. intros E. cbn [tparts]. now rewrite E. Qed.
Lemma tparts_ciu_ext w m (cs ds : list tree) : map tparts cs = map tparts ds -> tparts (Ciu w m cs) = tparts (Ciu w m ds).
Proof. intros E. cbn [tparts]. now rewrite E. Qed.

Lemma planned_not_net p n q : planned cfg Q p n q -> is_net q = false.
Proof using Hleaf.
  destruct p as [k [|c cs]|w m [|c cs]|].
  - cbn. unfold scaled. destruct (scale_up_leaf cfg (Node k []) n) as [r|] eqn:E; [|intros ->; reflexivity].
    intros ->. destruct (Hleaf _ _ _ E) as (l & ->). reflexivity.
  - intros H. apply planned_node in H as (qs & -> & _); [reflexivity|discriminate].
  - cbn. unfold scaled. destruct (scale_up_leaf cfg (Ciu w m []) n) as [r|] eqn:E; [|intros ->; reflexivity].
    intros ->. destruct (Hleaf _ _ _ E) as (l & ->). reflexivity.
  - intros H. apply planned_ciu in H as (w' & m' & qs & -> & _); [reflexivity|discriminate].
  - intros [].
Qed.

Lemma restage_same b (i : tree) tasks part' : 1 <= tasks ->
  restage b (boundary_partitioning b i tasks) tasks tasks = Ok part' -> part' = boundary_partitioning b i tasks.
Proof.
  intros Ht. unfold restage. destruct b; [congruence|congruence|].
  cbn [boundary_partitioning]. unfold scale_partitioning.
  assert (E : forall n, n * tasks * tasks / Nat.max tasks 1 = n * tasks).
  { intros n. replace (Nat.max tasks 1) with tasks by lia. apply Nat.div_mul. lia. }
  destruct (tpartitioning i); rewrite ?E; congruence.
Qed.

Lemma scaled_leaf t n q : children t = [] -> is_net t = false -> scaled cfg t n q -> children q = [] /\ is_net q = false.
Proof using Hleaf.
  unfold scaled. intros Hc Hn H. destruct (scale_up_leaf cfg t n) as [r|] eqn:E.
  - subst r. destruct (Hleaf _ _ _ E) as (l & ->). auto.
  - subst q. auto.
Qed.

Lemma leaf_local (t : tree) : children t = [] -> is_net t = false -> has_net t = false.
Proof. destruct t; cbn; intros H1 H2; [now subst|now subst|discriminate]. Qed.

Theorem prepare_deployed : forall p s q n id d id', planned cfg Q p s q ->
  prepare cfg q n id = Ok (d, id') ->
  deployed cfg Q p s n d /\ tparts d = tparts q /\ tpartitioning d = tpartitioning q.
Proof using HQ Hleaf Hstatic.
  (* one child *)
  assert (Hchild : forall below c s q n id d id',
    (forall s q n id d id', planned cfg Q c s q -> prepare cfg q n id = Ok (d, id') ->
       deployed cfg Q c s n d /\ tparts d = tparts q /\ tpartitioning d = tpartitioning q) ->
    pchild Q below c (planned cfg Q c) s q -> prepare cfg q n id = Ok (d, id') ->
    dchild below c (deployed cfg Q c) s n d /\ tparts d = tparts q).
  { intros below c s q n id d id' IH Hp H. unfold pchild in Hp. unfold dchild. destruct (cut below c) as [b|].
    - destruct Hp as (tasks & i & -> & Hq & Hp). cbn [prepare] in H.
      destruct (prepare cfg i tasks id) as [[i' id1]| |] eqn:Ei; cbn [bind] in H; try discriminate.
      destruct (IH _ _ _ _ _ _ Hp Ei) as (Hd & Et & Ep).
      assert (Eb : boundary_partitioning b i tasks = boundary_partitioning b i' tasks).
      { destruct b; cbn [boundary_partitioning]; rewrite ?Ep, ?Et; reflexivity. }
      destruct ((n =? 1) && (tasks =? 1)) eqn:Eone.
      + injection H as <- <-. split; [exists tasks, i'; rewrite elided_static, Eone by assumption; auto|].
        apply andb_true_iff in Eone as [_ E1]. apply Nat.eqb_eq in E1. subst tasks.
        cbn [tparts]. rewrite boundary_partitioning_count. destruct b; lia.
      + destruct (producer_head_of b _ n) as [h| |] eqn:Eh; cbn [bind] in H; try discriminate.
        destruct (insert_head_node h i') as [plan| |] eqn:Epl; cbn [bind] in H; try discriminate.
        destruct (restage b _ tasks tasks) as [part'| |] eqn:Er; cbn [bind] in H; try discriminate.
        injection H as <- <-. apply restage_same in Er; [|exact (HQ _ _ Hq)]. subst part'. rewrite Eb in *.
        split; [|cbn [tparts]; reflexivity].
        exists tasks, i'. rewrite elided_static, Eone by assumption. split; [exact Hq|]. split; [exact Hd|]. exists id1, h, plan. auto.
    - destruct (IH _ _ _ _ _ _ Hp H) as (Hd & Et & _). auto. }
  assert (Hparts : forall ds qs : list tree, List.length ds = List.length qs ->
    (forall i d q, nth_error ds i = Some d -> nth_error qs i = Some q -> tparts d = tparts q) ->
    map tparts ds = map tparts qs).
  { clear. induction ds as [|d ds IH]; intros [|q qs] L H; try discriminate; [reflexivity|]. cbn. f_equal.
    - exact (H 0 d q eq_refl eq_refl).
    - apply IH; [cbn in L; lia|]. intros i. exact (H (S i)). }
  induction p as [k cs IH|w m cs IH|b part qi num tasks i IH] using tree_ind'; intros s q n id d id' Hp H;
    [| |destruct Hp]; rewrite Forall_forall in IH.
  - destruct cs as [|c0 cs0].
    { cbn in Hp. destruct (scaled_leaf (Node k []) _ _ eq_refl eq_refl Hp) as [Hc Hn].
      rewrite (prepare_local q n id (leaf_local q Hc Hn)) in H. injection H as <- <-. auto. }
    set (cs := c0 :: cs0) in *. apply planned_node in Hp as (qs & -> & Hqs); [|discriminate].
    cbn [prepare] in H. destruct (seqS _ id) as [[ds id1]| |] eqn:Es; cbn [bind] in H; try discriminate. injection H as <- <-.
    destruct (seqS_inv stage_nums _ _ _ _ Es) as (_ & _ & F).
    { intros f Hin a x b Hx. apply in_map_iff in Hin as (c & <- & _). destruct (prepare_tidy _ _ _ _ _ Hx) as (? & ? & _). auto. }
    apply Forall2_map_l in F. apply Forall2_nth in F as [L1 F]. apply Forall2_nth in Hqs as [L2 Hqs].
    assert (G : forall i c q d, nth_error cs i = Some c -> nth_error qs i = Some q -> nth_error ds i = Some d ->
      dchild (is_coalesce (Node k cs)) c (deployed cfg Q c) s n d /\ tparts d = tparts q).
    { intros i c q d Hc Hq Hd. destruct (F i q d Hq Hd) as (a & b & Hx).
      eapply Hchild; [|exact (Hqs i c q Hc Hq)|exact Hx]. intros. eapply IH; eauto. eapply nth_error_In; exact Hc. }
    assert (Hlk : forall i, i < List.length cs -> exists q, nth_error qs i = Some q).
    { intros i Hi. destruct (nth_error qs i) eqn:E; [eauto|]. apply nth_error_None in E. lia. }
    split; [|split].
    + apply deployed_node; [discriminate|]. exists ds. split; [reflexivity|]. apply Forall2_nth. split; [lia|].
      intros i c d Hc Hd. destruct (Hlk i) as (q & Hq); [apply nth_error_Some; congruence|]. exact (proj1 (G i c q d Hc Hq Hd)).
    + apply tparts_ext. apply Hparts; [lia|]. intros i d q Hd Hq.
      destruct (nth_error cs i) as [c|] eqn:Hc; [exact (proj2 (G i c q d Hc Hq Hd))|].
      apply nth_error_None in Hc. assert (i < List.length qs) by (apply nth_error_Some; congruence). lia.
    + assert (E : tparts (Node k ds) = tparts (Node k qs)).
      { apply tparts_ext. apply Hparts; [lia|]. intros i d q Hd Hq.
        destruct (nth_error cs i) as [c|] eqn:Hc; [exact (proj2 (G i c q d Hc Hq Hd))|].
        apply nth_error_None in Hc. assert (i < List.length qs) by (apply nth_error_Some; congruence). lia. }
      unfold tpartitioning. rewrite E. reflexivity.
  - destruct cs as [|c0 cs0].
    { cbn in Hp. destruct (scaled_leaf (Ciu w m []) _ _ eq_refl eq_refl Hp) as [Hc Hn].
      rewrite (prepare_local q n id (leaf_local q Hc Hn)) in H. injection H as <- <-. auto. }
    set (cs := c0 :: cs0) in *. apply planned_ciu in Hp as (w' & m' & qs & -> & Hs & Hgood & Hw & HA & L2 & Hqs); [|discriminate].
    cbn [prepare] in H. destruct (seqS _ id) as [[ds id1]| |] eqn:Es; cbn [bind] in H; try discriminate. injection H as <- <-.
    fold (combined (prepare cfg) qs (map_task_counts (List.length qs) m')) in Es.
    destruct (seqS_inv stage_nums _ _ _ _ Es) as (_ & _ & F).
    { intros f Hin a x b Hx. destruct (combined_in _ _ _ _ Hin) as (c & k & _ & ->).
      destruct (prepare_tidy _ _ _ _ _ Hx) as (? & ? & _). auto. }
    apply combined_Forall2 in F as [L1 F]; [|apply map_task_counts_length].
    assert (G : forall i c q d, nth_error cs i = Some c -> nth_error qs i = Some q -> nth_error ds i = Some d ->
      dchild false c (deployed cfg Q c) (nth i (map_task_counts (List.length cs) m') 0) (nth i (map_task_counts (List.length cs) m') 0) d
      /\ tparts d = tparts q).
    { intros i c q d Hc Hq Hd. destruct (F i q d Hq Hd) as (a & b & Hx). rewrite L2 in Hx.
      eapply Hchild; [|exact (Hqs i c q Hc Hq)|exact Hx]. intros. eapply IH; eauto. eapply nth_error_In; exact Hc. }
    assert (Hlk : forall i, i < List.length cs -> exists q, nth_error qs i = Some q).
    { intros i Hi. destruct (nth_error qs i) eqn:E; [eauto|]. apply nth_error_None in E. lia. }
    assert (E : tparts (Ciu w' m' ds) = tparts (Ciu w' m' qs)).
    { apply tparts_ciu_ext. apply Hparts; [lia|]. intros i d q Hd Hq.
      destruct (nth_error cs i) as [c|] eqn:Hc; [exact (proj2 (G i c q d Hc Hq Hd))|].
      apply nth_error_None in Hc. assert (i < List.length qs) by (apply nth_error_Some; congruence). lia. }
    split; [|split; [exact E|unfold tpartitioning; now rewrite E]].
    apply deployed_ciu; [discriminate|]. exists w', m', ds. split; [reflexivity|]. split; [exact Hs|]. split; [exact Hgood|]. split; [exact Hw|].
    split; [exact HA|]. split; [lia|]. intros i c d Hc Hd. cbn zeta.
    destruct (Hlk i) as (q & Hq); [apply nth_error_Some; congruence|]. exact (proj1 (G i c q d Hc Hq Hd)).
Qed.

End Prepare.

(** ** Consequences for the deployed plan *)

Section Deployed.
Context {row : Type}.
Notation tree := (tree row).
Variable cfg : settings row.

Lemma counts_of_good weights n m : split_children weights n = Ok m -> good_allocation weights n m ->
  map_task_counts (List.length weights) m = map (run_count m) (seq 0 (List.length weights)).
Proof.
  intros Es Hg.
  assert (Hgood : forall m', split_children weights n = Ok m' -> good_allocation weights n m')
    by (intros m' E; congruence).
  assert (Hb : 0 < n) by (unfold split_children in Es; destruct (Nat.eqb_spec n 0); [discriminate|lia]).
  set (children := repeat (mkChild 0 (fun (_ : TaskCtx) (_ : nat) => Ok (@nil unit))) (List.length weights)).
  assert (Hl : List.length children = List.length weights) by (unfold children; apply repeat_length).
  destruct (ciu_new_ok children weights n m Hl Hb Es Hg) as (u & Hu).
  pose proof (built_child_task_counts children weights n u Hu Hgood) as E.
  unfold child_task_counts in E. rewrite (built_children children weights n u Hu), Hl in E.
  destruct (ciu_new_inv _ _ _ _ Hu) as (_ & m' & ? & Es2 & _ & Eu). assert (m' = m) by congruence. subst m'.
  rewrite Eu in E. exact E.
Qed.

Lemma count_of_good weights n m i : split_children weights n = Ok m -> good_allocation weights n m ->
  i < List.length weights ->
  nth i (map_task_counts (List.length weights) m) 0 = run_count m i /\ 1 <= run_count m i <= n.
Proof.
  intros Es Hg Hi. rewrite (counts_of_good weights n m Es Hg).
  rewrite (nth_indep _ 0 (run_count m 0)) by (rewrite map_length, seq_length; exact Hi).
  rewrite map_nth, seq_nth by exact Hi. cbn [plus]. split; [reflexivity|].
  destruct (nth_error weights i) as [w|] eqn:Hw; [|apply nth_error_None in Hw; lia].
  destruct (ga_exact _ _ _ Hg i w Hw) as (k & Hk & Hm & Hr).
  unfold run_count. rewrite Hr, all_tasks_length. auto.
Qed.

Variable Q : tree -> nat -> Prop.

Lemma deployed_counts (w : list ChildWeight) (cs : list tree) s m i : split_children w s = Ok m -> good_allocation w s m ->
  List.length w = List.length cs -> i < List.length cs -> 1 <= nth i (map_task_counts (List.length cs) m) 0 <= s.
Proof.
  intros Es Hg L Hi. rewrite <- L in *. destruct (count_of_good w s m i Es Hg Hi) as [-> H]. exact H.
Qed.

Lemma prepare_child below c s q n id d id' :
  (forall c k, Q c k -> 1 <= k) -> leaf_handlers cfg -> dynamic_task_count cfg = false ->
  pchild Q below c (planned cfg Q c) s q -> prepare cfg q n id = Ok (d, id') ->
  dchild cfg Q below c (deployed cfg Q c) s n d /\ tparts d = tparts q.
Proof.
  intros HQ Hleaf Hstatic Hp H. unfold pchild in Hp. unfold dchild. destruct (cut below c) as [b|].
  - destruct Hp as (tasks & i & -> & Hq & Hp). cbn [prepare] in H.
    destruct (prepare cfg i tasks id) as [[i' id1]| |] eqn:Ei; cbn [bind] in H; try discriminate.
    destruct (prepare_deployed cfg Q HQ Hleaf Hstatic _ _ _ _ _ _ _ Hp Ei) as (Hd & Et & Ep).
    assert (Eb : boundary_partitioning b i tasks = boundary_partitioning b i' tasks).
    { destruct b; cbn [boundary_partitioning]; rewrite ?Ep, ?Et; reflexivity. }
    destruct ((n =? 1) && (tasks =? 1)) eqn:Eone.
    + injection H as <- <-. split; [exists tasks, i'; rewrite elided_static, Eone by assumption; auto|].
      apply andb_true_iff in Eone as [_ E1]. apply Nat.eqb_eq in E1. subst tasks.
      cbn [tparts]. rewrite boundary_partitioning_count. destruct b; lia.
    + destruct (producer_head_of b _ n) as [h| |] eqn:Eh; cbn [bind] in H; try discriminate.
      destruct (insert_head_node h i') as [plan| |] eqn:Epl; cbn [bind] in H; try discriminate.
      destruct (restage b _ tasks tasks) as [part'| |] eqn:Er; cbn [bind] in H; try discriminate.
      injection H as <- <-. apply restage_same in Er; [|exact (HQ _ _ Hq)]. subst part'. rewrite Eb in *.
      split; [|cbn [tparts]; reflexivity].
      exists tasks, i'. rewrite elided_static, Eone by assumption. split; [exact Hq|]. split; [exact Hd|]. exists id1, h, plan. auto.
  - destruct (prepare_deployed cfg Q HQ Hleaf Hstatic _ _ _ _ _ _ _ Hp H) as (Hd & Et & _). auto.
Qed.

(** The number of tasks of every stage. *)
Lemma deployed_tasks (R : nat -> Prop) : (forall c k, Q c k -> R k) -> leaf_handlers cfg ->
  forall p s n d, deployed cfg Q p s n d -> Forall R (stage_tasks d).
Proof.
  intros HR Hleaf.
  assert (Hchild : forall below c s n d, (forall s n d, deployed cfg Q c s n d -> Forall R (stage_tasks d)) ->
    dchild cfg Q below c (deployed cfg Q c) s n d -> Forall R (stage_tasks d)).
  { intros below c s n d IH H. unfold dchild in H. destruct (cut below c) as [b|]; [|eauto].
    destruct H as (tasks & i & Hq & Hi & H). destruct (elided cfg n tasks); [subst; eauto|].
    destruct H as (num & h & plan & _ & Hh & ->). cbn. rewrite (insert_head_tasks h i plan Hh).
    apply Forall_app. split; [eauto|]. constructor; [eauto|constructor]. }
  induction p as [k cs IH|w m cs IH|b part qi num tasks i IH] using tree_ind'; intros s n d H; [| |destruct H];
    rewrite Forall_forall in IH.
  - destruct cs as [|c0 cs0].
    { cbn in H. destruct (scaled_leaf cfg Hleaf (Node k []) _ _ eq_refl eq_refl H) as [Hc Hn].
      destruct d; cbn in *; [subst; constructor|subst; constructor|discriminate]. }
    apply deployed_node in H as (ds & -> & F); [|discriminate]. cbn. apply Forall_flat_map. apply Forall_forall.
    intros d Hd. apply In_nth_error in Hd as (i & Hi). apply Forall2_nth in F as [L F].
    destruct (nth_error (c0 :: cs0) i) as [c|] eqn:Ec.
    + eapply Hchild; [|exact (F i c d Ec Hi)]. intros. eapply IH; eauto. eapply nth_error_In; exact Ec.
    + apply nth_error_None in Ec. assert (i < List.length ds) by (apply nth_error_Some; congruence). lia.
  - destruct cs as [|c0 cs0].
    { cbn in H. destruct (scaled_leaf cfg Hleaf (Ciu w m []) _ _ eq_refl eq_refl H) as [Hc Hn].
      destruct d; cbn in *; [subst; constructor|subst; constructor|discriminate]. }
    apply deployed_ciu in H as (w' & m' & ds & -> & _ & _ & _ & _ & L & F); [|discriminate]. cbn. apply Forall_flat_map. apply Forall_forall.
    intros d Hd. apply In_nth_error in Hd as (i & Hi).
    destruct (nth_error (c0 :: cs0) i) as [c|] eqn:Ec.
    + eapply Hchild; [|exact (F i c d Ec Hi)]. intros. eapply IH; eauto. eapply nth_error_In; exact Ec.
    + apply nth_error_None in Ec. assert (i < List.length ds) by (apply nth_error_Some; congruence). lia.
Qed.

(** With one task per stage nothing is left to distribute. *)
Lemma deployed_single : (forall c k, Q c k -> k = 1) -> leaf_handlers cfg -> dynamic_task_count cfg = false ->
  forall p d, deployed cfg Q p 1 1 d -> has_net d = false.
Proof.
  intros HR Hleaf Hstatic.
  assert (Hchild : forall below c d, (forall d, deployed cfg Q c 1 1 d -> has_net d = false) ->
    dchild cfg Q below c (deployed cfg Q c) 1 1 d -> has_net d = false).
  { intros below c d IH H. unfold dchild in H. destruct (cut below c) as [b|]; [|eauto].
    destruct H as (tasks & i & Hq & Hi & H). apply HR in Hq. subst tasks. rewrite elided_static in H by assumption. cbn in H. subst. eauto. }
  induction p as [k cs IH|w m cs IH|b part qi num tasks i IH] using tree_ind'; intros d H; [| |destruct H];
    rewrite Forall_forall in IH.
  - destruct cs as [|c0 cs0].
    { cbn in H. destruct (scaled_leaf cfg Hleaf (Node k []) _ _ eq_refl eq_refl H) as [Hc Hn]. now apply leaf_local. }
    apply deployed_node in H as (ds & -> & F); [|discriminate]. cbn. apply existsb_false.
    intros d Hd. apply In_nth_error in Hd as (i & Hi). apply Forall2_nth in F as [L F].
    destruct (nth_error (c0 :: cs0) i) as [c|] eqn:Ec.
    + eapply Hchild; [|exact (F i c d Ec Hi)]. intros. eapply IH; eauto. eapply nth_error_In; exact Ec.
    + apply nth_error_None in Ec. assert (i < List.length ds) by (apply nth_error_Some; congruence). lia.
  - destruct cs as [|c0 cs0].
    { cbn in H. destruct (scaled_leaf cfg Hleaf (Ciu w m []) _ _ eq_refl eq_refl H) as [Hc Hn]. now apply leaf_local. }
    apply deployed_ciu in H as (w' & m' & ds & -> & Es & Hg & Lw & _ & L & F); [|discriminate]. cbn. apply existsb_false.
    intros d Hd. apply In_nth_error in Hd as (i & Hi).
    destruct (nth_error (c0 :: cs0) i) as [c|] eqn:Ec.
    + specialize (F i c d Ec Hi). cbn zeta in F.
      pose proof (deployed_counts w' (c0 :: cs0) 1 m' i Es Hg Lw) as Hn.
      assert (Hi' : i < List.length (c0 :: cs0)) by (apply nth_error_Some; congruence). specialize (Hn Hi').
      assert (E1 : nth i (map_task_counts (List.length (c0 :: cs0)) m') 0 = 1) by lia. rewrite E1 in F.
      eapply Hchild; [|exact F]. intros. eapply IH; eauto. eapply nth_error_In; exact Ec.
    + apply nth_error_None in Ec. assert (i < List.length ds) by (apply nth_error_Some; congruence). lia.
Qed.

End Deployed.

Section Everywhere.
Context {row : Type}.
Notation tree := (tree row).
Variable cfg : settings row.
Variable most : nat.
Let Q := within_limits cfg most.

Definition alone (n : nat) (t : tree) : Prop := joins_alone cfg n t /\ folds_alone n t.

Lemma alone_one t : alone 1 t.
Proof.
  split; [destruct t as [[] [|]| |]; cbn; auto|].
  destruct t as [[] [|[|?|[]] []]| |]; cbn; auto.
Qed.

Lemma strip_everywhere P (t : tree) n : everywhere P t n -> everywhere P (strip t) n.
Proof. destruct t as [[] [|c []]| |]; cbn [strip everywhere map]; intros H; try exact H; now destruct H as [_ H]; inversion H. Qed.

Lemma insert_head_everywhere h (i plan : tree) n : insert_head_node h i = Ok plan ->
  everywhere alone i n -> everywhere alone plan n.
Proof.
  intros H Ha. apply strip_everywhere in Ha.
  destruct (insert_head_shape h i plan H) as [->|[(m & ->)|(p & ->)]]; cbn [everywhere map]; auto;
    (split; [split; exact Logic.I|auto]).
Qed.

Lemma deployed_alone : leaf_handlers cfg -> forall p s n d, deployed cfg Q p s n d -> 1 <= n ->
  n = 1 \/ (forall k, In k (announced cfg p) -> n <= k) -> everywhere alone d n.
Proof.
  intros Hleaf.
  assert (Hchild : forall below c s n d,
    (forall s n d, deployed cfg Q c s n d -> 1 <= n -> n = 1 \/ (forall k, In k (announced cfg c) -> n <= k) ->
       everywhere alone d n) ->
    dchild cfg Q below c (deployed cfg Q c) s n d -> 1 <= n ->
    (cut below c = None -> n = 1 \/ (forall k, In k (announced cfg c) -> n <= k)) ->
    everywhere alone d n /\
    match cut below c, d with
    | Some b, Net b' _ _ _ _ _ => b' = b
    | Some _, _ => n = 1
    | None, _ => True
    end).
  { intros below c s n d IH H H1 Hc. unfold dchild in H. destruct (cut below c) as [b|]; [|split; eauto].
    destruct H as (tasks & i & Hq & Hi & H). destruct Hq as [Hq1 Hq2].
    assert (Hei : everywhere alone i tasks) by (apply (IH _ _ _ Hi); [lia|auto]).
    destruct (elided cfg n tasks) eqn:Eone.
    - subst d. apply elided_true in Eone as [-> ->].
      split; [exact Hei|]. destruct i as [| |b']; auto. exfalso.
      (* a deployed plan is never a boundary *)
      clear -Hi Hleaf. destruct c as [k [|c0 cs0]|w m [|c0 cs0]|].
      + cbn in Hi. destruct (scaled_leaf cfg Hleaf (Node k []) _ _ eq_refl eq_refl Hi); discriminate.
      + apply deployed_node in Hi as (ds & E & _); discriminate.
      + cbn in Hi. destruct (scaled_leaf cfg Hleaf (Ciu w m []) _ _ eq_refl eq_refl Hi); discriminate.
      + apply deployed_ciu in Hi as (? & ? & ds & E & _); discriminate.
      + destruct Hi.
    - destruct H as (num & h & plan & _ & Hh & ->). split; [|reflexivity].
      cbn. eapply insert_head_everywhere; eauto. }
  induction p as [k cs IH|w m cs IH|b part qi num tasks i IH] using tree_ind'; intros s n d H H1 Hann; [| |destruct H];
    rewrite Forall_forall in IH.
  - destruct cs as [|c0 cs0].
    { cbn in H. unfold scaled in H. destruct (scale_up_leaf cfg (Node k []) s) as [r|] eqn:E.
      - subst r. destruct (Hleaf _ _ _ E) as (l & ->). cbn. repeat split; auto.
      - subst d. cbn. split; [split|constructor]; destruct k; exact Logic.I. }
    set (cs := c0 :: cs0) in *.
    apply deployed_node in H as (ds & -> & F); [|discriminate]. apply Forall2_nth in F as [L F].
    assert (Hsub : forall c, In c cs -> cut (is_coalesce (Node k cs)) c = None ->
       n = 1 \/ (forall x, In x (announced cfg c) -> n <= x)).
    { intros c Hc Ec. destruct Hann as [Hann|Hann]; [auto|]. right. intros x Hx. apply Hann.
      assert (Hx' : In x (flat_map (fun c => match cut (is_coalesce (Node k cs)) c with
          | None => announced cfg c | Some BCoalesce => [1] | Some _ => [] end) cs)).
      { apply in_flat_map. exists c. split; [exact Hc|]. now rewrite Ec. }
      unfold cs in *. destruct k; cbn [announced is_coalesce] in *; apply in_app_iff; right; try exact Hx'.
      apply in_app_iff. right. exact Hx'. }
    assert (G : forall i c d, nth_error cs i = Some c -> nth_error ds i = Some d ->
      everywhere alone d n /\
      match cut (is_coalesce (Node k cs)) c, d with
      | Some b, Net b' _ _ _ _ _ => b' = b
      | Some _, _ => n = 1
      | None, _ => True
      end).
    { intros i c d Hc Hd. assert (Hin : In c cs) by (eapply nth_error_In; exact Hc).
      eapply Hchild; [|exact (F i c d Hc Hd)|exact H1|exact (Hsub c Hin)]. intros. eapply IH; eauto. }
    cbn [everywhere]. split.
    + split.
      * (* joins *)
        destruct k as [| | | | |j a b c d|]; try exact Logic.I. destruct ds as [|d0 ds0]; [exact Logic.I|]. cbn.
        intros Ej. destruct Hann as [Hann|Hann]; [exact Hann|].
        assert (n <= 1); [|lia]. apply Hann. unfold cs. cbn [announced]. apply in_app_iff. right. rewrite Ej. now left.
      * (* folds *)
        destruct k as [| | |spm fetch| | |]; try exact Logic.I.
        destruct ds as [|d0 [|]]; try (cbn; exact Logic.I).
        2:{ destruct d0 as [| |[]]; exact Logic.I. }
        assert (Ecs : cs = [c0]) by (unfold cs in *; destruct cs0; [reflexivity|cbn in L; lia]).
        destruct (G 0 c0 d0 eq_refl eq_refl) as [_ Gm].
        assert (Hone : cut true c0 = Some BCoalesce -> n = 1).
        { intros Ec. destruct Hann as [Hann|Hann]; [exact Hann|]. assert (n <= 1); [|lia]. apply Hann.
          rewrite Ecs. cbn [announced is_coalesce flat_map]. apply in_app_iff. right. rewrite Ec. now left. }
        cbn [is_coalesce] in Gm. unfold folds_alone.
        destruct (cut true c0) as [b|] eqn:Ec.
        { destruct d0 as [| |b']; [exact Gm|exact Gm|]. subst b'. destruct b; auto. }
        { unfold cut in Ec. destruct (is_hash_repart c0), (is_bcast c0); discriminate. }
    + apply Forall_forall. intros P HP. apply in_map_iff in HP as (d & <- & Hd). apply In_nth_error in Hd as (i & Hi).
      destruct (nth_error cs i) as [c|] eqn:Ec; [exact (proj1 (G i c d Ec Hi))|].
      apply nth_error_None in Ec. assert (i < List.length ds) by (apply nth_error_Some; congruence). lia.
  - destruct cs as [|c0 cs0].
    { cbn in H. unfold scaled in H. destruct (scale_up_leaf cfg (Ciu w m []) s) as [r|] eqn:E.
      - subst r. destruct (Hleaf _ _ _ E) as (l & ->). cbn. repeat split; auto.
      - subst d. cbn. constructor. }
    set (cs := c0 :: cs0) in *.
    apply deployed_ciu in H as (w' & m' & ds & -> & Es & Hg & Lw & HA & L & F); [|discriminate].
    cbn [everywhere]. fold (combined (everywhere alone) ds (map_task_counts (List.length ds) m')).
    apply combined_Forall; [apply map_task_counts_length|]. intros i d Hd. rewrite L.
    destruct (nth_error cs i) as [c|] eqn:Ec.
    2:{ apply nth_error_None in Ec. assert (i < List.length ds) by (apply nth_error_Some; congruence). lia. }
    assert (Hi' : i < List.length cs) by (apply nth_error_Some; congruence).
    pose proof (deployed_counts w' cs s m' i Es Hg Lw Hi') as Hn.
    eapply Hchild; [|exact (F i c d Ec Hd)|lia|].
    + intros. eapply IH; eauto. eapply nth_error_In; exact Ec.
    + intros Ecut. right. exact (proj2 (HA i c Ec Ecut)).
Qed.

End Everywhere.

(** ** The passes after preparation *)

Section After.
Context {row : Type}.
Notation tree := (tree row).

Lemma reduce_net b part q num tasks (i : tree) :
  reduce_shuffles (Net b part q num tasks i) = Net b part q num tasks (reduce_shuffles i) \/
  exists o, reduce_shuffles (Net b part q num tasks i) = Net b part q num tasks (Node (KOp o) [reduce_shuffles i]).
Proof.
  cbn [reduce_shuffles]. generalize (reduce_shuffles i). clear i. intros i.
  repeat match goal with |- context [match ?x with _ => _ end] => destruct x; auto end; right; eauto.
Qed.

Lemma reduce_facts : forall t : tree,
  stage_nums (reduce_shuffles t) = stage_nums t /\ stage_queries (reduce_shuffles t) = stage_queries t /\
  stage_tasks (reduce_shuffles t) = stage_tasks t /\ has_net (reduce_shuffles t) = has_net t.
Proof.
  induction t as [k cs IH|w m cs IH|b part q num tasks i IH] using tree_ind'.
  1,2: rewrite Forall_forall in IH; cbn; repeat split;
    try (rewrite flat_map_map; apply flat_map_ext_in; intros c Hc; now apply IH).
  1,2: induction cs as [|c cs IHcs]; [reflexivity|]; cbn; rewrite (proj2 (proj2 (proj2 (IH c (or_introl eq_refl)))));
    f_equal; apply IHcs; intros x Hx; apply IH; now right.
  destruct IH as (H1 & H2 & H3 & H4).
  destruct (reduce_net b part q num tasks i) as [->|(o & ->)]; cbn; rewrite ?app_nil_r, H1, H2, H3; auto.
Qed.

Lemma reduce_everywhere cfg : forall (t : tree) n, everywhere (alone cfg) t n -> everywhere (alone cfg) (reduce_shuffles t) n.
Proof.
  induction t as [k cs IH|w m cs IH|b part q num tasks i IH] using tree_ind'; intros n H.
  - rewrite Forall_forall in IH. cbn [reduce_shuffles everywhere] in *. destruct H as [[H1 H2] H]. split; [split|].
    + destruct k; try exact Logic.I. destruct cs; [exact Logic.I|exact H1].
    + destruct k; try exact Logic.I. destruct cs as [|c []]; try exact Logic.I.
      * destruct c as [| |b]; try exact H2. cbn [map].
        destruct (reduce_net b part query_id num tasks c) as [->|(o & ->)]; exact H2.
      * destruct c as [| |[]]; try exact Logic.I; cbn [map];
          match goal with |- folds_alone _ (Node _ (?x :: _ :: _)) => destruct x as [| |[]]; exact Logic.I end.
    + rewrite map_map. apply Forall_forall. intros P HP. apply in_map_iff in HP as (c & <- & Hc). apply IH; [exact Hc|].
      rewrite Forall_forall in H. apply H. apply in_map_iff. eauto.
  - rewrite Forall_forall in IH. cbn [reduce_shuffles everywhere] in *. rewrite map_length.
    fold (combined (everywhere (alone cfg)) cs (map_task_counts (List.length cs) m)) in H.
    fold (combined (everywhere (alone cfg)) (map reduce_shuffles cs) (map_task_counts (List.length cs) m)).
    rewrite combined_Forall in H by apply map_task_counts_length.
    apply combined_Forall; [rewrite map_length; apply map_task_counts_length|].
    intros i c Hc. rewrite nth_error_map in Hc. destruct (nth_error cs i) as [c0|] eqn:E; [|discriminate].
    injection Hc as <-. apply IH; [eapply nth_error_In; exact E|auto].
  - cbn [everywhere] in H. apply IH in H.
    destruct (reduce_net b part q num tasks i) as [->|(o & ->)]; cbn [everywhere map]; [exact H|].
    split; [split; exact Logic.I|auto].
Qed.

(** Pushing the fetch down. *)
Lemma bounded_shape (t : tree) fetch : bounded t fetch = t \/ bounded t fetch = Node (KOp (OLocalLimit fetch)) [t] \/
  exists k k' cs, t = Node k cs /\ bounded t fetch = Node k' cs /\ with_fetch t fetch = Some (Node k' cs).
Proof.
  assert (W : forall t', with_fetch t fetch = Some t' -> exists k k' cs, t = Node k cs /\ t' = Node k' cs).
  { destruct t as [[] cs| |]; cbn; intros t' E; try discriminate; [injection E as <-; eauto|].
    destruct o; try discriminate. injection E as <-. eauto. }
  unfold bounded. destruct (fetch_of t) as [f|].
  - destruct (f <=? fetch); [auto|]. destruct (with_fetch t fetch) eqn:E; [|auto].
    destruct (W _ eq_refl) as (k & k' & cs & -> & ->). right; right. eauto 6.
  - destruct (with_fetch t fetch) eqn:E; [|auto].
    destruct (W _ eq_refl) as (k & k' & cs & -> & ->). right; right. eauto 6.
Qed.

Lemma through_shape (t : tree) fetch : exists t', fetch_through_projection t fetch = t' /\
  (t' = bounded t fetch \/ exists f i, t = Node (KOp (OProj f)) [i] /\ t' = Node (KOp (OProj f)) [bounded i fetch]).
Proof.
  eexists. split; [reflexivity|]. destruct t as [[] cs| |]; auto. destruct o; auto. destruct cs as [|i []]; auto.
  right. eauto.
Qed.

Lemma bounded_height (t : tree) fetch : height (bounded t fetch) <= S (height t).
Proof.
  destruct (bounded_shape t fetch) as [->|[->|(k & k' & cs & -> & -> & _)]]; cbn; lia.
Qed.
Lemma through_height (t : tree) fetch : height (fetch_through_projection t fetch) <= S (height t).
Proof.
  destruct (through_shape t fetch) as (t' & -> & [->|(f & i & -> & ->)]); [apply bounded_height|].
  cbn. pose proof (bounded_height i fetch). lia.
Qed.

Lemma height_child (c : tree) cs : In c cs -> height c <= list_max (map height cs).
Proof. intros H. apply (list_max_le_in (map height cs) _ (le_n _)). now apply in_map. Qed.

Lemma push_node fuel (t : tree) : exists t', push_fetch_fuel (S fuel) t =
  match t' with
  | Node k cs => let* cs' := seqM (map (push_fetch_fuel fuel) cs) in Ok (Node k cs')
  | Ciu w m cs => let* cs' := seqM (map (push_fetch_fuel fuel) cs) in Ok (Ciu w m cs')
  | Net b p q n ts i => let* i' := push_fetch_fuel fuel i in Ok (Net b p q n ts i')
  end /\
  (t' = t \/ exists k cs fetch, t = Node k cs /\ t' = Node k (map (push_child fetch) cs)).
Proof.
  cbn [push_fetch_fuel]. destruct (fetch_required t) as [fetch|]; [|exists t; auto].
  destruct t as [k cs|w m cs|b p q n ts i];
    [|exists (Ciu w m cs); split; [reflexivity|auto]|exists (Net b p q n ts i); split; [reflexivity|auto]].
  exists (Node k (map (push_child fetch) cs)). split; [reflexivity|]. right. eauto 6.
Qed.

Lemma seqM_total {A B} (f : A -> Res B) l : (forall x, In x l -> exists y, f x = Ok y) -> exists ys, seqM (map f l) = Ok ys.
Proof.
  induction l as [|x l IH]; intros H; [exists []; reflexivity|].
  destruct (H x (or_introl eq_refl)) as (y & Hy). destruct IH as (ys & Hys); [intros z Hz; apply H; now right|].
  exists (y :: ys). unfold seqM in *. cbn. rewrite Hy. cbn. rewrite Hys. reflexivity.
Qed.

Lemma push_fetch_fuel_total : forall fuel (t : tree), 2 * height t <= fuel -> exists t', push_fetch_fuel fuel t = Ok t'.
Proof.
  induction fuel as [fuel IH] using (well_founded_induction lt_wf). intros t Hf.
  assert (Hh : 1 <= height t) by (destruct t; cbn; lia).
  destruct fuel as [|fuel]; [lia|].
  destruct (push_node fuel t) as (t' & -> & Ht).
  assert (G : forall c, In c (children t') -> exists c', push_fetch_fuel fuel c = Ok c').
  { destruct Ht as [->|(k & cs & fetch & -> & ->)].
    - intros c Hc. apply IH; [lia|]. destruct t as [k cs|w m cs|]; cbn in *.
      + pose proof (height_child c cs Hc). lia.
      + pose proof (height_child c cs Hc). lia.
      + destruct Hc as [<-|[]]. lia.
    - cbn [children]. intros c Hc. apply in_map_iff in Hc as (c0 & <- & Hc). cbn in Hf.
      pose proof (height_child c0 cs Hc) as Hh0.
      destruct c0 as [| |b p q n ts i]; cbn [push_child]; try (apply IH; lia).
      destruct b; try (apply IH; lia).
      destruct fuel as [|fuel']; [cbn in Hh0; lia|]. cbn [push_fetch_fuel fetch_required fetch_of].
      destruct (IH fuel' ltac:(lia) (fetch_through_projection i fetch)) as (i' & ->); [|cbn; eauto].
      pose proof (through_height i fetch). cbn in Hh0. lia. }
  destruct t' as [k cs|w m cs|b p q n ts i]; cbn [children] in G.
  - destruct (seqM_total (push_fetch_fuel fuel) cs G) as (ys & ->). cbn. eauto.
  - destruct (seqM_total (push_fetch_fuel fuel) cs G) as (ys & ->). cbn. eauto.
  - destruct (G i (or_introl eq_refl)) as (i' & ->). cbn. eauto.
Qed.

Theorem push_fetch_total (t : tree) : exists t', push_fetch t = Ok t'.
Proof. apply push_fetch_fuel_total. lia. Qed.

(** A measure of plans that the pass keeps. *)
Section Keep.
Context {A : Type} (nil_ : list A) (f : tree -> list A) (own : nat -> nat -> nat -> A).
Hypothesis f_node : forall k cs, f (Node k cs) = flat_map f cs.
Hypothesis f_ciu : forall w m cs, f (Ciu w m cs) = flat_map f cs.
Hypothesis f_net : forall b p q n ts i, f (Net b p q n ts i) = f i ++ [own q n ts].

Lemma bounded_keeps t fetch : f (bounded t fetch) = f t.
Proof using f_node.
  destruct (bounded_shape t fetch) as [->|[->|(k & k' & cs & -> & -> & _)]]; rewrite ?f_node; cbn; rewrite ?app_nil_r; reflexivity.
Qed.
Lemma through_keeps t fetch : f (fetch_through_projection t fetch) = f t.
Proof using f_node.
  destruct (through_shape t fetch) as (t' & -> & [->|(g & i & -> & ->)]); [apply bounded_keeps|].
  rewrite !f_node. cbn. now rewrite bounded_keeps.
Qed.
Lemma push_child_keeps fetch c : f (push_child fetch c) = f c.
Proof using f_node f_net. destruct c as [| |[]]; cbn; auto. rewrite !f_net. now rewrite through_keeps. Qed.

Lemma seqM_keeps fuel : (forall t t', push_fetch_fuel fuel t = Ok t' -> f t' = f t) ->
  forall cs cs', seqM (map (push_fetch_fuel fuel) cs) = Ok cs' -> flat_map f cs' = flat_map f cs.
Proof using.
  intros IH cs cs' H. apply seqM_map_inv in H. induction H as [|c c' cs cs' Hc H IHf]; [reflexivity|].
  cbn. now rewrite (IH _ _ Hc), IHf.
Qed.

Lemma push_fuel_keeps : forall fuel t t', push_fetch_fuel fuel t = Ok t' -> f t' = f t.
Proof using f_node f_net f_ciu.
  induction fuel as [|fuel IH]; intros t t' H; [discriminate|].
  destruct (push_node fuel t) as (t1 & E & Ht). rewrite E in H. clear E.
  assert (E1 : f t1 = f t).
  { destruct Ht as [->|(k & cs & fetch & -> & ->)]; [reflexivity|]. rewrite !f_node, flat_map_map.
    apply flat_map_ext_in. intros c _. apply push_child_keeps. }
  rewrite <- E1. clear E1 Ht. destruct t1 as [k cs|w m cs|b p q n ts i].
  - destruct (seqM _) as [cs'| |] eqn:Es; cbn in H; try discriminate. injection H as <-.
    rewrite !f_node. eapply seqM_keeps; eauto.
  - destruct (seqM _) as [cs'| |] eqn:Es; cbn in H; try discriminate. injection H as <-.
    rewrite !f_ciu. eapply seqM_keeps; eauto.
  - destruct (push_fetch_fuel fuel i) as [i'| |] eqn:Ei; cbn in H; try discriminate. injection H as <-.
    rewrite !f_net. now rewrite (IH _ _ Ei).
Qed.
End Keep.

Lemma push_facts (t t' : tree) : push_fetch t = Ok t' ->
  stage_nums t' = stage_nums t /\ stage_queries t' = stage_queries t /\ stage_tasks t' = stage_tasks t.
Proof.
  unfold push_fetch. intros H. split; [|split].
  - refine (push_fuel_keeps stage_nums (fun q n ts => n) _ _ _ _ _ _ H); reflexivity.
  - refine (push_fuel_keeps stage_queries (fun q n ts => q) _ _ _ _ _ _ H); reflexivity.
  - refine (push_fuel_keeps stage_tasks (fun q n ts => ts) _ _ _ _ _ _ H); reflexivity.
Qed.

Lemma has_net_nums : forall t : tree, has_net t = negb (List.length (stage_nums t) =? 0).
Proof.
  induction t as [k cs IH|w m cs IH|b part q num tasks i IH] using tree_ind'.
  - cbn. induction IH as [|c cs Hc IH IHcs]; [reflexivity|]. cbn. rewrite app_length, Hc, IHcs.
    destruct (List.length (stage_nums c)); reflexivity.
  - cbn. induction IH as [|c cs Hc IH IHcs]; [reflexivity|]. cbn. rewrite app_length, Hc, IHcs.
    destruct (List.length (stage_nums c)); reflexivity.
  - cbn. rewrite app_length. cbn. rewrite Nat.add_comm. reflexivity.
Qed.

Definition same_head (c c' : tree) : Prop :=
  match c, c' with
  | Net b _ _ _ _ _, Net b' _ _ _ _ _ => b = b'
  | Net _ _ _ _ _ _, _ | _, Net _ _ _ _ _ _ => False
  | _, _ => True
  end.
Lemma same_head_refl c : same_head c c.
Proof. destruct c; cbn; auto. Qed.

Definition same_op (k k' : kind row) : Prop :=
  k = k' \/ (exists spm f f', k = KCoalesce spm f /\ k' = KCoalesce spm f') \/ (exists o o', k = KOp o /\ k' = KOp o').

Lemma alone_same cfg n k k' cs cs' : same_op k k' -> Forall2 same_head cs cs' ->
  alone cfg n (Node k cs) -> alone cfg n (Node k' cs').
Proof.
  intros Hk Hcs [H1 H2]. split.
  - destruct Hk as [->|[(spm & f & f' & -> & ->)|(o & o' & -> & ->)]]; try exact Logic.I.
    destruct k'; try exact Logic.I. inversion Hcs; subst; [exact Logic.I|exact H1].
  - assert (G : forall spm spm' f f', folds_alone n (Node (KCoalesce spm f) cs) -> folds_alone n (Node (KCoalesce spm' f') cs')).
    { intros spm spm' f f'. destruct Hcs as [|c c' cs cs' Hc Hcs]; [auto|]. destruct Hcs as [|c1 c1' cs cs' Hc1 Hcs].
      - destruct c as [| |[]], c' as [| |[]]; cbn in *; try contradiction; try discriminate; auto.
      - destruct c' as [| |[]]; cbn; auto. }
    destruct Hk as [->|[(spm & f & f' & -> & ->)|(o & o' & -> & ->)]].
    + destruct k'; try exact Logic.I. eapply G; exact H2.
    + eapply G; exact H2.
    + exact Logic.I.
Qed.

Lemma with_fetch_same (t : tree) fetch k k' cs : t = Node k cs -> with_fetch t fetch = Some (Node k' cs) -> same_op k k'.
Proof.
  intros -> H. destruct k; cbn in H; try discriminate; [injection H as <-; right; left; eauto|].
  destruct o; try discriminate. injection H as <-. right. right. eauto.
Qed.

Lemma bounded_everywhere cfg (t : tree) fetch n : everywhere (alone cfg) t n -> everywhere (alone cfg) (bounded t fetch) n.
Proof.
  intros H. destruct (bounded_shape t fetch) as [->|[->|(k & k' & cs & E & -> & Ew)]]; [exact H| |].
  - cbn [everywhere map]. split; [split; exact Logic.I|auto].
  - pose proof (with_fetch_same t fetch k k' cs E Ew) as Hs. subst t. cbn [everywhere] in *. destruct H as [Ha H]. split; [|exact H].
    apply (alone_same cfg n k k' cs cs Hs); [|exact Ha]. clear. induction cs; constructor; auto using same_head_refl.
Qed.

Lemma through_everywhere cfg (t : tree) fetch n : everywhere (alone cfg) t n ->
  everywhere (alone cfg) (fetch_through_projection t fetch) n.
Proof.
  intros H. destruct (through_shape t fetch) as (t' & -> & [->|(g & i & -> & ->)]); [now apply bounded_everywhere|].
  cbn [everywhere map] in *. destruct H as [_ H]. inversion H; subst. split; [split; exact Logic.I|].
  constructor; [now apply bounded_everywhere|constructor].
Qed.

Lemma push_child_head fetch c : same_head c (push_child fetch c).
Proof. destruct c as [| |[]]; cbn; auto. Qed.

Lemma push_fuel_head : forall fuel t t', push_fetch_fuel fuel t = Ok t' -> same_head t t'.
Proof.
  intros [|fuel] t t' H; [discriminate|]. destruct (push_node fuel t) as (t1 & E & Ht). rewrite E in H.
  assert (Hs : same_head t t1) by (destruct Ht as [->|(k & cs & fetch & -> & ->)]; [apply same_head_refl|exact Logic.I]).
  destruct t1 as [k cs|w m cs|b p q n ts i].
  - destruct (seqM _); cbn in H; try discriminate. injection H as <-. destruct t; exact Hs.
  - destruct (seqM _); cbn in H; try discriminate. injection H as <-. destruct t; exact Hs.
  - destruct (push_fetch_fuel fuel i); cbn in H; try discriminate. injection H as <-. destruct t; exact Hs.
Qed.

Lemma push_fuel_everywhere cfg : forall fuel (t t' : tree) n, push_fetch_fuel fuel t = Ok t' ->
  everywhere (alone cfg) t n -> everywhere (alone cfg) t' n.
Proof.
  induction fuel as [|fuel IH]; intros t t' n H Ha; [discriminate|].
  destruct (push_node fuel t) as (t1 & E & Ht). rewrite E in H. clear E.
  assert (Ha1 : everywhere (alone cfg) t1 n).
  { destruct Ht as [->|(k & cs & fetch & -> & ->)]; [exact Ha|]. cbn [everywhere] in *. destruct Ha as [H1 H2]. split.
    - eapply (alone_same cfg n k k cs); [left; reflexivity| |exact H1]. clear. induction cs; cbn; constructor; auto using push_child_head.
    - rewrite map_map. apply Forall_forall. intros P HP. apply in_map_iff in HP as (c & <- & Hc).
      rewrite Forall_forall in H2. specialize (H2 _ (in_map _ _ _ Hc)). cbn in H2.
      destruct c as [| |[]]; cbn [push_child]; try exact H2. cbn [everywhere] in *. now apply through_everywhere. }
  clear Ha Ht. destruct t1 as [k cs|w m cs|b p q x ts i].
  - destruct (seqM _) as [cs'| |] eqn:Es; cbn in H; try discriminate. injection H as <-. apply seqM_map_inv in Es.
    cbn [everywhere] in *. destruct Ha1 as [H1 H2]. split.
    + eapply (alone_same cfg n k k cs); [left; reflexivity| |exact H1].
      eapply Forall2_impl_in; [|exact Es]. intros x y _ Hxy. exact (push_fuel_head fuel x y Hxy).
    + clear H1. induction Es as [|c c' cs cs' Hc Es IHs]; cbn in *; [constructor|]. inversion H2; subst. constructor; eauto.
  - destruct (seqM _) as [cs'| |] eqn:Es; cbn in H; try discriminate. injection H as <-. apply seqM_map_inv in Es.
    apply Forall2_nth in Es as [L Es]. cbn [everywhere] in *. rewrite <- L.
    fold (combined (everywhere (alone cfg)) cs (map_task_counts (List.length cs) m)) in Ha1.
    fold (combined (everywhere (alone cfg)) cs' (map_task_counts (List.length cs) m)).
    rewrite combined_Forall in Ha1 by apply map_task_counts_length.
    apply combined_Forall; [rewrite map_task_counts_length; exact L|].
    intros i c' Hc'. destruct (nth_error cs i) as [c|] eqn:Ec.
    + eapply IH; [exact (Es i c c' Ec Hc')|]. auto.
    + apply nth_error_None in Ec. assert (i < List.length cs') by (apply nth_error_Some; congruence). lia.
  - destruct (push_fetch_fuel fuel i) as [i'| |] eqn:Ei; cbn in H; try discriminate. injection H as <-.
    cbn [everywhere] in *. eauto.
Qed.

End After.

(** ** The passes before injection *)

Section Before.
Context {row : Type}.
Notation tree := (tree row).
Variable cfg : settings row.

Lemma tree_height_ind (P : tree -> Prop) :
  (forall t, (forall c, height c < height t -> P c) -> P t) -> forall t, P t.
Proof.
  intros H. assert (G : forall n t, height t < n -> P t).
  { induction n as [|n IH]; intros t Hn; [lia|]. apply H. intros c Hc. apply IH. lia. }
  intros t. apply (G (S (height t))). lia.
Qed.

Lemma child_height (t c : tree) : In c (children t) -> height c < height t.
Proof.
  destruct t as [k cs|w m cs|b p q n ts i]; cbn; intros H.
  - pose proof (height_child c cs H). lia.
  - pose proof (height_child c cs H). lia.
  - destruct H as [<-|[]]. lia.
Qed.

(** The build side that [normalize] keeps. *)
Definition unwrapped (l l0 : tree) : Prop := l0 = l \/ l = Node (KCoalesce None None) [l0].

Lemma unwrapped_height l l0 : unwrapped l l0 -> height l0 <= height l.
Proof. intros [->| ->]; cbn; lia. Qed.

Lemma normalize_node k cs t' : normalize cfg (Node k cs) = Ok t' ->
  (exists cs', t' = Node k cs' /\ Forall2 (fun c c' => normalize cfg c = Ok c') cs cs') \/
  (exists m a ty c hl hr na l r l0 l' r', k = KJoin (HashJoin m a ty) c hl hr na /\ cs = [l; r] /\ unwrapped l l0 /\
     becomes_partitioned (HashJoin m a ty) (both_single l r) = true /\ 1 < tparts r /\
     normalize cfg l0 = Ok l' /\ normalize cfg r = Ok r' /\
     t' = Node (KJoin (HashJoin false a ty) c hl hr na)
            [Node (KRepart (HashP hl (target_partitions cfg))) [l']; Node (KRepart (HashP hr (target_partitions cfg))) [r']]) \/
  (exists ty c hl hr na l r l0 l' r', k = KJoin (NestedLoop ty) c hl hr na /\ cs = [l; r] /\ unwrapped l l0 /\
     gets_swapped (broadcast_joins cfg) (NestedLoop ty) (both_single l r) = true /\
     normalize cfg l0 = Ok l' /\ normalize cfg r = Ok r' /\
     t' = Node (KJoin (NestedLoop (swap_type ty)) (flip c) hr hl na) [r'; l']).
Proof.
  assert (Hplain : forall k cs, (let* cs' := seqM (map (normalize cfg) cs) in Ok (Node k cs')) = Ok t' ->
    exists cs', t' = Node k cs' /\ Forall2 (fun c c' => normalize cfg c = Ok c') cs cs').
  { intros k0 cs0 H. destruct (seqM _) as [cs'| |] eqn:Es; cbn in H; try discriminate. injection H as <-.
    exists cs'. split; [reflexivity|]. now apply seqM_map_inv in Es. }
  destruct k as [| | | | |j c hl hr na|];
    try (intros H; left; apply Hplain; exact H).
  destruct cs as [|l [|r [|x cs]]]; try (intros H; left; apply Hplain; exact H).
  intros H. cbn [normalize] in H.
  assert (Hb : forall (X : Type) (F : tree -> Res X) y,
    (let* l' := match l with Node (KCoalesce None None) [x] => normalize cfg x | _ => normalize cfg l end in F l') = Ok y ->
    exists l0 l', unwrapped l l0 /\ normalize cfg l0 = Ok l' /\ F l' = Ok y).
  { intros X F y Hy.
    assert (Hd : (let* l' := normalize cfg l in F l') = Ok y \/ exists x, l = Node (KCoalesce None None) [x] /\ (let* l' := normalize cfg x in F l') = Ok y).
    { destruct l as [[| | |[|] [|]| | |] [|x []]| |]; auto. right. eauto. }
    destruct Hd as [Hd|(x & -> & Hd)].
    - destruct (normalize cfg l) as [l'| |] eqn:El; cbn [bind] in Hd; try discriminate. exists l, l'. repeat split; auto. now left.
    - destruct (normalize cfg x) as [l'| |] eqn:El; cbn [bind] in Hd; try discriminate. exists x, l'. repeat split; auto. now right. }
  destruct (becomes_partitioned j (both_single l r)) eqn:Ep.
  - destruct (Nat.ltb_spec 1 (tparts r)) as [Hr|Hr]; cbn [negb] in H; [|discriminate].
    apply Hb in H as (l0 & l' & Hu & El & H).
    destruct (normalize cfg r) as [r'| |] eqn:Er; cbn [bind] in H; try discriminate.
    destruct j as [m a ty| |]; try discriminate. injection H as <-. right; left.
    exists m, a, ty, c, hl, hr, na, l, r, l0, l', r'. repeat split; auto.
  - destruct (gets_swapped (broadcast_joins cfg) j (both_single l r)) eqn:Eg.
    + destruct (normalize cfg r) as [r'| |] eqn:Er; cbn [bind] in H; try discriminate.
      apply Hb in H as (l0 & l' & Hu & El & H).
      destruct j as [|ty|]; try discriminate. injection H as <-. right; right.
      exists ty, c, hl, hr, na, l, r, l0, l', r'. repeat split; auto.
    + destruct (normalize cfg l) as [l'| |] eqn:El; cbn [bind] in H; try discriminate.
      destruct (normalize cfg r) as [r'| |] eqn:Er; cbn [bind] in H; try discriminate.
      injection H as <-. left. exists [l'; r']. repeat constructor; auto.
Qed.

Lemma list_max_map_le {A} (f g : A -> nat) (l l' : list A) :
  Forall2 (fun x y => g y <= f x) l l' -> list_max (map g l') <= list_max (map f l).
Proof. unfold list_max. induction 1; cbn [map fold_right]; lia. Qed.

Lemma width_node k (cs cs' : list tree) : List.length cs' = List.length cs ->
  list_max (map union_width cs') <= list_max (map union_width cs) -> union_width (Node k cs') <= union_width (Node k cs).
Proof. intros L H. destruct k; cbn [union_width]; lia. Qed.

Lemma normalize_facts : forall t t', has_net t = false -> normalize cfg t = Ok t' ->
  has_net t' = false /\ union_width t' <= union_width t.
Proof.
  induction t as [t IH] using tree_height_ind. intros t' Hn H.
  destruct t as [k cs|w m cs|b p q n ts i]; [| |discriminate Hn].
  - assert (Hc : forall c, In c cs -> forall c', normalize cfg c = Ok c' -> has_net c' = false /\ union_width c' <= union_width c).
    { intros c Hc c' E. apply IH; [apply child_height; exact Hc| |exact E]. exact (proj1 (existsb_false has_net cs) Hn c Hc). }
    assert (Hu : forall l l0 l', In l cs -> unwrapped l l0 -> normalize cfg l0 = Ok l' -> has_net l' = false /\ union_width l' <= union_width l).
    { intros l l0 l' Hl [->| ->] E; [exact (Hc l Hl l' E)|].
      pose proof (proj1 (existsb_false has_net cs) Hn _ Hl) as Hln. cbn in Hln. rewrite orb_false_r in Hln.
      destruct (IH l0) with (t' := l') as [A B]; auto.
      - pose proof (child_height (Node k cs) _ Hl). cbn in *. lia.
      - split; [exact A|]. cbn. lia. }
    destruct (normalize_node k cs t' H) as [(cs' & -> & F)|[(m & a & ty & c & hl & hr & na & l & r & l0 & l' & r' & -> & -> & Hun & _ & _ & El & Er & ->)|(ty & c & hl & hr & na & l & r & l0 & l' & r' & -> & -> & Hun & _ & El & Er & ->)]].
    + assert (F' : Forall2 (fun c c' => has_net c' = false /\ union_width c' <= union_width c) cs cs').
      { eapply Forall2_impl_in; [|exact F]. intros c c' Hin E. now apply (Hc c Hin). }
      split.
      * cbn. apply existsb_false. intros c' Hin. apply In_nth_error in Hin as (i & Hi). apply Forall2_nth in F' as [L F'].
        destruct (nth_error cs i) as [c|] eqn:Ec; [exact (proj1 (F' i c c' Ec Hi))|].
        apply nth_error_None in Ec. assert (i < List.length cs') by (apply nth_error_Some; congruence). lia.
      * apply width_node; [symmetry; eapply Forall2_len; exact F'|]. apply list_max_map_le.
        eapply Forall2_impl_in; [|exact F']. intros x x' _ [_ E]. exact E.
    + destruct (Hu l l0 l') as [A1 A2]; [now left|exact Hun|exact El|]. destruct (Hc r) with (c' := r') as [B1 B2]; [right; now left|exact Er|].
      cbn. rewrite A1, B1. split; [reflexivity|]. lia.
    + destruct (Hu l l0 l') as [A1 A2]; [now left|exact Hun|exact El|]. destruct (Hc r) with (c' := r') as [B1 B2]; [right; now left|exact Er|].
      cbn. rewrite A1, B1. split; [reflexivity|]. lia.
  - cbn in H. destruct (seqM _) as [cs'| |] eqn:Es; cbn in H; try discriminate. injection H as <-. apply seqM_map_inv in Es.
    assert (F' : Forall2 (fun c c' => has_net c' = false /\ union_width c' <= union_width c) cs cs').
    { eapply Forall2_impl_in; [|exact Es]. intros c c' Hin E. apply IH; [apply child_height; exact Hin| |exact E].
      exact (proj1 (existsb_false has_net cs) Hn c Hin). }
    split.
    + cbn. apply existsb_false. intros c' Hin. apply In_nth_error in Hin as (i & Hi). apply Forall2_nth in F' as [L F'].
      destruct (nth_error cs i) as [c|] eqn:Ec; [exact (proj1 (F' i c c' Ec Hi))|].
      apply nth_error_None in Ec. assert (i < List.length cs') by (apply nth_error_Some; congruence). lia.
    + cbn. assert (L : List.length cs' = List.length cs) by (symmetry; eapply Forall2_len; exact F').
      assert (list_max (map union_width cs') <= list_max (map union_width cs)); [|lia].
      apply list_max_map_le. eapply Forall2_impl_in; [|exact F']. intros x x' _ [_ E]. exact E.
Qed.

(** The build side below the broadcast. *)
Lemma broadcasts_node k (cs : list tree) :
  broadcasts (Node k cs) = Node k (map broadcasts cs) \/
  exists j c hl hr na l r, k = KJoin j c hl hr na /\ cs = [l; r] /\ can_broadcast_left_input j = true /\
    exists fetch x, (l = Node (KCoalesce None fetch) [x] \/ (fetch = None /\ x = l)) /\
    broadcasts (Node k cs) = Node k [Node (KCoalesce None fetch) [Node (KBcast 1) [broadcasts x]]; broadcasts r].
Proof.
  destruct k as [| | | | |j c hl hr na|]; try (left; reflexivity).
  destruct cs as [|l [|r [|x cs]]]; try (left; reflexivity).
  cbn [broadcasts]. destruct (can_broadcast_left_input j) eqn:Ej; [|left; reflexivity].
  right. exists j, c, hl, hr, na, l, r. split; [reflexivity|]. split; [reflexivity|]. split; [exact Ej|].
  assert (Hd : (exists fetch x, l = Node (KCoalesce None fetch) [x]) \/
    match l with
    | Node (KCoalesce None fetch) [x] => Node (KCoalesce None fetch) [Node (KBcast 1) [broadcasts x]]
    | _ => Node (KCoalesce None None) [Node (KBcast 1) [broadcasts l]]
    end = Node (KCoalesce None None) [Node (KBcast 1) [broadcasts l]]).
  { destruct l as [[| | |[|]| | |] [|x []]| |]; auto. left. eauto. }
  destruct Hd as [(fetch & x & ->)|Hd].
  - exists fetch, x. split; [now left|reflexivity].
  - exists None, l. split; [right; auto|]. rewrite Hd. reflexivity.
Qed.

Lemma broadcasts_facts : forall t : tree, has_net t = false ->
  has_net (broadcasts t) = false /\ union_width (broadcasts t) <= union_width t.
Proof.
  induction t as [t IH] using tree_height_ind. intros Hn.
  destruct t as [k cs|w m cs|b p q n ts i]; [| |discriminate Hn].
  - assert (Hc : forall c, In c cs -> has_net (broadcasts c) = false /\ union_width (broadcasts c) <= union_width c).
    { intros c Hc. apply IH; [apply child_height; exact Hc|]. exact (proj1 (existsb_false has_net cs) Hn c Hc). }
    destruct (broadcasts_node k cs) as [->|(j & c & hl & hr & na & l & r & -> & -> & _ & fetch & x & Hx & ->)].
    + split.
      * cbn. apply existsb_false. intros c' Hin. apply in_map_iff in Hin as (c & <- & Hin). now apply Hc.
      * apply width_node; [apply map_length|]. apply list_max_map_le. apply Forall2_nth. rewrite map_length. split; [reflexivity|].
        intros i a b Ha Hb. rewrite nth_error_map, Ha in Hb. injection Hb as <-. apply Hc. eapply nth_error_In; exact Ha.
    + destruct (Hc r) as [B1 B2]; [right; now left|].
      assert (Hx' : has_net (broadcasts x) = false /\ union_width (broadcasts x) <= union_width l).
      { destruct Hx as [->|[-> ->]]; [|apply Hc; now left].
        pose proof (proj1 (existsb_false has_net [Node (KCoalesce None fetch) [x]; r]) Hn _ (or_introl eq_refl)) as Hln.
        cbn in Hln. rewrite orb_false_r in Hln. destruct (IH x) as [A B]; auto.
        - pose proof (child_height (Node (KCoalesce None fetch) [x]) x (or_introl eq_refl)).
          pose proof (child_height (Node (KJoin j c hl hr na) [Node (KCoalesce None fetch) [x]; r]) _ (or_introl eq_refl)). lia.
        - split; [exact A|]. cbn. lia. }
      destruct Hx' as [A1 A2]. cbn. rewrite A1, B1. split; [reflexivity|]. lia.
  - assert (Hc : forall c, In c cs -> has_net (broadcasts c) = false /\ union_width (broadcasts c) <= union_width c).
    { intros c Hc. apply IH; [apply child_height; exact Hc|]. exact (proj1 (existsb_false has_net cs) Hn c Hc). }
    cbn. split.
    + apply existsb_false. intros c' Hin. apply in_map_iff in Hin as (c & <- & Hin). now apply Hc.
    + rewrite map_length. assert (list_max (map union_width (map broadcasts cs)) <= list_max (map union_width cs)); [|lia].
      apply list_max_map_le. apply Forall2_nth. rewrite map_length. split; [reflexivity|].
      intros i a b Ha Hb. rewrite nth_error_map, Ha in Hb. injection Hb as <-. apply Hc. eapply nth_error_In; exact Ha.
Qed.

Lemma isolate_node k (cs : list tree) t' : isolate (Node k cs) = Ok t' ->
  exists cs', Forall2 (fun c c' => isolate c = Ok c') cs cs' /\
    ((k <> KUnion /\ t' = Node k cs') \/
     (k = KUnion /\ exists m, split_children (single_task_weights (List.length cs)) 1 = Ok m /\
        t' = Ciu (single_task_weights (List.length cs)) m cs')).
Proof.
  intros H. destruct k; cbn [isolate] in H;
    try (destruct (seqM (map isolate cs)) as [cs'| |] eqn:Es; cbn in H; try discriminate; injection H as <-;
         exists cs'; split; [now apply seqM_map_inv in Es|left; split; [discriminate|reflexivity]]).
  destruct (split_children _ 1) as [m| |] eqn:Em; cbn [bind] in H; try discriminate.
  destruct (seqM (map isolate cs)) as [cs'| |] eqn:Es; cbn in H; try discriminate. injection H as <-.
  exists cs'. split; [now apply seqM_map_inv in Es|]. right. eauto.
Qed.

Lemma isolate_facts : forall t t' : tree, has_net t = false -> isolate t = Ok t' ->
  has_net t' = false /\ union_width t' <= union_width t.
Proof.
  induction t as [t IH] using tree_height_ind. intros t' Hn H.
  destruct t as [k cs|w m cs|b p q n ts i]; [| |discriminate Hn].
  - apply isolate_node in H as (cs' & F & Ht).
    assert (F' : Forall2 (fun c c' => has_net c' = false /\ union_width c' <= union_width c) cs cs').
    { eapply Forall2_impl_in; [|exact F]. intros c c' Hin E. apply IH; [apply child_height; exact Hin| |exact E].
      exact (proj1 (existsb_false has_net cs) Hn c Hin). }
    assert (N : existsb has_net cs' = false).
    { apply existsb_false. intros c' Hin. apply In_nth_error in Hin as (i & Hi). apply Forall2_nth in F' as [L F'].
      destruct (nth_error cs i) as [c|] eqn:Ec; [exact (proj1 (F' i c c' Ec Hi))|].
      apply nth_error_None in Ec. assert (i < List.length cs') by (apply nth_error_Some; congruence). lia. }
    assert (L : List.length cs' = List.length cs) by (symmetry; eapply Forall2_len; exact F').
    assert (W : list_max (map union_width cs') <= list_max (map union_width cs)).
    { apply list_max_map_le. eapply Forall2_impl_in; [|exact F']. intros x x' _ [_ E]. exact E. }
    destruct Ht as [[_ ->]|(-> & m & _ & ->)].
    + split; [exact N|]. now apply width_node.
    + split; [exact N|]. cbn. lia.
  - cbn in H. destruct (seqM _) as [cs'| |] eqn:Es; cbn in H; try discriminate. injection H as <-. apply seqM_map_inv in Es.
    assert (F' : Forall2 (fun c c' => has_net c' = false /\ union_width c' <= union_width c) cs cs').
    { eapply Forall2_impl_in; [|exact Es]. intros c c' Hin E. apply IH; [apply child_height; exact Hin| |exact E].
      exact (proj1 (existsb_false has_net cs) Hn c Hin). }
    split.
    + cbn. apply existsb_false. intros c' Hin. apply In_nth_error in Hin as (i & Hi). apply Forall2_nth in F' as [L F'].
      destruct (nth_error cs i) as [c|] eqn:Ec; [exact (proj1 (F' i c c' Ec Hi))|].
      apply nth_error_None in Ec. assert (i < List.length cs') by (apply nth_error_Some; congruence). lia.
    + cbn. assert (L : List.length cs' = List.length cs) by (symmetry; eapply Forall2_len; exact F').
      assert (list_max (map union_width cs') <= list_max (map union_width cs)); [|lia].
      apply list_max_map_le. eapply Forall2_impl_in; [|exact F']. intros x x' _ [_ E]. exact E.
Qed.

Lemma before_facts t t' : has_net t = false -> before_injection cfg t = Ok t' ->
  has_net t' = false /\ union_width t' <= union_width t.
Proof.
  unfold before_injection. intros Hn H. destruct (normalize cfg t) as [t1| |] eqn:E1; cbn [bind] in H; try discriminate.
  destruct (normalize_facts t t1 Hn E1) as [N1 W1].
  set (t2 := if 1 <? tparts t1 then Node (KCoalesce None None) [t1] else t1) in *.
  assert (H2 : has_net t2 = false /\ union_width t2 <= union_width t1).
  { unfold t2. destruct (1 <? tparts t1); [|auto]. cbn. rewrite N1. split; [reflexivity|]. lia. }
  destruct H2 as [N2 W2].
  assert (H3 : has_net (insert_broadcasts cfg t2) = false /\ union_width (insert_broadcasts cfg t2) <= union_width t2).
  { unfold insert_broadcasts. destruct (broadcast_joins cfg); [now apply broadcasts_facts|auto]. }
  destruct H3 as [N3 W3].
  unfold insert_unions in H. destruct (children_isolator_unions cfg).
  - destruct (isolate_facts _ _ N3 H) as [N4 W4]. split; [exact N4|]. lia.
  - injection H as <-. split; [exact N3|]. lia.
Qed.

End Before.

(** ** Weaker and derived forms *)

Section Derived.
Context {row : Type}.
Notation tree := (tree row).
Variable cfg : settings row.

Lemma everywhere_impl (P R : nat -> tree -> Prop) : (forall n t, P n t -> R n t) ->
  forall t n, everywhere P t n -> everywhere R t n.
Proof.
  intros HPR. induction t as [k cs IH|w m cs IH|b part q num tasks i IH] using tree_ind'; intros n H.
  - rewrite Forall_forall in IH. cbn [everywhere] in *. destruct H as [H1 H]. split; [auto|].
    rewrite Forall_forall in *. intros X HX. apply in_map_iff in HX as (c & <- & Hc). apply IH; [exact Hc|].
    apply H. apply in_map_iff. eauto.
  - rewrite Forall_forall in IH. cbn [everywhere] in *.
    fold (combined (everywhere P) cs (map_task_counts (List.length cs) m)) in H.
    fold (combined (everywhere R) cs (map_task_counts (List.length cs) m)).
    rewrite combined_Forall in * by apply map_task_counts_length. intros i c Hc. apply IH; [eapply nth_error_In; exact Hc|auto].
  - cbn in *. auto.
Qed.

Lemma planned_mono (P R : tree -> nat -> Prop) : (forall c n, P c n -> R c n) ->
  forall p n q, planned cfg P p n q -> planned cfg R p n q.
Proof.
  intros HPR.
  assert (Hc : forall below c n q, (forall n q, planned cfg P c n q -> planned cfg R c n q) ->
    pchild P below c (planned cfg P c) n q -> pchild R below c (planned cfg R c) n q).
  { intros below c n q IH. unfold pchild. destruct (cut below c); [|auto]. intros (tasks & i & E & H1 & H2). eauto 7. }
  induction p as [k cs IH|w m cs IH|b part qi num tasks i IH] using tree_ind'; intros n q H; [| |destruct H];
    rewrite Forall_forall in IH.
  - destruct cs as [|c0 cs0]; [exact H|].
    apply planned_node in H as (qs & -> & F); [|discriminate]. apply planned_node; [discriminate|].
    exists qs. split; [reflexivity|]. eapply Forall2_impl_in; [|exact F]. intros c q Hin. apply Hc. now apply IH.
  - destruct cs as [|c0 cs0]; [exact H|].
    apply planned_ciu in H as (w' & m' & qs & -> & Es & Hg & Lw & HA & L & F); [|discriminate]. apply planned_ciu; [discriminate|].
    exists w', m', qs. split; [reflexivity|]. split; [exact Es|]. split; [exact Hg|]. split; [exact Lw|].
    split; [intros; apply HPR; eauto|]. split; [exact L|].
    intros i c q Hci Hq. apply Hc; [apply IH; eapply nth_error_In; exact Hci|eauto].
Qed.

Lemma planned_outline (Q : tree -> nat -> Prop) : leaf_handlers cfg -> forall p n q, planned cfg Q p n q -> outline q = outline p.
Proof.
  intros Hleaf.
  assert (Hc : forall below c n q, (forall n q, planned cfg Q c n q -> outline q = outline c) ->
    pchild Q below c (planned cfg Q c) n q -> outline q = outline c).
  { intros below c n q IH. unfold pchild. destruct (cut below c); [|apply IH]. intros (tasks & i & -> & H1 & H2). exact (IH _ _ H2). }
  assert (Hm : forall (cs qs : list tree), Forall2 (fun c q => outline q = outline c) cs qs -> map outline qs = map outline cs).
  { induction 1; cbn; congruence. }
  induction p as [k cs IH|w m cs IH|b part qi num tasks i IH] using tree_ind'; intros n q H; [| |destruct H];
    rewrite Forall_forall in IH.
  - destruct cs as [|c0 cs0].
    { cbn in H. unfold scaled in H. destruct (scale_up_leaf cfg (Node k []) n) as [r|] eqn:E; [|subst; reflexivity].
      subst r. destruct (Hleaf _ _ _ E) as (l & ->). reflexivity. }
    apply planned_node in H as (qs & -> & F); [|discriminate].
    assert (F' : Forall2 (fun c q => outline q = outline c) (c0 :: cs0) qs).
    { eapply Forall2_impl_in; [|exact F]. intros c q Hin. apply Hc. now apply IH. }
    destruct qs as [|q0 qs0]; [inversion F|]. cbn [outline]. now rewrite (Hm _ _ F').
  - destruct cs as [|c0 cs0].
    { cbn in H. unfold scaled in H. destruct (scale_up_leaf cfg (Ciu w m []) n) as [r|] eqn:E; [|subst; reflexivity].
      subst r. destruct (Hleaf _ _ _ E) as (l & ->). reflexivity. }
    apply planned_ciu in H as (w' & m' & qs & -> & _ & _ & _ & _ & L & F); [|discriminate].
    assert (F' : Forall2 (fun c q => outline q = outline c) (c0 :: cs0) qs).
    { apply Forall2_nth. split; [congruence|]. intros i c q Hci Hq. eapply Hc; [|exact (F i c q Hci Hq)].
      apply IH. eapply nth_error_In; exact Hci. }
    destruct qs as [|q0 qs0]; [inversion F'|]. cbn [outline]. now rewrite (Hm _ _ F').
Qed.

(** The whole way from the injection to the final plan. *)
Variable most : nat.
Hypothesis Hmost : max_tasks cfg = Ok most.
Hypothesis Hsane : sane_handlers cfg.
Hypothesis Hleaf : leaf_handlers cfg.

Lemma inject_planned p q a : has_net p = false -> fits most p -> inject cfg None p = Ok (q, a) ->
  planned_root cfg (within_limits cfg most) p (as_usize a) q.
Proof using Hmost Hsane.
  intros Hn Hf H. destruct (inject_spec cfg most Hmost Hsane p None (q, a) Hn Hf H) as (_ & Hi).
  unfold planned_root. cbn in Hi. destruct (cut false p) as [b|].
  - exact (proj1 Hi).
  - exact (proj2 Hi).
Qed.

Lemma inject_deployed p q a d id : dynamic_task_count cfg = false -> has_net p = false -> fits most p -> inject cfg None p = Ok (q, a) ->
  prepare cfg q 1 1 = Ok (d, id) ->
  (cut false p = None -> within_limits cfg most p (as_usize a)) /\
  dchild cfg (within_limits cfg most) false p (deployed cfg (within_limits cfg most) p) (as_usize a) 1 d.
Proof using Hmost Hsane Hleaf.
  intros Hstatic Hn Hf Hi Hp. pose proof (inject_planned p q a Hn Hf Hi) as H. unfold planned_root in H.
  assert (HP : pchild (within_limits cfg most) false p (planned cfg (within_limits cfg most) p) (as_usize a) q).
  { unfold pchild. destruct (cut false p); [exact H|exact (proj2 H)]. }
  split; [intros E; rewrite E in H; exact (proj1 H)|].
  refine (proj1 (prepare_child cfg (within_limits cfg most) false p (as_usize a) q 1 1 d id _ Hleaf Hstatic HP Hp)).
  intros c k [Hk _]. lia.
Qed.

Lemma dchild_tasks p s n d : dchild cfg (within_limits cfg most) false p (deployed cfg (within_limits cfg most) p) s n d ->
  Forall (fun k => 1 <= k <= most) (stage_tasks d).
Proof using Hleaf.
  assert (HD : forall s n d, deployed cfg (within_limits cfg most) p s n d -> Forall (fun k => 1 <= k <= most) (stage_tasks d)).
  { intros. eapply deployed_tasks; eauto. intros c k [Hk _]. exact Hk. }
  unfold dchild. destruct (cut false p) as [b|]; [|apply HD].
  intros (tasks & i & [Hq _] & Hi & H). destruct (elided cfg n tasks); [subst; eauto|].
  destruct H as (num & h & plan & _ & Hh & ->). cbn. rewrite (insert_head_tasks h i plan Hh).
  apply Forall_app. split; [eauto|]. constructor; [exact Hq|constructor].
Qed.

Lemma dchild_alone p s d : dchild cfg (within_limits cfg most) false p (deployed cfg (within_limits cfg most) p) s 1 d ->
  everywhere (alone cfg) d 1.
Proof using Hleaf.
  unfold dchild. destruct (cut false p) as [b|].
  - intros (tasks & i & [Hq1 Hq2] & Hi & H).
    assert (Hei : everywhere (alone cfg) i tasks) by (apply (deployed_alone cfg most Hleaf p tasks tasks i Hi); [lia|auto]).
    destruct (elided cfg 1 tasks) eqn:E.
    + subst d. apply elided_true in E as [_ ->]. exact Hei.
    + destruct H as (num & h & plan & _ & Hh & ->). cbn. eapply insert_head_everywhere; eauto.
  - intros H. apply (deployed_alone cfg most Hleaf p s 1 d H); auto.
Qed.

(** What [distribute] does with a plan without boundaries, when it distributes it. *)
Lemma distribute_inv t r : has_net t = false -> dynamic_task_count cfg = false -> fits most t ->
  distribute cfg t = Ok r ->
  exists p q a d id, before_injection cfg t = Ok p /\ inject cfg None p = Ok (q, a) /\ prepare cfg q 1 1 = Ok (d, id) /\
    has_net p = false /\ fits most p /\
    ((has_net d = false /\ r = TPlan t) \/
     (has_net d = true /\ exists d', after_prepare cfg d = Ok d' /\ r = TDistributed d')).
Proof using.
  unfold distribute. intros Hn Hd Hf H. rewrite Hn in H.
  destruct (before_injection cfg t) as [p| |] eqn:Ep; cbn [bind] in H; try discriminate. rewrite Hd in H.
  unfold inject_and_prepare in H. destruct (inject cfg None p) as [[q a]| |] eqn:Eq; cbn [bind fst] in H; try discriminate.
  destruct (prepare cfg q 1 1) as [[d id]| |] eqn:Epr; cbn [bind fst] in H; try discriminate.
  destruct (before_facts cfg t p Hn Ep) as [Np Wp].
  exists p, q, a, d, id. split; [reflexivity|]. split; [exact Eq|]. split; [exact Epr|]. split; [exact Np|].
  split; [eapply fits_mono; eauto|].
  destruct (has_net d); cbn [negb] in H.
  - right. split; [reflexivity|]. destruct (after_prepare cfg d) as [d'| |]; cbn [bind] in H; try discriminate.
    injection H as <-. eauto.
  - left. split; [reflexivity|]. now injection H.
Qed.

Lemma after_facts (d d' : tree) : after_prepare cfg d = Ok d' ->
  stage_nums d' = stage_nums d /\ stage_queries d' = stage_queries d /\ stage_tasks d' = stage_tasks d /\
  has_net d' = has_net d /\ forall n, everywhere (alone cfg) d n -> everywhere (alone cfg) d' n.
Proof using.
  unfold after_prepare. intros H. set (d1 := if partial_reduce cfg then reduce_shuffles d else d) in *.
  assert (H1 : stage_nums d1 = stage_nums d /\ stage_queries d1 = stage_queries d /\ stage_tasks d1 = stage_tasks d /\
     forall n, everywhere (alone cfg) d n -> everywhere (alone cfg) d1 n).
  { unfold d1. destruct (partial_reduce cfg); [|auto]. destruct (reduce_facts d) as (A & B & C & _).
    repeat split; auto. intros. now apply reduce_everywhere. }
  destruct H1 as (A1 & B1 & C1 & D1). destruct (push_facts d1 d' H) as (A2 & B2 & C2).
  split; [congruence|]. split; [congruence|]. split; [congruence|]. split; [rewrite !has_net_nums; congruence|].
  intros n Hd. unfold push_fetch in H. eapply push_fuel_everywhere; eauto.
Qed.

End Derived.
