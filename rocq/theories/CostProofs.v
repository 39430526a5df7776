(** Proofs about the cost estimate: what its terms denote. *)
From Verif Require Import Base CiuModel SamplerModel GatherModel GatherFloat CostModel CostSpec CostFloat.
From Coq Require Import ZArith NArith SpecFloat Lia.
Local Open Scope N_scope.

(** ** Values of terms *)

Fixpoint eval (sz : sizes) (c : complexity) : N :=
  match c with
  | Constant v => f32_as_usize v
  | Linear l => sz l
  | Log n m => eval sz n * N.log2 (eval sz m)
  | Plus n m => eval sz n + eval sz m
  | Multiply n m => eval sz n * eval sz m
  end.
Fixpoint linears (c : complexity) : list linear :=
  match c with
  | Constant _ => []
  | Linear l => [l]
  | Log n m | Plus n m | Multiply n m => linears n ++ linears m
  end.
(** Terms without logarithms, with whole constants, whose products have a positive constant or the left input as a factor. *)
Fixpoint wf (c : complexity) : Prop :=
  match c with
  | Constant v => whole v (f32_as_usize v)
  | Linear _ => True
  | Log _ _ => False
  | Plus n m => wf n /\ wf m
  | Multiply n m =>
      wf n /\ wf m /\ match n with
                      | Constant v => 1 <= f32_as_usize v
                      | Linear AllColumnsFromLeft => True
                      | _ => False
                      end
  end.
Definition z : sizes := fun _ => 0.

Lemma whole_wf v k : whole v k -> wf (Constant v).
Proof. intros H. cbn. now rewrite (whole_usize v k H). Qed.
Lemma wf_one : wf (Constant f32_one). Proof. apply whole_wf with 1. apply whole_one. Qed.
Lemma eval_one sz : eval sz (Constant f32_one) = 1. Proof. apply whole_usize, whole_one. Qed.
Lemma whole_two : whole f32_two 2. Proof. apply whole_of_N. lia. Qed.
Lemma usize_two : f32_as_usize f32_two = 2. Proof. apply whole_usize, whole_two. Qed.

Lemma linear_eqb_eq a b : linear_eqb a b = true -> a = b.
Proof. destruct a, b; cbn; try discriminate; auto; intros H; apply Nat.eqb_eq in H; now subst. Qed.

Lemma eqb_eval a : forall b, complexity_eqb a b = true -> (forall sz, eval sz a = eval sz b) /\ linears a = linears b.
Proof.
  induction a as [v|l|n IHn m IHm|n IHn m IHm|n IHn m IHm]; intros [w|k|n' m'|n' m'|n' m'] H; cbn in H; try discriminate.
  - cbn. split; [intros _; now apply feqb_usize|reflexivity].
  - apply linear_eqb_eq in H. now subst.
  - apply andb_true_iff in H as [H1 H2]. destruct (IHn _ H1) as [E1 L1], (IHm _ H2) as [E2 L2].
    cbn. split; [intros sz; now rewrite E1, E2|now rewrite L1, L2].
  - apply andb_true_iff in H as [H1 H2]. destruct (IHn _ H1) as [E1 L1], (IHm _ H2) as [E2 L2].
    cbn. split; [intros sz; now rewrite E1, E2|now rewrite L1, L2].
  - apply andb_true_iff in H as [H1 H2]. destruct (IHn _ H1) as [E1 L1], (IHm _ H2) as [E2 L2].
    cbn. split; [intros sz; now rewrite E1, E2|now rewrite L1, L2].
Qed.

Definition is_constant (c : complexity) : bool := match c with Constant _ => true | _ => false end.

Definition sum_ok (s o r : complexity) : Prop :=
  wf r /\ (forall sz, eval sz r = eval sz s + eval sz o)
  /\ (forall l, In l (linears r) <-> In l (linears s) \/ In l (linears o)).

Lemma default_ok s o : wf s -> wf o -> (is_constant s && is_constant o = false)%bool ->
  sum_ok s o (if complexity_eqb s o then multiply (Constant f32_two) s else Plus s o).
Proof.
  intros Ws Wo Hc. destruct (complexity_eqb s o) eqn:E.
  - destruct (eqb_eval _ _ E) as [Ev El].
    assert (is_constant s = false).
    { destruct s; try reflexivity. destruct o; cbn in E, Hc; discriminate. }
    replace (multiply (Constant f32_two) s) with (Multiply (Constant f32_two) s) by (destruct s; [discriminate|reflexivity..]).
    split; [|split].
    + cbn [wf]. split; [exact (whole_wf _ _ whole_two)|]. split; [assumption|]. rewrite usize_two. lia.
    + intros sz. cbn [eval]. rewrite <- Ev, usize_two. lia.
    + intros l. cbn [linears]. rewrite <- El, app_nil_l. tauto.
  - split; [|split]; cbn; [tauto|reflexivity|]. intros l. now rewrite in_app_iff.
Qed.

Lemma plus_ok s : forall o, wf s -> wf o -> eval z s + eval z o <= 2 ^ 24 -> sum_ok s o (plus s o).
Proof.
  induction s as [v|l|n IHn m IHm|n IHn m IHm|n IHn m IHm]; intros o Ws Wo B.
  - destruct o as [w| | | |]; try (exact (default_ok _ _ Ws Wo eq_refl)).
    cbn [plus]. cbn [eval] in B. cbn [wf] in Ws, Wo.
    pose proof (whole_add _ _ _ _ Ws Wo B) as W.
    split; [|split]; [now apply whole_wf in W|intros sz; cbn [eval]; now apply whole_usize|intros l; cbn; tauto].
  - apply default_ok; [assumption|assumption|reflexivity].
  - apply default_ok; [assumption|assumption|reflexivity].
  - destruct o as [w| | | |]; try (destruct m; exact (default_ok _ _ Ws Wo eq_refl)).
    destruct m as [v| | | |]; try (exact (default_ok _ _ Ws Wo eq_refl)).
    cbn [plus]. destruct Ws as [Wn Wv]. cbn [wf] in Wv, Wo. cbn [eval] in B.
    assert (B' : f32_as_usize v + f32_as_usize w <= 2 ^ 24) by lia.
    pose proof (whole_add _ _ _ _ Wv Wo B') as W. pose proof (whole_usize _ _ W) as U.
    destruct (IHn (Constant (f32_add v w))) as (W1 & E1 & L1).
    { assumption. } { now apply whole_wf in W. } { cbn [eval]. rewrite U. lia. }
    split; [assumption|]. split.
    + intros sz. rewrite E1. cbn [eval]. rewrite U. lia.
    + intros l. rewrite L1. cbn [linears]. rewrite in_app_iff. cbn. tauto.
  - apply default_ok; [assumption|assumption|reflexivity].
Qed.

(** ** What a term denotes: a function of the sizes, and the sizes read *)

Definition same (L M : list linear) : Prop := forall l, In l L <-> In l M.
Definition denotes (c : complexity) (F : sizes -> N) (L : list linear) : Prop :=
  wf c /\ (forall sz, eval sz c = F sz) /\ same (linears c) L.

Lemma denotes_ext c F L F' L' : denotes c F L -> (forall sz, F sz = F' sz) -> same L L' -> denotes c F' L'.
Proof.
  intros (W & E & S) HF HL. split; [assumption|]. split; [intros sz; now rewrite E|].
  intros l. now rewrite (S l), (HL l).
Qed.

Lemma denotes_one : denotes (Constant f32_one) (fun _ => 1) [].
Proof. split; [apply wf_one|]. split; [apply eval_one|]. intros l. reflexivity. Qed.
Lemma denotes_linear l : denotes (Linear l) (fun sz => sz l) [l].
Proof. split; [exact Logic.I|]. split; [reflexivity|]. intros k. reflexivity. Qed.

Lemma denotes_plus c d F G L M : denotes c F L -> denotes d G M -> F z + G z <= 2 ^ 24 ->
  denotes (plus c d) (fun sz => F sz + G sz) (L ++ M).
Proof.
  intros (W & E & S) (W' & E' & S') B.
  destruct (plus_ok c d W W') as (W1 & E1 & L1).
  { now rewrite E, E'. }
  split; [assumption|]. split; [intros sz; now rewrite E1, E, E'|].
  intros l. rewrite L1, in_app_iff. now rewrite (S l), (S' l).
Qed.

Lemma same_refl L : same L L. Proof. intros l. reflexivity. Qed.
Lemma same_app_nil L : same (L ++ []) L. Proof. intros l. now rewrite app_nil_r. Qed.

(** Accumulated sums. *)
Definition acc_den (acc : option complexity) (F : sizes -> N) (L : list linear) : Prop :=
  match acc with
  | None => (forall sz, F sz = 0) /\ L = []
  | Some c => denotes c F L
  end.

Lemma add_to_den acc c F L G M : acc_den acc F L -> denotes c G M -> F z + G z <= 2 ^ 24 ->
  acc_den (add_to acc c) (fun sz => F sz + G sz) (L ++ M).
Proof.
  intros HA HC B. destruct acc as [a|]; cbn in *.
  - now apply denotes_plus.
  - destruct HA as [H0 ->]. cbn. apply denotes_ext with G M; [assumption| |apply same_refl].
    intros sz. now rewrite H0.
Qed.

Lemma acc_den_ext acc F L F' L' : acc_den acc F L -> (forall sz, F sz = F' sz) -> (acc = None -> L' = []) -> same L L' ->
  acc_den acc F' L'.
Proof.
  destruct acc as [c|]; cbn; intros H HF HN HL.
  - now apply denotes_ext with F L.
  - split; [|now apply HN]. intros sz. rewrite <- HF. apply (proj1 H).
Qed.

Lemma fold_add {A} (g : A -> complexity) (G : A -> sizes -> N) (M : A -> list linear) l : forall acc F L,
  acc_den acc F L -> (forall x, In x l -> denotes (g x) (G x) (M x)) ->
  F z + Nsum (map (fun x => G x z) l) <= 2 ^ 24 ->
  acc_den (fold_left (fun acc x => add_to acc (g x)) l acc) (fun sz => F sz + Nsum (map (fun x => G x sz) l)) (L ++ flat_map M l)
  /\ (fold_left (fun acc x => add_to acc (g x)) l acc = None -> acc = None /\ l = []).
Proof.
  induction l as [|x l IH]; intros acc F L HA HG B.
  - cbn in *. split; [|auto]. apply acc_den_ext with F L; [assumption| | |].
    + intros sz. now rewrite N.add_0_r.
    + intros ->. cbn in HA. rewrite (proj2 HA). reflexivity.
    + intros k. now rewrite app_nil_r.
  - cbn [fold_left map flat_map Nsum fold_right] in *.
    destruct (IH (add_to acc (g x)) (fun sz => F sz + G x sz) (L ++ M x)) as [H1 H2].
    + apply add_to_den; [assumption|apply HG; now left|]. unfold Nsum in B. lia.
    + intros y Hy. apply HG. now right.
    + unfold Nsum in *. lia.
    + split.
      * apply acc_den_ext with (1 := H1); [intros sz; unfold Nsum; lia| |intros k; now rewrite app_assoc].
        intros H. now destruct (H2 H).
      * intros H. destruct (H2 H) as [H' _]. discriminate.
Qed.

Lemma fold_plus_some {A} (g : A -> complexity) l : forall c,
  fold_left (fun acc x => add_to acc (g x)) l (Some c) = Some (fold_left (fun c x => plus c (g x)) l c).
Proof. induction l as [|x l IH]; intros c; cbn; [reflexivity|]. apply IH. Qed.

Lemma fold_plus {A} (g : A -> complexity) (G : A -> sizes -> N) (M : A -> list linear) l c F L :
  denotes c F L -> (forall x, In x l -> denotes (g x) (G x) (M x)) ->
  F z + Nsum (map (fun x => G x z) l) <= 2 ^ 24 ->
  denotes (fold_left (fun c x => plus c (g x)) l c) (fun sz => F sz + Nsum (map (fun x => G x sz) l)) (L ++ flat_map M l).
Proof.
  intros HC HG B. destruct (fold_add g G M l (Some c) F L HC HG B) as [H _].
  rewrite fold_plus_some in H. exact H.
Qed.

(** ** Expressions *)

Section ExprInd.
Variable P : expr -> Prop.
Hypothesis (Hcol : forall i, P (ECol i)) (Hlit : P ELit) (Hop : forall args, Forall P args -> P (EOp args)).
Fixpoint expr_rect_nested (e : expr) : P e :=
  match e with
  | ECol i => Hcol i
  | ELit => Hlit
  | EOp args => Hop args ((fix all (l : list expr) : Forall P l :=
      match l with [] => Forall_nil P | x :: l => Forall_cons x (expr_rect_nested x) (all l) end) args)
  end.
End ExprInd.

Lemma Nsum_app l k : Nsum (l ++ k) = Nsum l + Nsum k.
Proof. unfold Nsum. induction l as [|x l IH]; cbn; [reflexivity|]. rewrite IH. lia. Qed.

Lemma weighted_more col e : forall a, weighted col (a + 1) e = weighted col a e + Nsum (map col (occurrences e)).
Proof.
  induction e as [i| |args IH] using expr_rect_nested; intros a; cbn [weighted occurrences].
  - cbn. lia.
  - reflexivity.
  - induction IH as [|e l He Hl IHl]; cbn [map flat_map Nsum fold_right]; [reflexivity|].
    rewrite map_app. unfold Nsum in *. rewrite He, IHl.
    pose proof (Nsum_app (map col (occurrences e)) (map col (flat_map occurrences l))) as HA. unfold Nsum in HA. lia.
Qed.

Lemma weighted_zero a e : weighted (fun _ => 0) a e = 0.
Proof.
  revert a. induction e as [i| |args IH] using expr_rect_nested; intros a; cbn [weighted].
  - lia.
  - reflexivity.
  - induction IH as [|e l He Hl IHl]; cbn [map Nsum fold_right]; [reflexivity|]. unfold Nsum in IHl. rewrite He, IHl. reflexivity.
Qed.

Lemma Nsum_zero {A} (g : A -> N) l : (forall x, In x l -> g x = 0) -> Nsum (map g l) = 0.
Proof. unfold Nsum. induction l as [|x l IH]; cbn; intros H; [reflexivity|]. rewrite (H x), IH; auto. Qed.

Definition columns_of (sz : sizes) (i : nat) : N := sz (Column i).
Definition processed_ok (e : expr) (p : option complexity) : Prop :=
  match p with
  | Some c => computes e = true /\ denotes c (fun sz => weighted (columns_of sz) 0 e) (map Column (occurrences e))
  | None => computes e = false
  end.

Lemma weighted_flat col e : computes e = false -> weighted col 0 e = 0.
Proof.
  destruct e as [i| |args]; cbn [computes]; [reflexivity|reflexivity|].
  destruct (occurrences (EOp args)) eqn:E; [|discriminate]. intros _.
  assert (H : forall e a, occurrences e = [] -> weighted col a e = 0).
  { clear. intros e. induction e as [i| |args IH] using expr_rect_nested; intros a H; cbn in *; [discriminate|reflexivity|].
    induction IH as [|e l He Hl IHl]; cbn in *; [reflexivity|]. apply app_eq_nil in H as [H1 H2].
    unfold Nsum in IHl. rewrite He, IHl; auto. }
  now apply H.
Qed.

Lemma processed_spec e : processed_ok e (fst (processed e)) /\ snd (processed e) = occurrences e.
Proof.
  induction e as [i| |args IH] using expr_rect_nested.
  1, 2: split; reflexivity.
  cbn [processed]. set (step := fun '(acc, read) '(p, cols) => _).
  assert (G : forall l acc (read : list nat) F,
    Forall (fun e => processed_ok e (fst (processed e)) /\ snd (processed e) = occurrences e) l ->
    (forall sz, F sz = F sz) -> F z = 0 -> acc_den acc F (map Column read) -> (read = [] <-> acc = None) ->
    let r := fold_left step (map processed l) (acc, read) in
    snd r = read ++ flat_map occurrences l
    /\ acc_den (fst r) (fun sz => F sz + Nsum (map (weighted (columns_of sz) 1) l)) (map Column (snd r))
    /\ (snd r = [] <-> fst r = None)).
  { induction l as [|e l IHl]; intros acc read F HF _ Hz HA HN r; subst r.
    - cbn. rewrite app_nil_r. split; [reflexivity|]. split; [|assumption].
      apply acc_den_ext with (1 := HA); [intros sz; lia| |apply same_refl]. intros E. apply HN in E. now subst.
    - inversion HF as [|? ? [He Hc] Hl]; subst. clear HF.
      cbn [map fold_left flat_map]. destruct (processed e) as [p cols]. cbn [fst snd] in He, Hc. subst cols.
      set (acc1 := match p with Some p => add_to acc p | None => acc end).
      assert (H1 : acc_den acc1 (fun sz => F sz + weighted (columns_of sz) 0 e) (map Column (match p with Some _ => read ++ occurrences e | None => read end))).
      { subst acc1. destruct p as [p|]; cbn in He.
        - destruct He as [_ He]. rewrite map_app. apply (add_to_den acc p F _ _ _ HA He).
          rewrite Hz. replace (columns_of z) with (fun _ : nat => 0) by reflexivity. rewrite weighted_zero. lia.
        - apply acc_den_ext with (1 := HA); [|intros ->; cbn in HA; tauto|apply same_refl].
          intros sz. rewrite weighted_flat by assumption. lia. }
      assert (H2 := fold_add (fun i => Linear (Column i)) (fun i sz => sz (Column i)) (fun i => [Column i]) (occurrences e)
                      acc1 _ _ H1 (fun x _ => denotes_linear _)).
      destruct H2 as [H2 H2n].
      { rewrite Hz. replace (columns_of z) with (fun _ : nat => 0) by reflexivity. rewrite weighted_zero.
        rewrite Nsum_zero by reflexivity. lia. }
      set (acc2 := fold_left _ (occurrences e) acc1) in *.
      assert (Hstep : step (acc, read) (p, occurrences e) = (acc2, read ++ occurrences e)) by reflexivity.
      rewrite Hstep. clear Hstep.
      assert (N2 : read ++ occurrences e = [] <-> acc2 = None).
      { split.
        - intros E. apply app_eq_nil in E as [-> E]. subst acc2. rewrite E. cbn. subst acc1.
          destruct p as [p|]; [|now apply HN]. cbn in He. destruct He as [He _].
          destruct e; cbn in He; try discriminate. cbn in E. rewrite E in He. discriminate.
        - intros E. destruct (H2n E) as [E1 E2]. rewrite E2, app_nil_r. subst acc1. destruct p; [discriminate|]. now apply HN. }
      edestruct (IHl acc2 (read ++ occurrences e) (fun sz => F sz + weighted (columns_of sz) 1 e)) as (R1 & R2 & R3).
      + assumption.
      + reflexivity.
      + rewrite Hz. replace (columns_of z) with (fun _ : nat => 0) by reflexivity. now rewrite weighted_zero.
      + apply acc_den_ext with (1 := H2).
        * intros sz. pose proof (weighted_more (columns_of sz) e 0) as W. change (0 + 1) with 1 in W. rewrite W. change (fun x : nat => sz (Column x)) with (columns_of sz). lia.
        * intros E. apply N2 in E. now rewrite E.
        * intros k.
          assert (Hk : In k (flat_map (fun i : nat => [Column i]) (occurrences e)) <-> In k (map Column (occurrences e))).
          { clear. induction (occurrences e) as [|i l IH]; cbn; [tauto|]. now rewrite IH. }
          destruct p; rewrite !map_app, !in_app_iff, Hk; tauto.
      + assumption.
      + rewrite R1 in *. rewrite <- app_assoc in *. split; [reflexivity|]. split; [|assumption].
        apply acc_den_ext with (1 := R2); [intros sz; cbn [map Nsum fold_right]; unfold Nsum; lia| |apply same_refl].
        intros E. apply R3 in E. now rewrite E. }
  specialize (G args None [] (fun _ => 0) IH (fun _ => eq_refl) eq_refl).
  destruct G as (G1 & G2 & G3).
  { split; reflexivity. } { split; reflexivity. }
  rewrite app_nil_l in G1. split; [|assumption].
  unfold processed_ok. rewrite G1 in *.
  destruct (fst (fold_left step (map processed args) (None, []))) as [c|].
  - cbn [computes]. cbn [occurrences]. destruct (flat_map occurrences args) as [|i l] eqn:E.
    { discriminate (proj1 G3 eq_refl). }
    split; [reflexivity|]. apply denotes_ext with (1 := G2); [|apply same_refl].
    intros sz. cbn [weighted]. change (0 + 1) with 1. lia.
  - cbn [computes occurrences]. now rewrite (proj2 G3 eq_refl).
Qed.

Lemma expression_den e : denotes (expression_complexity e) (fun sz => expr_work (columns_of sz) e) (expr_reads e).
Proof.
  destruct (processed_spec e) as [H _]. unfold expression_complexity, expr_work, expr_reads.
  destruct (fst (processed e)) as [c|]; cbn in *.
  - destruct H as [-> H]. exact H.
  - rewrite H. apply denotes_one.
Qed.

Lemma key_den (side_ : nat -> linear) e :
  denotes (or_one (fold_left (fun acc i => add_to acc (Linear (side_ i))) (cols_read e) None))
    (fun sz => key_work (fun i => sz (side_ i)) e) (map side_ (occurrences e)).
Proof.
  unfold cols_read. rewrite (proj2 (processed_spec e)). unfold key_work.
  destruct (fold_add (fun i => Linear (side_ i)) (fun i sz => sz (side_ i)) (fun i => [side_ i]) (occurrences e) None (fun _ => 0) [])
    as [H HN].
  { split; reflexivity. } { intros. apply denotes_linear. } { rewrite Nsum_zero by reflexivity. lia. }
  destruct (occurrences e) as [|i l] eqn:E.
  - apply denotes_one.
  - destruct (fold_left _ _ None) as [c|]; [|destruct (HN eq_refl); discriminate].
    cbn [or_one]. apply denotes_ext with (1 := H).
    + intros sz. lia.
    + intros k. rewrite app_nil_l. clear. induction (i :: l) as [|j l' IH]; cbn; [tauto|]. now rewrite IH.
Qed.

Lemma left_den e : denotes (join_key_complexity e true) (fun sz => key_work (fun i => sz (ColumnFromLeft i)) e) (map ColumnFromLeft (occurrences e)).
Proof. exact (key_den ColumnFromLeft e). Qed.
Lemma right_den e : denotes (join_key_complexity e false) (fun sz => key_work (fun i => sz (ColumnFromRight i)) e) (map ColumnFromRight (occurrences e)).
Proof. exact (key_den ColumnFromRight e). Qed.
Lemma hash_den e : denotes (hash_or_comparison_key_complexity e) (fun sz => key_work (columns_of sz) e) (map Column (occurrences e)).
Proof. exact (key_den Column e). Qed.

(** ** Join filters *)

Section Operators.
Variable f32_log2 : f32 -> f32.

Definition renamed (cols : list side) (sz : sizes) : sizes :=
  fun l => match l with Column i => filter_column sz cols i | l => sz l end.
Definition renames (cols : list side) (l : linear) : list linear :=
  match l with
  | Column i => match nth_error cols i with
                | Some (SLeft j) => [ColumnFromLeft j] | Some (SRight j) => [ColumnFromRight j] | _ => [] end
  | l => [l]
  end.

Lemma remap_den cols c : wf c -> (forall l, In l (linears c) -> exists i, l = Column i) ->
  eval (renamed cols z) c <= 2 ^ 24 ->
  denotes (remap_filter_columns f32_log2 c cols) (fun sz => eval (renamed cols sz) c) (flat_map (renames cols) (linears c)).
Proof.
  induction c as [v|l|n IHn m IHm|n IHn m IHm|n IHn m IHm]; intros W HC B; cbn [remap_filter_columns].
  - split; [assumption|]. split; [reflexivity|]. apply same_refl.
  - destruct (HC l) as [i ->]; [now left|]. cbn [eval renamed linears flat_map renames].
    unfold filter_column. destruct (nth_error cols i) as [[j|j|]|].
    + apply denotes_linear.
    + apply denotes_linear.
    + apply denotes_one.
    + apply denotes_one.
  - destruct W.
  - destruct W as [Wn Wm]. cbn [eval] in B. cbn [linears] in *. rewrite flat_map_app.
    apply denotes_plus; [apply IHn|apply IHm|]; auto; try lia; intros l Hl; apply HC, in_or_app; auto.
  - destruct W as (Wn & Wm & Wp). destruct n as [v|l| | |]; try contradiction.
    2: { destruct l; try contradiction. destruct (HC AllColumnsFromLeft) as [i Hi]; [now left|discriminate]. }
    cbn [eval] in B. cbn [linears] in *. rewrite app_nil_l.
    assert (Bm : eval (renamed cols z) m <= 2 ^ 24) by nia.
    destruct (IHm Wm) as (W1 & E1 & L1); [intros l Hl; now apply HC|assumption|].
    cbn [remap_filter_columns].
    destruct (remap_filter_columns f32_log2 m cols) as [w| | | |] eqn:Em; cbn [multiply].
    + assert (Bw : f32_as_usize v * f32_as_usize w <= 2 ^ 24).
      { specialize (E1 z). cbn [eval] in E1. now rewrite E1. }
      cbn [wf] in Wn, W1. pose proof (whole_mul _ _ _ _ Wn W1 Bw) as Wx.
      split; [now apply whole_wf in Wx|]. split.
      * intros sz. cbn [eval]. rewrite (whole_usize _ _ Wx). specialize (E1 sz). cbn [eval] in E1. now rewrite E1.
      * exact L1.
    + split; [cbn [wf]; auto|]. split; [intros sz; cbn [eval]; now rewrite <- E1|]. exact L1.
    + destruct W1.
    + split; [cbn [wf]; auto|]. split; [intros sz; cbn [eval]; now rewrite <- E1|]. exact L1.
    + split; [cbn [wf]; auto|]. split; [intros sz; cbn [eval]; now rewrite <- E1|]. exact L1.
Qed.

Lemma filter_den f : filter_work z (Some f) <= 2 ^ 24 ->
  denotes (join_filter_complexity f32_log2 f) (fun sz => filter_work sz (Some f)) (filter_reads (Some f)).
Proof.
  intros B. destruct (expression_den (jf_expr f)) as (W & E & L). unfold join_filter_complexity.
  eapply denotes_ext; [apply remap_den|..].
  - exact W.
  - intros l Hl. apply L in Hl. unfold expr_reads in Hl. destruct (computes (jf_expr f)); [|destruct Hl].
    apply in_map_iff in Hl as (i & <- & _). now exists i.
  - rewrite E. exact B.
  - intros sz. cbn beta. rewrite E. reflexivity.
  - intros l. rewrite in_flat_map. unfold filter_reads. unfold expr_reads in L.
    destruct (computes (jf_expr f)).
    + rewrite in_flat_map. split.
      * intros (k & Hk & Hl). apply L, in_map_iff in Hk as (i & <- & Hi). exists i. auto.
      * intros (i & Hi & Hl). exists (Column i). split; [|exact Hl]. apply L, in_map_iff. eauto.
    + split; [|intros []]. intros (k & Hk & _). apply L in Hk. destruct Hk.
Qed.

Lemma with_filter_den c F L jf : denotes c F L -> F z + filter_work z jf <= 2 ^ 24 ->
  denotes (with_filter f32_log2 c jf) (fun sz => F sz + filter_work sz jf) (L ++ filter_reads jf).
Proof.
  intros H B. destruct jf as [jf|]; cbn [with_filter].
  - apply denotes_plus; [assumption| |assumption]. apply filter_den. lia.
  - apply denotes_ext with (1 := H); [intros sz; cbn; lia|]. intros l. cbn. now rewrite app_nil_r.
Qed.

Lemma with_keys_den c F L l : denotes c F L -> F z + keys_work z l <= 2 ^ 24 ->
  denotes (with_keys c l) (fun sz => F sz + keys_work sz l) (L ++ keys_reads l).
Proof. intros H B. apply fold_plus; [assumption|intros e _; apply hash_den|exact B]. Qed.
Lemma with_left_den c F L on : denotes c F L -> F z + left_work z on <= 2 ^ 24 ->
  denotes (with_left c on) (fun sz => F sz + left_work sz on) (L ++ flat_map (fun e => map ColumnFromLeft (occurrences (fst e))) on).
Proof.
  intros H B. unfold with_left, left_work.
  apply (fold_plus (fun e : expr * expr => join_key_complexity (fst e) true) (fun e sz => key_work (fun i => sz (ColumnFromLeft i)) (fst e)));
    [assumption|intros e _; apply left_den|exact B].
Qed.
Lemma with_right_den c F L on : denotes c F L -> F z + right_work z on <= 2 ^ 24 ->
  denotes (with_right c on) (fun sz => F sz + right_work sz on) (L ++ flat_map (fun e => map ColumnFromRight (occurrences (snd e))) on).
Proof.
  intros H B. unfold with_right, right_work.
  apply (fold_plus (fun e : expr * expr => join_key_complexity (snd e) false) (fun e sz => key_work (fun i => sz (ColumnFromRight i)) (snd e)));
    [assumption|intros e _; apply right_den|exact B].
Qed.

Lemma product_den : denotes (multiply (Linear AllColumnsFromLeft) (Linear AllColumnsFromRight))
  (fun sz => sz AllColumnsFromLeft * sz AllColumnsFromRight) [AllColumnsFromLeft; AllColumnsFromRight].
Proof. split; [cbn; tauto|]. split; [reflexivity|]. apply same_refl. Qed.

Lemma filters_den fs : forall c F L, denotes c F L ->
  F z + Nsum (map (fun e => match e with Some e => expr_work (columns_of z) e | None => 0 end) fs) <= 2 ^ 24 ->
  denotes (fold_left (fun c f => match f with Some e => plus c (expression_complexity e) | None => c end) fs c)
    (fun sz => F sz + Nsum (map (fun e => match e with Some e => expr_work (columns_of sz) e | None => 0 end) fs))
    (L ++ flat_map (fun e => match e with Some e => expr_reads e | None => [] end) fs).
Proof.
  induction fs as [|[e|] fs IH]; intros c F L H B; cbn [fold_left map flat_map Nsum fold_right] in *.
  - apply denotes_ext with (1 := H); [intros sz; lia|]. intros l. now rewrite app_nil_r.
  - eapply denotes_ext; [apply IH|..].
    + apply denotes_plus; [exact H|apply expression_den|]. unfold Nsum in *. lia.
    + unfold Nsum in *. lia.
    + intros sz. unfold Nsum. cbn beta. lia.
    + intros l. now rewrite app_assoc.
  - eapply denotes_ext; [apply IH|..]; [exact H|unfold Nsum in *; lia| |apply same_refl].
    intros sz. unfold Nsum. lia.
Qed.

Lemma same_assoc3 A B C D : same (((A ++ B) ++ C) ++ D) (A ++ C ++ B ++ D).
Proof. intros l. rewrite !in_app_iff. tauto. Qed.

Lemma double_den l : denotes (plus (Linear l) (Linear l)) (fun sz => 2 * sz l) [l].
Proof.
  eapply denotes_ext; [apply denotes_plus; [apply denotes_linear|apply denotes_linear|unfold z; lia]| |].
  - intros sz. cbn beta. lia.
  - intros k. cbn. tauto.
Qed.

Lemma cpu_den o : is_sort o = false -> fixed_work o <= 2 ^ 24 ->
  denotes (complexity_cpu f32_log2 o) (fun sz => work sz o) (reads o).
Proof.
  unfold fixed_work. intros HS B. destruct o; cbn [complexity_cpu work reads] in *; try discriminate HS;
    try apply denotes_linear; try apply denotes_one;
    try exact (with_keys_den _ _ _ _ (denotes_linear AllColumns) B).
  - (* nested loop *) apply with_filter_den; [apply product_den|exact B].
  - (* cross *) apply product_den.
  - (* hash *)
    assert (B' : 2 * z AllColumnsFromLeft + left_work z on + z AllColumnsFromRight + right_work z on + filter_work z filter <= 2 ^ 24) by exact B.
    clear B. eapply denotes_ext; [apply with_filter_den; [apply with_right_den; [apply denotes_plus; [apply with_left_den; [apply double_den|]|apply denotes_linear|]|]|]|..].
    + cbn beta in *. lia.
    + cbn beta in *. lia.
    + cbn beta in *. lia.
    + cbn beta in *. lia.
    + intros sz. reflexivity.
    + intros l. unfold on_reads. rewrite !in_app_iff. cbn [In]. tauto.
  - (* sort merge *)
    assert (HF : forall acc F L, acc_den acc F L -> F z + filter_work z filter <= 2 ^ 24 ->
      acc_den (match filter with Some f => add_to acc (join_filter_complexity f32_log2 f) | None => acc end)
        (fun sz => F sz + filter_work sz filter) (L ++ filter_reads filter)).
    { intros acc F L HA HB. destruct filter as [jf|].
      - apply add_to_den; [assumption|apply filter_den; lia|assumption].
      - apply acc_den_ext with (1 := HA); [intros sz; cbn; lia| |intros l; cbn; now rewrite app_nil_r].
        intros ->. cbn in HA. rewrite (proj2 HA). reflexivity. }
    set (ac1 := fold_left (fun c e => add_to c (join_key_complexity (fst e) true)) on None).
    set (ac2 := fold_left (fun c e => add_to c (join_key_complexity (snd e) false)) on ac1).
    assert (B' : on = [] /\ filter = None \/ left_work z on + right_work z on + filter_work z filter <= 2 ^ 24).
    { destruct on; [destruct filter; [right|left; auto]|right]; exact B. }
    destruct B' as [[-> ->]|B']; [apply denotes_one|]. clear B.
    destruct (fold_add (fun e : expr * expr => join_key_complexity (fst e) true) (fun e sz => key_work (fun i => sz (ColumnFromLeft i)) (fst e))
      (fun e => map ColumnFromLeft (occurrences (fst e))) on None (fun _ => 0) []) as [H1 _].
    { split; reflexivity. } { intros e _. apply left_den. } { change (0 + left_work z on <= 2 ^ 24). lia. }
    destruct (fold_add (fun e : expr * expr => join_key_complexity (snd e) false) (fun e sz => key_work (fun i => sz (ColumnFromRight i)) (snd e))
      (fun e => map ColumnFromRight (occurrences (snd e))) on ac1 _ _ H1) as [H2 N2].
    { intros e _. apply right_den. } { change (0 + left_work z on + right_work z on <= 2 ^ 24). lia. }
    fold ac2 in H2, N2. specialize (HF ac2 _ _ H2). cbn beta in HF.
    assert (B2 : 0 + Nsum (map (fun x : expr * expr => key_work (fun i => z (ColumnFromLeft i)) (fst x)) on)
      + Nsum (map (fun x : expr * expr => key_work (fun i => z (ColumnFromRight i)) (snd x)) on) + filter_work z filter <= 2 ^ 24) by exact B'.
    specialize (HF B2). set (r := match filter with Some f => _ | None => _ end) in *.
    destruct r as [c|] eqn:Er.
    + cbn [or_one]. apply denotes_ext with (1 := HF).
      * intros sz. destruct on; [destruct filter|]; try reflexivity.
        subst r ac2 ac1. cbn in Er. discriminate.
      * intros l. unfold on_reads. rewrite !in_app_iff. cbn [In]. tauto.
    + assert (on = [] /\ filter = None) as [-> ->].
      { subst r. destruct filter; [discriminate|]. split; [|reflexivity]. now destruct (N2 Er). }
      apply denotes_one.
  - (* symmetric *)
    assert (B' : 2 * z AllColumnsFromLeft + left_work z on + 2 * z AllColumnsFromRight + right_work z on + filter_work z filter <= 2 ^ 24) by exact B.
    clear B. eapply denotes_ext; [apply with_filter_den; [apply with_right_den; [apply denotes_plus; [apply denotes_plus; [apply with_left_den; [apply double_den|]|apply denotes_linear|]|apply denotes_linear|]|]|]|..].
    + cbn beta in *. lia.
    + cbn beta in *. lia.
    + cbn beta in *. lia.
    + cbn beta in *. lia.
    + cbn beta. lia.
    + intros sz. cbn beta. lia.
    + intros l. unfold on_reads. rewrite !in_app_iff. cbn [In]. tauto.
  - (* aggregate *)
    eapply denotes_ext; [apply filters_den; [apply with_keys_den; [apply denotes_linear|]|]|..].
    + change (0 + keys_work z group + Nsum (map (fun e => match e with Some e => expr_work (columns_of z) e | None => 0 end) filters) <= 2 ^ 24) in B.
      change (0 + keys_work z group <= 2 ^ 24). lia.
    + exact B.
    + intros sz. reflexivity.
    + intros l. cbn [app]. reflexivity.
  - (* filter *)
    apply (denotes_plus _ _ _ _ _ _ (denotes_linear AllOutputColumns) (expression_den predicate)). exact B.
  - (* projection *)
    destruct exprs as [|e0 exprs]; [apply denotes_one|].
    destruct (fold_add expression_complexity (fun e sz => expr_work (columns_of sz) e) expr_reads (e0 :: exprs) None (fun _ => 0) [])
      as [H HN].
    { split; reflexivity. } { intros e _. apply expression_den. } { exact B. }
    destruct (fold_left _ (e0 :: exprs) None) as [c|]; [|destruct (HN eq_refl); discriminate].
    exact H.
Qed.
End Operators.
