(** The text of EXPLAIN determines the plan: proofs. *)
From Verif Require Import Base ShowModel PlannerModel ExplainModel ExplainSpec ExplainProofs.
From Coq Require Import String Ascii NArith Lia DecimalString.
From Coq Require DecimalPos DecimalN.
Local Open Scope string_scope.

(** The lines, from the outline of a plan. *)
Fixpoint body (d k : nat) (o : outline) : list text_line :=
  match o with
  | Operator t cs => Body d k t :: List.concat (map (body d (k + 2)) cs)
  | Boundary t _ _ => [Body d k t]
  end.
Fixpoint below (d : nat) (o : outline) : list text_line :=
  match o with
  | Operator _ cs => List.concat (map (below d) cs)
  | Boundary _ h p => Head d h :: body d 0 p ++ Foot d :: below (S d) p
  end.

Lemma body_numbered d k l : List.concat (map (body d k) (map (fun s => Operator s []) l)) = map (Body d k) l.
Proof. induction l as [|s l IH]; cbn; [reflexivity|now rewrite IH]. Qed.
Lemma below_numbered d l : List.concat (map (below d) (map (fun s => Operator s []) l)) = [].
Proof. induction l as [|s l IH]; cbn; [reflexivity|exact IH]. Qed.

Lemma operators_outline d v k : operators d k v = body d k (outline_of v).
Proof.
  revert k. induction v as [i cs IH|i vs|b i num tasks ms p IH] using view_ind'; intros k; cbn [operators outline_of body].
  - do 2 f_equal. rewrite map_map. apply map_ext_in. intros c Hc. rewrite Forall_forall in IH. now apply IH.
  - now rewrite body_numbered.
  - reflexivity.
Qed.
Lemma stages_outline v d : List.concat (map stage_lines (stages d v)) = below d (outline_of v).
Proof.
  revert d. induction v as [i cs IH|i vs|b i num tasks ms p IH] using view_ind'; intros d; cbn [stages outline_of below].
  - induction cs as [|c cs IHc]; [reflexivity|]. inversion IH. subst. cbn [map List.concat].
    rewrite map_app, concat_app. f_equal; [auto|]. now apply IHc.
  - now rewrite below_numbered.
  - cbn [map List.concat stage_lines]. rewrite IH, operators_outline. cbn [app]. now rewrite <- app_assoc.
Qed.

Definition starts_bracket (s : string) : bool := match s with String c _ => Ascii.eqb c "[" | EmptyString => false end.
Definition starts_space (s : string) : bool := match s with String c _ => Ascii.eqb c " " | EmptyString => false end.
Fixpoint marked (o : outline) : Prop :=
  match o with
  | Operator t cs => starts_bracket t = false /\ fold_right (fun c P => marked c /\ P) True cs
  | Boundary t _ p => starts_bracket t = true /\ marked p
  end.

Fixpoint skeleton (o : outline) : outline :=
  match o with
  | Operator t cs => Operator t (map skeleton cs)
  | Boundary t _ _ => Boundary t "" (Operator "" [])
  end.

(** What may follow the lines of an operator at indentation [k]. *)
Definition not_deeper (k : nat) (r : list text_line) : Prop :=
  match r with Body _ k' _ :: _ => k' <= k | _ => True end.

Lemma body_inj d o1 : forall o2 k r1 r2, marked o1 -> marked o2 -> not_deeper k r1 -> not_deeper k r2 ->
  (body d k o1 ++ r1 = body d k o2 ++ r2)%list -> skeleton o1 = skeleton o2 /\ r1 = r2.
Proof.
  induction o1 as [t cs IH|t h p IH] using outline_ind'; intros [t' cs'|t' h' p'] k r1 r2 M1 M2 N1 N2 E;
    cbn [body app skeleton marked] in *.
  - injection E as -> E.
    assert (G : map skeleton cs = map skeleton cs' /\ r1 = r2).
    { destruct M1 as [_ M1], M2 as [_ M2]. apply fold_and in M1, M2. clear t'. revert cs' M2 E.
      induction cs as [|c cs IHc]; intros [|c' cs'] M2 E.
      - now split.
      - cbn [map List.concat app] in E. subst r1. exfalso. destruct c'; cbn in N1; lia.
      - cbn [map List.concat app] in E. subst r2. exfalso. destruct c; cbn in N2; lia.
      - cbn [map List.concat] in E. rewrite <- !app_assoc in E.
        inversion IH as [|? ? IH1 IH2]. subst. inversion M1 as [|? ? M11 M12]. subst. inversion M2 as [|? ? M21 M22]. subst.
        assert (D : forall l r, not_deeper k r -> not_deeper (k + 2) (List.concat (map (body d (k + 2)) l) ++ r)%list).
        { intros [|x l] r Hr; cbn [map List.concat app].
          - destruct r as [|[| |] r]; cbn in *; try exact Logic.I. lia.
          - destruct x; cbn; lia. }
        destruct (IH1 c' _ _ _ M11 M21 (D cs r1 N1) (D cs' r2 N2) E) as [H1 H2].
        destruct (IHc IH2 M12 cs' M22 H2) as [H3 H4]. cbn [map]. now rewrite H1, H3. }
    destruct G as [G ->]. now rewrite G.
  - injection E as -> _. destruct M1, M2. congruence.
  - injection E as -> _. destruct M1, M2. congruence.
  - injection E as -> ->. now split.
Qed.

Lemma below_inj o1 : forall o2 d r1 r2, marked o1 -> marked o2 -> skeleton o1 = skeleton o2 ->
  (below d o1 ++ r1 = below d o2 ++ r2)%list -> o1 = o2 /\ r1 = r2.
Proof.
  induction o1 as [t cs IH|t h p IH] using outline_ind'; intros [t' cs'|t' h' p'] d r1 r2 M1 M2 S E;
    cbn [below skeleton marked] in *; try discriminate.
  - injection S as -> S. destruct M1 as [_ M1], M2 as [_ M2]. apply fold_and in M1, M2.
    assert (G : cs = cs' /\ r1 = r2); [|now destruct G as [-> ->]].
    clear t'. revert cs' M2 S E. induction cs as [|c cs IHc]; intros [|c' cs'] M2 S E; try discriminate.
    + now split.
    + cbn [map List.concat] in S, E. rewrite <- !app_assoc in E. injection S as S1 S2.
      inversion IH as [|? ? IH1 IH2]. subst. inversion M1 as [|? ? M11 M12]. subst. inversion M2 as [|? ? M21 M22]. subst.
      destruct (IH1 c' _ _ _ M11 M21 S1 E) as [-> H]. destruct (IHc IH2 M12 cs' M22 S2 H) as [-> H']. now split.
  - injection S as ->. destruct M1 as [_ M1], M2 as [_ M2].
    cbn [app] in E. injection E as -> E. rewrite <- !app_assoc in E.
    apply body_inj in E; [|exact M1|exact M2|exact Logic.I|exact Logic.I]. destruct E as [HS E'].
    cbn [app] in E'. injection E' as E'.
    destruct (IH p' _ _ _ M1 M2 HS E') as [-> ->]. now split.
Qed.

(** ** Lines and their strings *)
Lemma pad_inj d d' c s c' s' : c <> " "%char -> c' <> " "%char ->
  times d "  " ++ String c s = times d' "  " ++ String c' s' -> d = d' /\ String c s = String c' s'.
Proof.
  intros Hc Hc'. revert d'. induction d as [|d IH]; intros [|d'] E; cbn [times append] in E.
  - now split.
  - injection E as -> _. congruence.
  - injection E as <- _. congruence.
  - injection E as E. destruct (IH d' E) as [-> H]. now split.
Qed.
Lemma indent_inj k : forall k' t t', starts_space t = false -> starts_space t' = false ->
  times k " " ++ " " ++ t = times k' " " ++ " " ++ t' -> k = k' /\ t = t'.
Proof.
  induction k as [|k IH]; intros [|k'] t t' H H' E; cbn [times append] in E.
  - injection E as ->. now split.
  - injection E as E. destruct k'; cbn in E; subst t; discriminate.
  - injection E as E. destruct k; cbn in E; subst t'; discriminate.
  - injection E as E. destruct (IH k' t t' H H' E) as [-> ->]. now split.
Qed.
Definition unspaced (l : text_line) : Prop := match l with Body _ _ t => starts_space t = false | _ => True end.
Lemma line_inj l l' : unspaced l -> unspaced l' -> string_of_line l = string_of_line l' -> l = l'.
Proof.
  intros H H' E. destruct l as [d t|d k t|d], l' as [d' t'|d' k' t'|d']; cbn [string_of_line] in E;
    match type of E with
    | times _ _ ++ ?a ++ ?r = times _ _ ++ ?b ++ ?r' => apply pad_inj in E; [destruct E as [-> E]|discriminate..]
    end; try discriminate.
  - cbn [append] in E. injection E as E. now rewrite E.
  - cbn [append] in E. injection E as E. apply indent_inj in E; [|exact H|exact H']. now destruct E as [-> ->].
  - reflexivity.
Qed.
Lemma lines_inj ls : forall ls', Forall unspaced ls -> Forall unspaced ls' ->
  map string_of_line ls = map string_of_line ls' -> ls = ls'.
Proof.
  induction ls as [|l ls IH]; intros [|l' ls'] H H' E; try discriminate; [reflexivity|].
  injection E as E1 E2. inversion H. inversion H'. subst. f_equal; [now apply line_inj|now apply IH].
Qed.

(** ** Views *)
Lemma starts_app p s t : s <> "" -> (match s with String c _ => p c | EmptyString => false end) = false ->
  (match s ++ t with String c _ => p c | EmptyString => false end) = false.
Proof. destruct s; [congruence|]. now intros _ H. Qed.

Lemma marked_outline v : plain_texts v -> marked (outline_of v).
Proof.
  induction v as [i cs IH|i vs|b i num tasks ms p IH] using view_ind'; cbn [plain_texts outline_of marked].
  - intros (H1 & H2 & H3). split.
    + apply starts_app; [exact H1|]. destruct (line i) as [|c s]; [reflexivity|]. destruct H2 as [_ H2].
      now apply Ascii.eqb_neq.
    + apply fold_and. apply fold_and in H3. apply Forall_map. rewrite Forall_forall in *. intros c Hc. apply IH; auto.
  - intros _. split; [reflexivity|]. apply fold_and, Forall_map. generalize 0.
    induction vs as [|[t ms] vs IH]; intros n; cbn [numbered]; constructor; [split; [reflexivity|exact Logic.I]|apply IH].
  - intros H. split; [reflexivity|now apply IH].
Qed.

Lemma operators_unspaced d v : plain_texts v -> forall k, Forall unspaced (operators d k v).
Proof.
  induction v as [i cs IH|i vs|b i num tasks ms p IH] using view_ind'; cbn [plain_texts operators]; intros H k.
  - destruct H as (H1 & H2 & H3). constructor.
    + cbn. apply starts_app; [exact H1|]. destruct (line i) as [|c s]; [reflexivity|]. destruct H2 as [H2 _].
      now apply Ascii.eqb_neq.
    + apply Forall_concat, Forall_map. apply fold_and in H3. rewrite Forall_forall in IH, H3 |- *. intros c Hc. apply IH; auto.
  - constructor; [reflexivity|]. apply Forall_map.
    enough (G : forall n, Forall (fun x => unspaced (Body d (k + 2) x)) (numbered n vs)) by apply G.
    induction vs as [|[t ms] vs IH]; intros n; cbn [numbered]; constructor; [reflexivity|apply IH].
  - constructor; [reflexivity|constructor].
Qed.
Lemma stage_unspaced d h v : plain_texts v -> Forall unspaced (stage_lines (d, h, v)).
Proof.
  intros H. constructor; [exact Logic.I|]. apply Forall_app. split; [now apply operators_unspaced|]. constructor; [exact Logic.I|constructor].
Qed.
Lemma stages_unspaced v : plain_texts v -> forall d, Forall (fun s => Forall unspaced (stage_lines s)) (stages d v).
Proof.
  induction v as [i cs IH|i vs|b i num tasks ms p IH] using view_ind'; cbn [plain_texts stages]; intros H d.
  - destruct H as (_ & _ & H). apply fold_and in H. apply Forall_concat, Forall_map. rewrite Forall_forall in IH, H |- *.
    intros c Hc. apply IH; auto.
  - constructor.
  - constructor; [now apply stage_unspaced|now apply IH].
Qed.

Lemma head_one_line s p : on_one_line (st_metrics s) -> on_one_line (header (HStage s) p).
Proof.
  intros H. cbn [header]. unfold stage_header.
  repeat first [apply one_line_app|apply num_one_line|exact H|const].
Qed.
Definition line_ok (l : text_line) : Prop := on_one_line (string_of_line l).
Lemma stage_one_line d h v : on_one_line (header h v) -> single_lines v -> Forall line_ok (stage_lines (d, h, v)).
Proof.
  intros Hh Hv. assert (P : on_one_line (times d "  ")) by (apply one_line_times; const).
  constructor; [apply one_line_app; [exact P|]; apply one_line_app; [const|exact Hh]|].
  apply Forall_app. split.
  - eapply Forall_impl; [|exact (operators_body d v Hv 0)]. intros l (k & t & -> & Ht). unfold line_ok. cbn [string_of_line].
    apply one_line_app; [exact P|]. apply one_line_app; [const|]. apply one_line_app; [apply one_line_times; const|].
    apply one_line_app; [const|exact Ht].
  - constructor; [|constructor]. apply one_line_app; [exact P|const].
Qed.
Lemma stages_one_line v : single_lines v -> forall d, Forall (fun s => Forall line_ok (stage_lines s)) (stages d v).
Proof.
  induction v as [i cs IH|i vs|b i num tasks ms p IH] using view_ind'; cbn [single_lines stages]; intros H d.
  - destruct H as (_ & _ & H). apply fold_and in H. apply Forall_concat, Forall_map. rewrite Forall_forall in IH, H |- *.
    intros c Hc. apply IH; auto.
  - constructor.
  - destruct H as (_ & H2 & H3). constructor; [apply stage_one_line; [now apply head_one_line|exact H3]|now apply IH].
Qed.

Lemma text_tells d hm hm' v w : on_one_line hm -> on_one_line hm' ->
  single_lines v -> single_lines w -> plain_texts v -> plain_texts w ->
  string_of_lines (List.concat (map stage_lines ((d, HDistributed hm, v) :: stages (S d) v))) =
  string_of_lines (List.concat (map stage_lines ((d, HDistributed hm', w) :: stages (S d) w))) ->
  hm = hm' /\ outline_of v = outline_of w.
Proof.
  intros Hh Hh' Sv Sw Pv Pw E. rewrite !string_of_lines_ended in E.
  assert (O : forall hm v, on_one_line hm -> single_lines v ->
    Forall on_one_line (map string_of_line (List.concat (map stage_lines ((d, HDistributed hm, v) :: stages (S d) v))))).
  { clear. intros hm v Hh Sv. apply Forall_map, Forall_concat, Forall_map. constructor; [|now apply stages_one_line].
    apply stage_one_line; [|exact Sv]. cbn [header]. apply one_line_app; [const|exact Hh]. }
  apply ended_inj in E; [|now apply O|now apply O].
  assert (U : forall hm v, plain_texts v ->
    Forall unspaced (List.concat (map stage_lines ((d, HDistributed hm, v) :: stages (S d) v)))).
  { clear. intros hm v Pv. apply Forall_concat, Forall_map. constructor; [now apply stage_unspaced|now apply stages_unspaced]. }
  apply lines_inj in E; [|now apply U|now apply U].
  cbn [map List.concat] in E. rewrite !stages_outline in E. unfold stage_lines in E. rewrite !operators_outline in E.
  cbn [app] in E. rewrite <- !app_assoc in E. injection E as Eh E.
  split; [exact Eh|].
  apply body_inj in E; [|now apply marked_outline|now apply marked_outline|exact Logic.I|exact Logic.I].
  destruct E as [HS E]. injection E as E.
  apply (f_equal (fun l => (l ++ [])%list)) in E.
  apply below_inj in E; [exact (proj1 E)|now apply marked_outline|now apply marked_outline|exact HS].
Qed.

(** ** The numbers in a line *)
Definition digit (c : ascii) : Prop := exists d, d < 10 /\ c = ascii_of_nat (48 + d).
Fixpoint digits (s : string) : Prop := match s with EmptyString => True | String c s => digit c /\ digits s end.
Lemma uint_digits u : digits (NilEmpty.string_of_uint u).
Proof.
  induction u as [|u IH|u IH|u IH|u IH|u IH|u IH|u IH|u IH|u IH|u IH]; cbn [NilEmpty.string_of_uint digits]; [exact Logic.I|..];
    (split; [|exact IH]); [exists 0|exists 1|exists 2|exists 3|exists 4|exists 5|exists 6|exists 7|exists 8|exists 9]; (split; [lia|reflexivity]).
Qed.
Lemma num_digits n : digits (num_text n).
Proof.
  unfold num_text, show, NilZero.string_of_uint. destruct (N.to_uint (N.of_nat n)); try apply uint_digits.
  split; [exists 0; split; [lia|reflexivity]|exact Logic.I].
Qed.
Lemma num_text_inj a b : num_text a = num_text b -> a = b.
Proof.
  unfold num_text, show. intros E.
  assert (HN : forall n, N.to_uint n <> Decimal.Nil) by (intros [|p]; [discriminate|apply DecimalPos.Unsigned.to_uint_nonnil]).
  apply (f_equal NilZero.uint_of_string) in E. rewrite !NilZero.usu in E by apply HN. injection E as E.
  apply (f_equal N.of_uint) in E. rewrite !DecimalN.Unsigned.of_to in E. lia.
Qed.
Lemma digits_split a : forall b r s, digits a -> digits b -> no_digit_first r -> no_digit_first s -> a ++ r = b ++ s -> a = b /\ r = s.
Proof.
  induction a as [|c a IH]; intros [|c' b] r s Ha Hb Hr Hs E; cbn [append] in E.
  - now split.
  - subst r. exfalso. destruct Hb as [(d & Hd & ->) _]. now apply (Hr d).
  - subst s. exfalso. destruct Ha as [(d & Hd & ->) _]. now apply (Hs d).
  - injection E as -> E. destruct (IH b r s (proj2 Ha) (proj2 Hb) Hr Hs E) as [-> ->]. now split.
Qed.
Lemma num_split a b r s : no_digit_first r -> no_digit_first s -> num_text a ++ r = num_text b ++ s -> a = b /\ r = s.
Proof.
  intros Hr Hs E. apply digits_split in E; [|apply num_digits..|exact Hr|exact Hs]. destruct E as [E ->].
  split; [now apply num_text_inj|reflexivity].
Qed.
Lemma not_digit c r : (forall d, d < 10 -> Ascii.eqb c (ascii_of_nat (48 + d)) = false) -> no_digit_first (String c r).
Proof. intros H d Hd E. specialize (H d Hd). apply Ascii.eqb_neq in H. contradiction. Qed.
Ltac undigit := apply not_digit; intros d Hd; do 10 (destruct d as [|d]; [reflexivity|]); lia.

Lemma header_facts n k p m n' k' p' m' : no_digit_first m -> no_digit_first m' ->
  stage_header n k p m = stage_header n' k' p' m' -> n = n' /\ k = k' /\ p = p' /\ m = m'.
Proof.
  intros Hm Hm' E. unfold stage_header in E. apply app_inv_s in E.
  apply num_split in E; [destruct E as [-> E]|undigit..]. apply app_inv_s in E.
  apply num_split in E; [destruct E as [-> E]|undigit..]. apply app_inv_s in E.
  apply num_split in E; [destruct E as [-> ->]|assumption..]. now repeat split.
Qed.
Lemma boundary_facts b o n k i m b' o' n' k' i' m' : no_digit_first m -> no_digit_first m' ->
  boundary_line b o n k i ++ m = boundary_line b' o' n' k' i' ++ m' ->
  b = b' /\ o = o' /\ n = n' /\ k = k' /\ (b = BBroadcast -> i = i') /\ m = m'.
Proof.
  intros Hm Hm' E. unfold boundary_line in E. rewrite !app_assoc_s in E. apply app_inv_s in E.
  apply num_split in E; [destruct E as [-> E]|undigit..]. apply app_inv_s in E.
  destruct b, b'; try discriminate E; cbn [boundary_name] in E; rewrite ?app_assoc_s in E; do 3 apply app_inv_s in E;
    (apply num_split in E; [destruct E as [-> E]|undigit..]); apply app_inv_s in E;
    (apply num_split in E; [destruct E as [-> E]|first [assumption|undigit]..]);
    try (subst m; repeat split; now intros).
  apply app_inv_s in E. apply num_split in E; [destruct E as [-> ->]|assumption..]. now repeat split.
Qed.

(** A leaf looks like an operator with one line for each task below it. *)
Fixpoint unleaf (v : view) : view :=
  match v with
  | VNode i cs => VNode i (map unleaf cs)
  | VLeaf i vs => VNode (mkInfo "DistributedLeafExec:" 0 false (metrics i)) (map (fun s => VNode (mkInfo s 0 false "") []) (numbered 0 vs))
  | VNet b i num tasks ms p => VNet b i num tasks ms p
  end.
Fixpoint leafless (v : view) : Prop :=
  match v with VNode _ cs => fold_right (fun c P => leafless c /\ P) True cs | VLeaf _ _ => False | VNet _ _ _ _ _ _ => True end.
Lemma unleaf_leafless v : leafless (unleaf v).
Proof.
  induction v as [i cs IH|i vs|b i num tasks ms p IH] using view_ind'; cbn [unleaf leafless]; [..|exact Logic.I].
  - apply fold_and, Forall_map. exact IH.
  - apply fold_and, Forall_map, Forall_forall. intros s _. exact Logic.I.
Qed.
Lemma unleaf_outline v : outline_of (unleaf v) = outline_of v.
Proof.
  induction v as [i cs IH|i vs|b i num tasks ms p IH] using view_ind'; cbn [unleaf outline_of line metrics]; [..|reflexivity].
  - f_equal. rewrite map_map. apply map_ext_in. now apply Forall_forall.
  - f_equal. rewrite map_map. apply map_ext. intros s. cbn. now rewrite app_nil_s.
Qed.
Lemma unleaf_sketch v : sketch_of (unleaf v) = sketch_of v.
Proof.
  induction v as [i cs IH|i vs|b i num tasks ms p IH] using view_ind'; cbn [unleaf sketch_of line metrics]; [..|reflexivity].
  - f_equal. rewrite map_map. apply map_ext_in. now apply Forall_forall.
  - f_equal. rewrite map_map. apply map_ext. intros s. cbn. now rewrite app_nil_s.
Qed.
Lemma unleaf_separate v : separate_metrics v -> separate_metrics (unleaf v).
Proof.
  induction v as [i cs IH|i vs|b i num tasks ms p IH] using view_ind'; cbn [unleaf separate_metrics]; intros H; [..|exact H].
  - apply fold_and in H. apply fold_and, Forall_map. rewrite Forall_forall in *. intros c Hc. apply IH; auto.
  - apply fold_and, Forall_map, Forall_forall. intros s _. exact Logic.I.
Qed.
Fixpoint depth_of (v : view) : nat :=
  match v with VNode _ cs => S (list_max (map depth_of cs)) | VLeaf _ _ => 2 | VNet _ _ _ _ _ p => S (depth_of p) end.
Lemma unleaf_depth v : depth_of (unleaf v) <= depth_of v.
Proof.
  induction v as [i cs IH|i vs|b i num tasks ms p IH] using view_ind'; cbn [unleaf depth_of]; [..|lia].
  - apply le_n_S. rewrite map_map. apply list_max_le, Forall_map. rewrite Forall_forall in *. intros c Hc.
    specialize (IH c Hc). enough (depth_of c <= list_max (map depth_of cs)) by lia.
    pose proof (proj1 (list_max_le (map depth_of cs) _) (Nat.le_refl _)) as HM. rewrite Forall_forall in HM. apply HM, in_map, Hc.
  - apply le_n_S. rewrite map_map. apply list_max_le, Forall_map, Forall_forall. intros s _. cbn. lia.
Qed.

Lemma sketch_told_within n : forall v w, depth_of v <= n -> separate_metrics v -> separate_metrics w ->
  outline_of v = outline_of w -> sketch_of v = sketch_of w.
Proof.
  induction n as [|n IHn]; intros v w Hn Mv Mw E; [destruct v; cbn in Hn; lia|].
  rewrite <- (unleaf_outline v), <- (unleaf_outline w) in E. rewrite <- (unleaf_sketch v), <- (unleaf_sketch w).
  pose proof (unleaf_leafless v) as Lv. pose proof (unleaf_leafless w) as Lw. pose proof (unleaf_depth v) as Dv.
  apply unleaf_separate in Mv, Mw. assert (Hd : depth_of (unleaf v) <= S n) by lia. clear Dv Hn.
  destruct (unleaf v) as [i cs|i vs|b i num tasks ms p], (unleaf w) as [i' cs'|i' vs'|b' i' num' tasks' ms' p'];
    cbn [outline_of sketch_of separate_metrics leafless depth_of] in *; try contradiction; try discriminate.
  - injection E as Et Ec. rewrite Et. f_equal. clear Et Lv Lw. apply fold_and in Mv, Mw.
    assert (Hc : Forall (fun c => depth_of c <= n) cs).
    { apply le_S_n in Hd. apply list_max_le in Hd. now apply Forall_map in Hd. }
    clear Hd. revert cs' Mw Ec. induction Hc as [|c cs Hc Hcs IH]; intros [|c' cs'] Mw Ec; try discriminate; [reflexivity|].
    cbn [map] in *. injection Ec as E1 E2. inversion Mv. inversion Mw. subst. f_equal; [apply IHn|apply IH]; assumption.
  - pose proof (f_equal (fun o => match o with Boundary t _ _ => t | _ => "" end) E) as Eb.
    pose proof (f_equal (fun o => match o with Boundary _ h _ => h | _ => "" end) E) as Eh.
    pose proof (f_equal (fun o => match o with Boundary _ _ q => q | q => q end) E) as Ep. cbv beta iota in Eb, Eh, Ep. clear E. destruct Mv as (M1 & M2 & M3), Mw as (W1 & W2 & W3).
    apply boundary_facts in Eb; [|assumption..]. destruct Eb as (-> & Eo & -> & -> & _ & ->).
    apply header_facts in Eh; [|assumption..]. destruct Eh as (_ & _ & Hp & Hms). cbn [st_tasks st_metrics] in Hp, Hms. subst ms'. rewrite Eo, Hp.
    f_equal. apply IHn; [lia|assumption..].
Qed.
Lemma sketch_told v w : separate_metrics v -> separate_metrics w -> outline_of v = outline_of w -> sketch_of v = sketch_of w.
Proof. exact (sketch_told_within _ v w (Nat.le_refl _)). Qed.
