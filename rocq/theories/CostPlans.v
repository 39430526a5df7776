(** Proofs about the cost estimate: costs of operators and plans. *)
From Verif Require Import Base CiuModel SamplerModel GatherModel GatherFloat CostModel CostSpec CostFloat CostProofs.
From Coq Require Import ZArith NArith SpecFloat Lia.
Local Open Scope N_scope.

(** ** The cost of a term is its value, saturated *)

Definition known (out : stats) (ins : list stats) (l : linear) : bool :=
  match linear_cost out ins l with Some _ => true | None => false end.
Definition size_of (out : stats) (ins : list stats) : sizes :=
  fun l => match linear_cost out ins l with Some x => x | None => 0 end.

Lemma column_usize i s x : (forall t, s = Some t -> usize_stats t) -> column_size i s = Some x -> x <= usize_max.
Proof.
  destruct s as [s|]; [|discriminate]. intros H. destruct (H s eq_refl) as [_ HC]. cbn.
  destruct (nth_error (columns s) i) as [c|] eqn:E; [|discriminate]. apply nth_error_In in E.
  rewrite Forall_forall in HC. apply HC. exact E.
Qed.
Lemma total_usize s x : (forall t, s = Some t -> usize_stats t) -> total_size s = Some x -> x <= usize_max.
Proof. destruct s as [s|]; [|discriminate]. intros H. destruct (H s eq_refl) as [HT _]. apply HT. Qed.

Lemma linear_usize out ins l x : usize_stats out -> Forall usize_stats ins -> linear_cost out ins l = Some x -> x <= usize_max.
Proof.
  intros HO HI. rewrite Forall_forall in HI.
  assert (H1 : forall t, hd_error ins = Some t -> usize_stats t).
  { intros t Ht. apply HI. destruct ins; cbn in Ht; [discriminate|]. injection Ht as <-. now left. }
  assert (H2 : forall t, last_of ins = Some t -> usize_stats t).
  { intros t Ht. apply HI. now apply nth_error_In in Ht. }
  destruct l; cbn [linear_cost]; eauto using column_usize, total_usize. destruct HO as [HO _]. apply HO.
Qed.

Lemma min_mul a b m : N.min (N.min a m * N.min b m) m = N.min (a * b) m.
Proof.
  destruct (N.le_gt_cases a m), (N.le_gt_cases b m).
  - now rewrite (N.min_l a m), (N.min_l b m) by assumption.
  - rewrite (N.min_l a m), (N.min_r b m) by lia.
    destruct (N.eq_dec a 0) as [->|]; [reflexivity|]. rewrite !N.min_r; nia.
  - rewrite (N.min_l b m), (N.min_r a m) by lia.
    destruct (N.eq_dec b 0) as [->|]; [now rewrite !N.mul_0_r|]. rewrite !N.min_r; nia.
  - rewrite (N.min_r a m), (N.min_r b m) by lia.
    destruct (N.eq_dec m 0) as [->|]; [lia|]. rewrite !N.min_r; nia.
Qed.

Lemma cost_wf checks out ins c : usize_stats out -> Forall usize_stats ins -> wf c ->
  cost checks out ins c
  = Ok (if forallb (known out ins) (linears c) then Some (N.min (eval (size_of out ins) c) usize_max) else None).
Proof.
  intros HO HI. induction c as [v|l|n IHn m IHm|n IHn m IHm|n IHn m IHm]; intros W; cbn [cost linears eval].
  - cbn. f_equal. f_equal. rewrite N.min_l; [reflexivity|]. apply as_usize_max.
  - cbn [forallb]. unfold known, size_of. destruct (linear_cost out ins l) eqn:E; cbn; [|reflexivity].
    rewrite N.min_l; [reflexivity|]. now apply linear_usize with out ins l.
  - destruct W.
  - destruct W as [Wn Wm]. rewrite IHn, IHm by assumption. rewrite forallb_app. cbn [bind].
    destruct (forallb _ (linears n)); cbn [andb]; [|reflexivity]. cbn [bind].
    destruct (forallb _ (linears m)); [|reflexivity]. unfold saturating_add. do 2 f_equal. lia.
  - destruct W as (Wn & Wm & _). rewrite IHn, IHm by assumption. rewrite forallb_app. cbn [bind].
    destruct (forallb _ (linears n)); cbn [andb]; [|reflexivity]. cbn [bind].
    destruct (forallb _ (linears m)); [|reflexivity]. unfold saturating_mul. do 2 f_equal. apply min_mul.
Qed.

Lemma forallb_same {A} (g : A -> bool) l k : (forall x, In x l <-> In x k) -> forallb g l = forallb g k.
Proof.
  intros H. destruct (forallb g k) eqn:E.
  - rewrite forallb_forall in *. intros x Hx. apply E, H, Hx.
  - destruct (forallb g l) eqn:E2; [|reflexivity]. rewrite forallb_forall in E2.
    assert (forallb g k = true); [|congruence]. apply forallb_forall. intros x Hx. apply E2, H, Hx.
Qed.

Lemma denotes_cost checks out ins c F L : usize_stats out -> Forall usize_stats ins -> denotes c F L ->
  cost checks out ins c = Ok (if forallb (known out ins) L then Some (N.min (F (size_of out ins)) usize_max) else None).
Proof.
  intros HO HI (W & E & S). rewrite (cost_wf checks out ins c HO HI W), E. now rewrite (forallb_same _ _ _ S).
Qed.

(** A term of sizes depends on the sizes it reads only. *)
Lemma eval_ext sz sz' c : (forall l, In l (linears c) -> sz l = sz' l) -> eval sz c = eval sz' c.
Proof.
  induction c as [v|l|n IHn m IHm|n IHn m IHm|n IHn m IHm]; cbn [eval linears]; intros H.
  - reflexivity.
  - apply H. now left.
  - rewrite IHn, IHm; auto; intros l Hl; apply H, in_or_app; auto.
  - rewrite IHn, IHm; auto; intros l Hl; apply H, in_or_app; auto.
  - rewrite IHn, IHm; auto; intros l Hl; apply H, in_or_app; auto.
Qed.
Lemma denotes_local c F L sz sz' : denotes c F L -> (forall l, In l L -> sz l = sz' l) -> F sz = F sz'.
Proof. intros (W & E & S) H. rewrite <- !E. apply eval_ext. intros l Hl. apply H, S, Hl. Qed.

Section Operators.
Variable f32_log2 : f32 -> f32.

Lemma sort_term by_ fetch : fixed_work (Sort by_ fetch) <= 2 ^ 24 ->
  exists input, denotes input (fun sz => work sz (Sort by_ fetch)) (AllColumns :: keys_reads by_)
    /\ complexity_cpu f32_log2 (Sort by_ fetch) = Log input (if fetch then Linear AllOutputColumns else input).
Proof.
  intros B. exists (with_keys (Linear AllColumns) by_).
  assert (D := with_keys_den _ _ _ by_ (denotes_linear AllColumns) B). split; [exact D|].
  cbn [complexity_cpu].
  assert (HC : is_constant (with_keys (Linear AllColumns) by_) = false).
  { destruct D as (_ & _ & S). destruct (with_keys _ _); try reflexivity.
    destruct (proj2 (S AllColumns)). now left. }
  destruct fetch; destruct (with_keys (Linear AllColumns) by_); try discriminate; reflexivity.
Qed.

Lemma log2_0 m : (if m =? 0 then 0 else N.log2 m) = N.log2 m.
Proof. destruct (N.eqb_spec m 0) as [->|]; reflexivity. Qed.

(** ** Plans *)

Lemma checked_add a b r : usize_add true a b = Ok r -> r = a + b /\ a + b <= usize_max.
Proof. unfold usize_add. destruct (N.leb_spec (a + b) usize_max); [|discriminate]. intros [= <-]. auto. Qed.
Lemma checked_mul a b r : usize_mul true a b = Ok r -> r = a * b /\ a * b <= usize_max.
Proof. unfold usize_mul. destruct (N.leb_spec (a * b) usize_max); [|discriminate]. intros [= <-]. auto. Qed.
Lemma checked_add_any checks a b r : usize_add true a b = Ok r -> usize_add checks a b = Ok r.
Proof. unfold usize_add. destruct (a + b <=? usize_max); [auto|discriminate]. Qed.
Lemma checked_mul_any checks a b r : usize_mul true a b = Ok r -> usize_mul checks a b = Ok r.
Proof. unfold usize_mul. destruct (a * b <=? usize_max); [auto|discriminate]. Qed.

Lemma sum_precision_le a b r : sum_precision true a b = Ok r -> estimate_le a r /\ estimate_le b r.
Proof.
  unfold sum_precision, estimate_le. intros H.
  destruct (get_value a) as [x|], (get_value b) as [y|].
  - destruct (usize_add true x y) as [v| |] eqn:E; try discriminate. cbn in H. injection H as <-.
    apply checked_add in E as [-> _]. split; intros u [= <-]; exists (x + y); split; try reflexivity; lia.
  - injection H as <-. split; [|discriminate]. intros u [= <-]. exists x. split; [reflexivity|lia].
  - injection H as <-. split; [discriminate|]. intros u [= <-]. exists y. split; [reflexivity|lia].
  - split; discriminate.
Qed.

Ltac inv_bind H :=
  match type of H with bind ?x _ = Ok _ => let E := fresh "E" in destruct x eqn:E; cbn [bind] in H; try discriminate H end.

Tactic Notation "inv_res" hyp(H) "as" ident(x) :=
  match type of H with bind ?t _ = Ok _ => let E := fresh "E" in destruct t as [x| |] eqn:E; cbn [bind] in H; try discriminate H end.

Lemma add_costs_le a b r : add_costs true a b = Ok r -> costs_le a r /\ costs_le b r.
Proof.
  unfold add_costs, costs_le. intros H. do 3 (inv_bind H). injection H as <-. cbn.
  apply sum_precision_le in E, E0, E1. tauto.
Qed.

Lemma estimate_le_refl a : estimate_le a a.
Proof. intros x H. exists x. split; [assumption|lia]. Qed.
Lemma estimate_le_trans a b c : estimate_le a b -> estimate_le b c -> estimate_le a c.
Proof. intros H1 H2 x Hx. destruct (H1 x Hx) as (y & Hy & L). destruct (H2 y Hy) as (w & Hw & L'). exists w. split; [assumption|lia]. Qed.
Lemma costs_le_refl a : costs_le a a.
Proof. repeat split; apply estimate_le_refl. Qed.
Lemma costs_le_trans a b c : costs_le a b -> costs_le b c -> costs_le a c.
Proof. intros (A1 & A2 & A3) (B1 & B2 & B3). repeat split; eapply estimate_le_trans; eassumption. Qed.

(** The loop of lines 43-47. *)
Definition inputs (checks : bool) := fix inputs (l : list plan) (acc : costs) (ss : list stats) : Res (costs * list stats) :=
     match l with
     | [] => Ok (acc, ss)
     | c :: l =>
         let* r := f f32_log2 checks c in
         let '(k, s) := r in
         let* acc := add_costs checks acc k in
         inputs l acc (ss ++ [s])
     end.

Definition child_op (cs : list plan) : option operator := match cs with c :: _ => Some (p_op c) | [] => None end.

Lemma f_eq checks o fields lib cs :
  f f32_log2 checks (Plan o fields lib cs)
  = let* r := inputs checks cs (mkCosts Absent Absent Absent) [] in
    let '(acc, ss) := r in
    let* s := plan_statistics checks lib fields ss in
    let* own := own_cost f32_log2 checks o (child_op cs) s ss in
    let* acc := add_costs checks acc own in
    Ok (acc, s).
Proof. reflexivity. Qed.

Lemma inputs_ok cs : forall acc ss acc' ss', inputs true cs acc ss = Ok (acc', ss') ->
  costs_le acc acc' /\ (forall c, In c cs -> exists k s, f f32_log2 true c = Ok (k, s) /\ costs_le k acc').
Proof.
  induction cs as [|c cs IH]; cbn [inputs]; intros acc ss acc' ss' H.
  - injection H as <- <-. split; [apply costs_le_refl|intros c []].
  - inv_res H as p. destruct p as [k s]. inv_res H as c0. fold (inputs true) in H.
    destruct (IH _ _ _ _ H) as [L1 L2]. apply add_costs_le in E0 as [A B].
    split; [now apply costs_le_trans with c0|]. intros d [<-|Hd]; [|auto].
    exists k, s. split; [assumption|now apply costs_le_trans with c0].
Qed.

Lemma part_le p q : subplan q p -> forall k s, f f32_log2 true p = Ok (k, s) ->
  exists k' s', f f32_log2 true q = Ok (k', s') /\ costs_le k' k.
Proof.
  induction 1 as [|o fields lib cs c Hc Hs IH]; intros k s H.
  - exists k, s. split; [assumption|apply costs_le_refl].
  - rewrite f_eq in H. inv_res H as p. destruct p as [acc ss]. do 3 (inv_bind H). injection H as <- <-.
    destruct (inputs_ok _ _ _ _ _ E) as [_ HI]. destruct (HI c Hc) as (kc & sc & Hf & Lc).
    destruct (IH _ _ Hf) as (k' & s' & Hq & L). exists k', s'. split; [assumption|].
    apply add_costs_le in E2 as [A _]. eapply costs_le_trans; [exact L|]. now apply costs_le_trans with acc.
Qed.

(** A run with overflow checks that succeeds is the run without. *)
Lemma cost_any checks out ins c : forall r, cost true out ins c = Ok r -> cost checks out ins c = Ok r.
Proof.
  induction c as [v|l|n IHn m IHm|n IHn m IHm|n IHn m IHm]; cbn [cost]; intros r H; auto.
  - inv_res H as a. rewrite (IHn _ eq_refl). cbn [bind]. destruct a as [a|]; [|assumption].
    inv_res H as a0. rewrite (IHm _ eq_refl). cbn [bind]. destruct a0 as [b|]; [|assumption].
    inv_bind H. now rewrite (checked_mul_any checks _ _ _ E1).
  - inv_res H as a. rewrite (IHn _ eq_refl). cbn [bind]. destruct a as [a|]; [|assumption].
    inv_res H as a0. rewrite (IHm _ eq_refl). cbn [bind]. assumption.
  - inv_res H as a. rewrite (IHn _ eq_refl). cbn [bind]. destruct a as [a|]; [|assumption].
    inv_res H as a0. rewrite (IHm _ eq_refl). cbn [bind]. assumption.
Qed.

Lemma usize_sum_any checks l : forall a r, usize_sum true a l = Ok r -> usize_sum checks a l = Ok r.
Proof.
  induction l as [|x l IH]; cbn; intros a r H; [assumption|]. inv_bind H.
  rewrite (checked_add_any checks _ _ _ E). cbn [bind]. now apply IH.
Qed.

Section TypeInd.
Variable P : dtype -> Prop.
Hypothesis (HN : P Null) (HF : forall n, P (Fixed n)) (HB : forall n, P (FixedSizeBinary n))
  (HL : forall t n, P t -> P (FixedSizeList t n)) (HS : forall l, Forall P l -> P (Struct l)) (HD : forall t, P t -> P (Dictionary t))
  (HU : forall l, Forall P l -> P (UnionType l)) (HR : forall t, P t -> P (RunEndEncoded t)) (HV : forall n, P (Varlen n)) (HW : P Views)
  (HLs : forall n t, P t -> P (Lists n t)).
Fixpoint dtype_rect_nested (t : dtype) : P t :=
  let all := fix all (l : list dtype) : Forall P l :=
    match l with [] => Forall_nil P | x :: l => Forall_cons x (dtype_rect_nested x) (all l) end in
  match t with
  | Null => HN | Fixed n => HF n | FixedSizeBinary n => HB n | FixedSizeList t n => HL t n (dtype_rect_nested t)
  | Struct l => HS l (all l) | Dictionary t => HD t (dtype_rect_nested t) | UnionType l => HU l (all l)
  | RunEndEncoded t => HR t (dtype_rect_nested t) | Varlen n => HV n | Views => HW | Lists n t => HLs n t (dtype_rect_nested t)
  end.
End TypeInd.

Lemma default_bytes_any checks t : forall r, default_bytes true t = Ok r -> default_bytes checks t = Ok r.
Proof.
  assert (All : forall l, Forall (fun t => forall r, default_bytes true t = Ok r -> default_bytes checks t = Ok r) l ->
    forall r, (fix all (fs : list dtype) : Res (list N) :=
                 match fs with [] => Ok [] | f :: fs => let* b := default_bytes true f in let* l := all fs in Ok (b :: l) end) l = Ok r ->
              (fix all (fs : list dtype) : Res (list N) :=
                 match fs with [] => Ok [] | f :: fs => let* b := default_bytes checks f in let* l := all fs in Ok (b :: l) end) l = Ok r).
  { induction 1 as [|t0 l Ht Hl IH]; intros r H; [assumption|]. inv_bind H. rewrite (Ht _ eq_refl). cbn [bind]. inv_bind H.
    now rewrite (IH _ eq_refl). }
  induction t using dtype_rect_nested; cbn [default_bytes]; intros r Hr; auto using checked_add_any.
  - inv_bind Hr. rewrite (IHt _ eq_refl). cbn [bind]. inv_bind Hr. rewrite (checked_mul_any checks _ _ _ E0). cbn [bind].
    now apply checked_add_any.
  - inv_bind Hr. rewrite (All _ H _ E). cbn [bind]. now apply usize_sum_any.
  - inv_bind Hr. rewrite (All _ H _ E). cbn [bind]. now apply checked_add_any.
  - inv_bind Hr. rewrite (IHt _ eq_refl). cbn [bind]. now apply checked_add_any.
Qed.

Lemma fill_columns_any checks rows cols : forall fields r,
  fill_columns true rows fields cols = Ok r -> fill_columns checks rows fields cols = Ok r.
Proof.
  induction cols as [|c cols IH]; cbn [fill_columns]; intros fields r H; [assumption|].
  destruct fields as [|t fields]; [discriminate|].
  destruct (byte_size c).
  - cbn [bind] in *. inv_bind H. now rewrite (IH _ _ E).
  - cbn [bind] in *. inv_bind H. now rewrite (IH _ _ E).
  - destruct (default_bytes true t) as [b| |] eqn:E; cbn [bind] in H; try discriminate.
    rewrite (default_bytes_any checks _ _ E). cbn [bind]. inv_bind H. now rewrite (IH _ _ E0).
Qed.

Lemma plan_statistics_any checks lib fields ss r :
  plan_statistics true lib fields ss = Ok r -> plan_statistics checks lib fields ss = Ok r.
Proof.
  unfold plan_statistics. intros H. destruct (lib ss) as [s| |]; cbn [bind] in *; try discriminate.
  destruct (fill_rows true ss s) as [s1| |] eqn:E1; cbn [bind] in H; try discriminate.
  assert (E1' : fill_rows checks ss s = Ok s1).
  { unfold fill_rows in *. destruct (num_rows s); try assumption. destruct (flat_map _ ss) as [|n l]; [assumption|].
    destruct (usize_sum true 0 (n :: l)) as [v| |] eqn:E2; cbn [bind] in E1; try discriminate.
    rewrite (usize_sum_any checks _ _ _ E2). exact E1. }
  rewrite E1'. cbn [bind]. destruct (get_value (num_rows s1)) as [rows|]; [|exact H].
  destruct (fill_columns true rows fields (columns s1)) as [cols| |] eqn:E2; cbn [bind] in H; try discriminate.
  rewrite (fill_columns_any checks _ _ _ _ E2). exact H.
Qed.

Lemma own_cost_any checks o c s ss r : own_cost f32_log2 true o c s ss = Ok r -> own_cost f32_log2 checks o c s ss = Ok r.
Proof.
  unfold own_cost. intros H. inv_bind H. rewrite (cost_any checks _ _ _ _ E). cbn [bind].
  inv_bind H. rewrite (cost_any checks _ _ _ _ E0). cbn [bind].
  inv_bind H. rewrite (cost_any checks _ _ _ _ E1). exact H.
Qed.

Lemma sum_precision_any checks a b r : sum_precision true a b = Ok r -> sum_precision checks a b = Ok r.
Proof.
  unfold sum_precision. destruct (get_value a), (get_value b); auto. intros H. inv_bind H.
  now rewrite (checked_add_any checks _ _ _ E).
Qed.
Lemma add_costs_any checks a b r : add_costs true a b = Ok r -> add_costs checks a b = Ok r.
Proof.
  unfold add_costs. intros H. inv_bind H. rewrite (sum_precision_any checks _ _ _ E). cbn [bind].
  inv_bind H. rewrite (sum_precision_any checks _ _ _ E0). cbn [bind].
  inv_bind H. rewrite (sum_precision_any checks _ _ _ E1). exact H.
Qed.

Section PlanInd.
Variable P : plan -> Prop.
Hypothesis HP : forall o fields lib cs, Forall P cs -> P (Plan o fields lib cs).
Fixpoint plan_rect_nested (p : plan) : P p :=
  let '(Plan o fields lib cs) := p in
  HP o fields lib cs ((fix all (l : list plan) : Forall P l :=
    match l with [] => Forall_nil P | x :: l => Forall_cons x (plan_rect_nested x) (all l) end) cs).
End PlanInd.

Lemma f_any checks p : forall r, f f32_log2 true p = Ok r -> f f32_log2 checks p = Ok r.
Proof.
  induction p as [o fields lib cs IH] using plan_rect_nested. intros r. rewrite !f_eq. intros H.
  assert (HI : forall acc ss r, inputs true cs acc ss = Ok r -> inputs checks cs acc ss = Ok r).
  { clear H r. induction IH as [|c cs Hc Hcs IHc]; cbn [inputs]; intros acc ss r H; [assumption|].
    inv_res H as p. rewrite (Hc _ eq_refl). cbn [bind]. destruct p as [k s]. inv_bind H.
    rewrite (add_costs_any checks _ _ _ E0). cbn [bind]. apply IHc. exact H. }
  inv_res H as p. rewrite (HI _ _ _ E). cbn [bind]. destruct p as [acc ss].
  inv_bind H. rewrite (plan_statistics_any checks _ _ _ _ E0). cbn [bind].
  inv_bind H. rewrite (own_cost_any checks _ _ _ _ _ E1). cbn [bind].
  inv_bind H. rewrite (add_costs_any checks _ _ _ E2). exact H.
Qed.

(** ** More bytes, more cost *)

Lemma size_le_value a b x : size_le a b -> get_value a = Some x -> exists y, get_value b = Some y /\ x <= y.
Proof. unfold size_le. intros H E. rewrite E in H. destruct (get_value b) as [y|]; [eauto|destruct H]. Qed.

Definition opt_le (a b : option N) : Prop := match a, b with Some x, Some y => x <= y | None, None => True | _, _ => False end.

Lemma forall2_nth {A B} (P : A -> B -> Prop) l k i : Forall2 P l k ->
  match nth_error l i, nth_error k i with Some a, Some b => P a b | None, None => True | _, _ => False end.
Proof. intros H. revert i. induction H; intros [|i]; cbn; auto. apply IHForall2. Qed.

Lemma linear_mono out ins out' ins' l : sizes_le out out' -> Forall2 sizes_le ins ins' ->
  opt_le (linear_cost out ins l) (linear_cost out' ins' l).
Proof.
  intros HO HI.
  assert (HS : forall a b, size_le a b -> opt_le (get_value a) (get_value b)).
  { intros a b H. exact H. }
  assert (Hlen : List.length ins = List.length ins') by (clear -HI; induction HI; cbn; congruence).
  assert (H1 := forall2_nth _ _ _ 0%nat HI). assert (H2 := forall2_nth _ _ _ (List.length ins - 1)%nat HI).
  assert (C : forall a b i, match a, b with Some a, Some b => sizes_le a b | None, None => True | _, _ => False end ->
    opt_le (column_size i a) (column_size i b)).
  { intros [a|] [b|] i H; try contradiction; [|exact Logic.I]. destruct H as [_ H]. cbn.
    pose proof (forall2_nth _ _ _ i H) as Hi. destruct (nth_error (columns a) i), (nth_error (columns b) i); try contradiction; [|exact Logic.I].
    now apply HS. }
  assert (T : forall a b, match a, b with Some a, Some b => sizes_le a b | None, None => True | _, _ => False end ->
    opt_le (total_size a) (total_size b)).
  { intros [a|] [b|] H; try contradiction; [|exact Logic.I]. destruct H as [H _]. now apply HS. }
  assert (Hd : forall A (l : list A), hd_error l = nth_error l 0) by (intros A []; reflexivity).
  destruct l; cbn [linear_cost]; unfold last_of; rewrite ?Hd; rewrite <- ?Hlen; auto.
  destruct HO as [HO _]. now apply HS.
Qed.

Lemma log2_mono a b : a <= b -> N.log2 a <= N.log2 b. Proof. apply N.log2_le_mono. Qed.

Lemma cost_mono out ins out' ins' c : sizes_le out out' -> Forall2 sizes_le ins ins' -> forall r r',
  cost true out ins c = Ok r -> cost true out' ins' c = Ok r' -> opt_le r r'.
Proof.
  intros HO HI. induction c as [v|l|n IHn m IHm|n IHn m IHm|n IHn m IHm]; cbn [cost]; intros r r' H H'.
  - injection H as <-. injection H' as <-. cbn. lia.
  - injection H as <-. injection H' as <-. now apply linear_mono.
  - inv_res H as a. inv_res H' as a0. specialize (IHn _ _ eq_refl eq_refl).
    destruct a as [a|], a0 as [a0|]; try contradiction; [|injection H as <-; injection H' as <-; exact Logic.I].
    inv_res H as a1. inv_res H' as a2. specialize (IHm _ _ eq_refl eq_refl).
    destruct a1 as [b|], a2 as [b0|]; try contradiction; [|injection H as <-; injection H' as <-; exact Logic.I].
    inv_bind H. inv_bind H'. rewrite log2_0 in *. apply checked_mul in E3 as [-> _], E4 as [-> _].
    injection H as <-. injection H' as <-. cbn in *. apply N.mul_le_mono; [assumption|]. now apply log2_mono.
  - inv_res H as a. inv_res H' as a0. specialize (IHn _ _ eq_refl eq_refl).
    destruct a as [a|], a0 as [a0|]; try contradiction; [|injection H as <-; injection H' as <-; exact Logic.I].
    inv_res H as a1. inv_res H' as a2. specialize (IHm _ _ eq_refl eq_refl).
    destruct a1 as [b|], a2 as [b0|]; try contradiction; [|injection H as <-; injection H' as <-; exact Logic.I].
    injection H as <-. injection H' as <-. cbn in *. unfold saturating_add. lia.
  - inv_res H as a. inv_res H' as a0. specialize (IHn _ _ eq_refl eq_refl).
    destruct a as [a|], a0 as [a0|]; try contradiction; [|injection H as <-; injection H' as <-; exact Logic.I].
    inv_res H as a1. inv_res H' as a2. specialize (IHm _ _ eq_refl eq_refl).
    destruct a1 as [b|], a2 as [b0|]; try contradiction; [|injection H as <-; injection H' as <-; exact Logic.I].
    injection H as <-. injection H' as <-. cbn in *. unfold saturating_mul.
    assert (a * b <= a0 * b0) by (apply N.mul_le_mono; assumption). lia.
Qed.

Lemma opt_estimate a b : opt_le a b -> estimate_le (inexact_or_absent a) (inexact_or_absent b).
Proof. destruct a as [x|], b as [y|]; cbn; intros H u Hu; try discriminate; try contradiction. injection Hu as <-. exists y. auto. Qed.

Lemma own_mono o c out ins out' ins' k k' : sizes_le out out' -> Forall2 sizes_le ins ins' ->
  own_cost f32_log2 true o c out ins = Ok k -> own_cost f32_log2 true o c out' ins' = Ok k' -> costs_le k k'.
Proof.
  intros HO HI H H'. unfold own_cost in *. do 3 (inv_bind H). do 3 (inv_bind H').
  injection H as <-. injection H' as <-.
  split; [|split]; cbn [c_cpu c_memory c_network]; apply opt_estimate; eapply cost_mono; eassumption.
Qed.

Lemma sum_precision_mono a b a' b' r r' : estimate_le a a' -> estimate_le b b' ->
  sum_precision true a b = Ok r -> sum_precision true a' b' = Ok r' -> estimate_le r r'.
Proof.
  unfold sum_precision, estimate_le. intros HA HB H H'.
  destruct (get_value a) as [x|], (get_value b) as [y|].
  - destruct (HA x eq_refl) as (x' & Hx & Lx), (HB y eq_refl) as (y' & Hy & Ly). rewrite Hx, Hy in H'.
    inv_bind H. inv_bind H'. apply checked_add in E as [-> _], E0 as [-> _]. injection H as <-. injection H' as <-.
    intros u [= <-]. exists (x' + y'). split; [reflexivity|lia].
  - destruct (HA x eq_refl) as (x' & Hx & Lx). rewrite Hx in H'. injection H as <-. intros u [= <-].
    destruct (get_value b') as [y'|].
    + inv_bind H'. apply checked_add in E as [-> _]. injection H' as <-. eexists; split; [reflexivity|lia].
    + injection H' as <-. eexists; split; [reflexivity|lia].
  - destruct (HB y eq_refl) as (y' & Hy & Ly). rewrite Hy in H'. injection H as <-. intros u [= <-].
    destruct (get_value a') as [x'|].
    + inv_bind H'. apply checked_add in E as [-> _]. injection H' as <-. eexists; split; [reflexivity|lia].
    + injection H' as <-. eexists; split; [reflexivity|lia].
  - injection H as <-. discriminate.
Qed.

Lemma add_costs_mono a b a' b' r r' : costs_le a a' -> costs_le b b' ->
  add_costs true a b = Ok r -> add_costs true a' b' = Ok r' -> costs_le r r'.
Proof.
  intros (A1 & A2 & A3) (B1 & B2 & B3) H H'. unfold add_costs in *. do 3 (inv_bind H). do 3 (inv_bind H').
  injection H as <-. injection H' as <-.
  split; [|split]; cbn [c_cpu c_memory c_network].
  - eapply sum_precision_mono; [exact A1|exact B1|eassumption|eassumption].
  - eapply sum_precision_mono; [exact A2|exact B2|eassumption|eassumption].
  - eapply sum_precision_mono; [exact A3|exact B3|eassumption|eassumption].
Qed.

Lemma larger_op p q : larger f32_log2 p q -> p_op p = p_op q.
Proof. destruct 1; reflexivity. Qed.
Lemma larger_child cs cs' : Forall2 (larger f32_log2) cs cs' -> child_op cs = child_op cs'.
Proof. destruct 1 as [|c c' cs cs' H]; [reflexivity|]. cbn. now rewrite (larger_op _ _ H). Qed.

Lemma larger_le p : forall q, larger f32_log2 p q -> forall k s k' s',
  f f32_log2 true p = Ok (k, s) -> f f32_log2 true q = Ok (k', s') -> costs_le k k' /\ sizes_le s s'.
Proof.
  induction p as [o fields lib cs IH] using plan_rect_nested. intros q HL k s k' s' H H'.
  inversion HL as [? ? ? ? fields' lib' cs' HC HS E1 E2]. subst. clear HL.
  split; [|now apply (HS k s k' s')]. specialize (HS k s k' s' H H').
  rewrite f_eq in H, H'. rewrite <- (larger_child _ _ HC) in H'.
  assert (HI : forall acc acc' ss ss' r r' t t', costs_le acc acc' -> Forall2 sizes_le ss ss' ->
    inputs true cs acc ss = Ok (r, t) -> inputs true cs' acc' ss' = Ok (r', t') -> costs_le r r' /\ Forall2 sizes_le t t').
  { clear -IH HC. induction HC as [|c c' cs cs' Hc Hcs IHc]; intros acc acc' ss ss' r r' t t' HA HSS H H'; cbn [inputs] in H, H'.
    - injection H as <- <-. injection H' as <- <-. auto.
    - inversion IH as [|? ? Ic Ics]; subst. clear IH. inv_res H as p. inv_res H' as p0. destruct p as [kc sc], p0 as [kc' sc'].
      inv_bind H. inv_bind H'. fold (inputs true) in H, H'.
      destruct (Ic _ Hc _ _ _ _ eq_refl E0) as [L1 L2].
      eapply (IHc Ics); [| |exact H|exact H'].
      + eapply add_costs_mono; [exact HA|exact L1|eassumption|eassumption].
      + apply Forall2_app; auto. }
  inv_res H as p. inv_res H' as p0. destruct p as [acc ss], p0 as [acc' ss'].
  destruct (HI _ _ _ _ _ _ _ _ (costs_le_refl _) (Forall2_nil _) E E0) as [L1 L2].
  inv_res H as x1. inv_res H as x2. inv_res H as x3. inv_res H' as y1. inv_res H' as y2. inv_res H' as y3.
  injection H as <- <-. injection H' as <- <-.
  assert (L3 : costs_le x2 y2).
  { eapply own_mono; [exact HS|exact L2|eassumption|eassumption]. }
  eapply add_costs_mono; [exact L1|exact L3|eassumption|eassumption].
Qed.
End Operators.

(** ** Statistics *)

Lemma fill_columns_spec checks rows cols : forall fields r, fill_columns checks rows fields cols = Ok r ->
  List.length r = List.length cols /\
  forall i c d, nth_error cols i = Some c -> nth_error r i = Some d ->
    null_count d = null_count c /\ (byte_size c <> Absent -> byte_size d = byte_size c) /\
    (distinct_count c <> Absent -> distinct_count d = distinct_count c) /\
    (byte_size c = Absent -> exists t b, nth_error fields i = Some t /\ default_bytes checks t = Ok b /\
       byte_size d = Inexact (N.min (b * rows) usize_max)).
Proof.
  induction cols as [|c cols IH]; cbn [fill_columns]; intros fields r H.
  - injection H as <-. split; [reflexivity|]. intros [|i] c d Hc; discriminate.
  - destruct fields as [|t fields]; [discriminate|].
    destruct (match byte_size c with Absent => _ | _ => _ end) as [size| |] eqn:Es; cbn [bind] in H; try discriminate.
    destruct (fill_columns checks rows fields cols) as [r'| |] eqn:Er; cbn [bind] in H; try discriminate. injection H as <-.
    destruct (IH _ _ Er) as [HL HI]. split; [cbn; now rewrite HL|].
    intros [|i] c0 d Hc Hd; cbn [nth_error] in *; [|now apply (HI i)].
    injection Hc as <-. injection Hd as <-. cbn [null_count byte_size distinct_count].
    split; [reflexivity|]. split; [|split].
    + intros Hb. destruct (byte_size c); [now injection Es as <-|now injection Es as <-|now destruct Hb].
    + intros Hd. destruct (distinct_count c); [reflexivity|reflexivity|now destruct Hd].
    + intros Hb. rewrite Hb in Es. destruct (default_bytes checks t) as [b| |] eqn:Eb; cbn [bind] in Es; try discriminate.
      injection Es as <-. exists t, b. auto.
Qed.

Lemma fill_rows_spec checks ss s r : fill_rows checks ss s = Ok r ->
  columns r = columns s /\ total_byte_size r = total_byte_size s /\ (num_rows s <> Absent -> num_rows r = num_rows s) /\
  (num_rows s = Absent ->
   let rows := flat_map (fun i => match num_rows i with Exact n | Inexact n => [n] | Absent => [] end) ss in
   (rows = [] -> num_rows r = Absent) /\ (rows <> [] -> Nsum rows <= usize_max -> num_rows r = Inexact (Nsum rows))).
Proof.
  assert (E : flat_map (fun c => match get_value (num_rows c) with Some n => [n] | None => [] end) ss
              = flat_map (fun i => match num_rows i with Exact n | Inexact n => [n] | Absent => [] end) ss).
  { induction ss as [|i ss IH]; cbn; [reflexivity|]. rewrite IH. now destruct (num_rows i). }
  unfold fill_rows. intros H. rewrite E in H. clear E. cbv zeta.
  destruct (num_rows s) eqn:En.
  - injection H as <-. repeat split; auto; discriminate.
  - injection H as <-. repeat split; auto; discriminate.
  - set (rows := flat_map _ ss) in *. destruct rows as [|n l] eqn:Er.
    + injection H as <-. split; [reflexivity|]. split; [reflexivity|]. split; [intros X; now destruct X|]. intros _. split; [intros _; exact En|].
      intros X. now destruct X.
    + destruct (usize_sum checks 0 (n :: l)) as [v| |] eqn:Eu; cbn [bind] in H; try discriminate. injection H as <-.
      cbn [columns total_byte_size num_rows]. split; [reflexivity|]. split; [reflexivity|]. split; [intros X; now destruct X|]. intros _.
      split; [discriminate|]. intros _ HB. f_equal.
      assert (U : forall l a, a + Nsum l <= usize_max -> usize_sum checks a l = Ok (a + Nsum l)).
      { clear. induction l as [|x l IH]; intros a H; cbn [usize_sum Nsum fold_right] in *; [f_equal; lia|].
        unfold usize_add. destruct (N.leb_spec (a + x) usize_max); [|unfold Nsum in *; lia]. cbn [bind].
        unfold Nsum in *. rewrite IH by lia. f_equal. lia. }
      rewrite (U (n :: l) 0) in Eu by exact HB. injection Eu as Eu. rewrite <- Eu. reflexivity.
Qed.

Lemma plan_statistics_inv checks lib fields ss s : plan_statistics checks lib fields ss = Ok s ->
  exists l s1 s2, lib ss = Ok l /\ fill_rows checks ss l = Ok s1 /\
    (match get_value (num_rows s1) with
     | None => s2 = s1
     | Some rows => exists cols, fill_columns checks rows fields (columns s1) = Ok cols /\ s2 = mkStats (num_rows s1) (total_byte_size s1) cols
     end) /\
    s = match total_byte_size s2 with Absent => mkStats (num_rows s2) (Inexact (sum_columns (columns s2))) (columns s2) | _ => s2 end.
Proof.
  unfold plan_statistics. intros H. destruct (lib ss) as [l| |]; cbn [bind] in H; try discriminate.
  destruct (fill_rows checks ss l) as [s1| |] eqn:E1; cbn [bind] in H; try discriminate.
  destruct (get_value (num_rows s1)) as [rows|] eqn:Eg.
  - destruct (fill_columns checks rows fields (columns s1)) as [cols| |] eqn:E2; cbn [bind] in H; try discriminate.
    exists l, s1, (mkStats (num_rows s1) (total_byte_size s1) cols). rewrite Eg. do 2 (split; [assumption || reflexivity|]).
    split; [eauto|]. cbn [total_byte_size] in *. destruct (total_byte_size s1); now injection H as <-.
  - exists l, s1, s1. rewrite Eg. cbn [bind] in H. do 3 (split; [assumption || reflexivity|]).
    destruct (total_byte_size s1); now injection H as <-.
Qed.

Lemma known_kept checks lib fields ss l s : plan_statistics checks lib fields ss = Ok s -> lib ss = Ok l ->
  (num_rows l <> Absent -> num_rows s = num_rows l) /\
  (total_byte_size l <> Absent -> total_byte_size s = total_byte_size l) /\
  List.length (columns s) = List.length (columns l) /\
  (forall i c d, nth_error (columns l) i = Some c -> nth_error (columns s) i = Some d ->
     null_count d = null_count c /\ (byte_size c <> Absent -> byte_size d = byte_size c) /\
     (distinct_count c <> Absent -> distinct_count d = distinct_count c)).
Proof.
  intros H Hl. destruct (plan_statistics_inv _ _ _ _ _ H) as (l' & s1 & s2 & Hl' & H1 & H2 & Hs).
  rewrite Hl in Hl'. injection Hl' as <-. apply fill_rows_spec in H1 as (C1 & T1 & R1 & _).
  assert (N2 : num_rows s2 = num_rows s1 /\ total_byte_size s2 = total_byte_size s1).
  { destruct (get_value (num_rows s1)); [destruct H2 as (cols & _ & ->); auto|subst; auto]. }
  destruct N2 as [N2 T2].
  assert (Ns : num_rows s = num_rows s1) by (subst s; destruct (total_byte_size s2); auto).
  assert (Cs : columns s = columns s2) by (subst s; destruct (total_byte_size s2); auto).
  split; [intros X; rewrite Ns; auto|]. split.
  { intros X. rewrite <- T1, <- T2 in X |- *. subst s. destruct (total_byte_size s2) eqn:ET; auto. now destruct X. }
  rewrite Cs. destruct (get_value (num_rows s1)) as [rows|].
  - destruct H2 as (cols & HF & ->). cbn [columns]. rewrite <- C1. apply fill_columns_spec in HF as [HL HI]. split; [assumption|].
    intros i c d Hc Hd. destruct (HI i c d Hc Hd) as (X1 & X2 & X3 & _). auto.
  - subst s2. rewrite C1. split; [reflexivity|]. intros i c d Hc Hd. rewrite Hc in Hd. injection Hd as <-. auto.
Qed.

Lemma rows_of_inputs checks lib fields ss l s : plan_statistics checks lib fields ss = Ok s -> lib ss = Ok l -> num_rows l = Absent ->
  let rows := flat_map (fun i => match num_rows i with Exact n | Inexact n => [n] | Absent => [] end) ss in
  (rows = [] -> num_rows s = Absent) /\ (rows <> [] -> Nsum rows <= usize_max -> num_rows s = Inexact (Nsum rows)).
Proof.
  intros H Hl Ha. destruct (plan_statistics_inv _ _ _ _ _ H) as (l' & s1 & s2 & Hl' & H1 & H2 & Hs).
  rewrite Hl in Hl'. injection Hl' as <-. apply fill_rows_spec in H1 as (_ & _ & _ & R1).
  assert (Ns : num_rows s = num_rows s1).
  { assert (num_rows s2 = num_rows s1).
    { destruct (get_value (num_rows s1)); [destruct H2 as (cols & _ & ->); auto|subst; auto]. }
    subst s; destruct (total_byte_size s2); auto. }
  rewrite Ns. exact (R1 Ha).
Qed.

Lemma bytes_of_rows checks lib fields ss l s rows i c d : plan_statistics checks lib fields ss = Ok s -> lib ss = Ok l ->
  says (num_rows s) rows -> nth_error (columns l) i = Some c -> nth_error (columns s) i = Some d -> byte_size c = Absent ->
  exists t b, nth_error fields i = Some t /\ default_bytes checks t = Ok b /\ byte_size d = Inexact (N.min (b * rows) usize_max).
Proof.
  intros H Hl Hr Hc Hd Hb. destruct (plan_statistics_inv _ _ _ _ _ H) as (l' & s1 & s2 & Hl' & H1 & H2 & Hs).
  rewrite Hl in Hl'. injection Hl' as <-. apply fill_rows_spec in H1 as (C1 & _ & _ & _).
  assert (Cs : columns s = columns s2) by (subst s; destruct (total_byte_size s2); auto).
  assert (Ns : num_rows s = num_rows s2) by (subst s; destruct (total_byte_size s2); auto).
  destruct (get_value (num_rows s1)) as [r|] eqn:E.
  - destruct H2 as (cols & HF & ->). cbn [columns num_rows] in *.
    assert (r = rows) as ->. { rewrite Ns in Hr. destruct Hr as [Hr|Hr]; rewrite Hr in E; now injection E. }
    apply fill_columns_spec in HF as [_ HI]. rewrite C1, <- Cs in HI. destruct (HI i c d Hc Hd) as (_ & _ & _ & X). auto.
  - subst s2. rewrite Ns in Hr. destruct Hr as [Hr|Hr]; rewrite Hr in E; discriminate.
Qed.

Lemma sum_columns_eq cols :
  sum_columns cols = N.min (Nsum (map (fun c => match byte_size c with Exact n | Inexact n => n | Absent => 0 end) cols)) usize_max.
Proof.
  unfold sum_columns.
  assert (G : forall a, a <= usize_max ->
    fold_left (fun acc c => saturating_add acc (match get_value (byte_size c) with Some n => n | None => 0 end)) cols a
    = N.min (a + Nsum (map (fun c => match byte_size c with Exact n | Inexact n => n | Absent => 0 end) cols)) usize_max).
  { induction cols as [|c cols IH]; intros a Ha; cbn [fold_left map Nsum fold_right]; [rewrite N.min_l; lia|].
    rewrite IH by (unfold saturating_add; lia). unfold saturating_add, Nsum. destruct (byte_size c); cbn [get_value]; lia. }
  rewrite G by lia. f_equal.
Qed.

Lemma total_of_columns checks lib fields ss l s : plan_statistics checks lib fields ss = Ok s -> lib ss = Ok l -> total_byte_size l = Absent ->
  total_byte_size s
  = Inexact (N.min (Nsum (map (fun c => match byte_size c with Exact n | Inexact n => n | Absent => 0 end) (columns s))) usize_max).
Proof.
  intros H Hl Ha. destruct (plan_statistics_inv _ _ _ _ _ H) as (l' & s1 & s2 & Hl' & H1 & H2 & Hs).
  rewrite Hl in Hl'. injection Hl' as <-. apply fill_rows_spec in H1 as (_ & T1 & _ & _).
  assert (T2 : total_byte_size s2 = Absent).
  { rewrite <- Ha, <- T1. destruct (get_value (num_rows s1)); [destruct H2 as (cols & _ & ->); auto|subst; auto]. }
  rewrite T2 in Hs. subst s. cbn [total_byte_size columns]. f_equal. apply sum_columns_eq.
Qed.

Lemma fits_bytes checks t : fits t -> default_bytes checks t = Ok (value_bytes t).
Proof.
  assert (A : forall x y, x + y <= usize_max -> usize_add checks x y = Ok (x + y)).
  { intros x y H. unfold usize_add. apply N.leb_le in H. now rewrite H. }
  assert (I : forall z, (0 <= z < 2 ^ 31)%Z -> i32_as_usize z = Z.to_N z).
  { intros z H. unfold i32_as_usize. now rewrite Z.mod_small by lia. }
  assert (U : forall l a, a + Nsum l <= usize_max -> usize_sum checks a l = Ok (a + Nsum l)).
  { clear - A. induction l as [|x l IH]; intros a H; cbn [usize_sum Nsum fold_right] in *; [f_equal; lia|].
    unfold Nsum in *. rewrite A by lia. cbn [bind]. rewrite IH by lia. f_equal. lia. }
  assert (All : forall l, Forall (fun t => fits t -> default_bytes checks t = Ok (value_bytes t)) l -> Forall fits l ->
    (fix all (fs : list dtype) : Res (list N) :=
       match fs with [] => Ok [] | f :: fs => let* b := default_bytes checks f in let* l := all fs in Ok (b :: l) end) l = Ok (map value_bytes l)).
  { induction 1 as [|t0 l Ht Hl IH]; intros H; [reflexivity|]. inversion H; subst. rewrite Ht by assumption. cbn [bind].
    now rewrite IH. }
  induction t using dtype_rect_nested; intros F; inversion F as [| |z Hz|e z Hz He HB|fs Hfs HB|fs Hfs HB|k Hk|v Hv| | |w e He HB]; subst;
    cbn [default_bytes value_bytes] in *; auto.
  - rewrite I by assumption. apply A. unfold usize_max. assert (Z.to_N n < 2 ^ 31) by (apply N2Z.inj_lt; rewrite Z2N.id; lia). lia.
  - rewrite IHt by assumption. cbn [bind]. rewrite I by assumption. unfold usize_mul.
    destruct (N.leb_spec (Z.to_N n * value_bytes t) usize_max); [|lia]. cbn [bind]. now apply A.
  - rewrite (All _ H Hfs). cbn [bind]. now rewrite (U _ 0) by exact HB.
  - rewrite (All _ H Hfs). cbn [bind]. now apply A.
  - rewrite IHt by assumption. cbn [bind]. now apply A.
Qed.
