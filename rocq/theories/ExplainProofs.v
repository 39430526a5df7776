(** Proofs about the text of EXPLAIN. *)
From Verif Require Import Base ShowModel PlannerModel ExplainModel ExplainSpec.
From Coq Require Import String Ascii NArith Lia DecimalString.
Local Open Scope string_scope.

Lemma app_assoc_s a b c : (a ++ b) ++ c = a ++ (b ++ c).
Proof. induction a as [|x a IH]; cbn; [reflexivity|now rewrite IH]. Qed.
Lemma app_nil_s a : a ++ "" = a.
Proof. induction a as [|x a IH]; cbn; [reflexivity|now rewrite IH]. Qed.
Lemma app_inv_s a b c : a ++ b = a ++ c -> b = c.
Proof. induction a as [|x a IH]; cbn; intros H; [exact H|]. injection H as H. now apply IH. Qed.

Lemma view_ind' (P : view -> Prop) :
  (forall i cs, Forall P cs -> P (VNode i cs)) -> (forall i vs, P (VLeaf i vs)) ->
  (forall b i num tasks ms p, P p -> P (VNet b i num tasks ms p)) -> forall v, P v.
Proof.
  intros HN HL HB. fix IH 1. intros [i cs|i vs|b i num tasks ms p].
  - apply HN. induction cs as [|c cs IHc]; constructor; [apply IH|exact IHc].
  - apply HL.
  - apply HB, IH.
Qed.
Lemma outline_ind' (P : outline -> Prop) :
  (forall t cs, Forall P cs -> P (Operator t cs)) -> (forall t h p, P p -> P (Boundary t h p)) -> forall o, P o.
Proof.
  intros HN HB. fix IH 1. intros [t cs|t h p].
  - apply HN. induction cs as [|c cs IHc]; constructor; [apply IH|exact IHc].
  - apply HB, IH.
Qed.

(** ** Lines *)
Lemma chars_app a b : list_ascii_of_string (a ++ b) = (list_ascii_of_string a ++ list_ascii_of_string b)%list.
Proof. induction a as [|x a IH]; cbn; [reflexivity|now rewrite IH]. Qed.
Lemma one_line_app a b : on_one_line a -> on_one_line b -> on_one_line (a ++ b).
Proof. unfold on_one_line. rewrite chars_app, in_app_iff. tauto. Qed.
Lemma one_line_times n s : on_one_line s -> on_one_line (times n s).
Proof. intros H. induction n as [|n IH]; cbn; [now intros []|now apply one_line_app]. Qed.
Lemma one_line_const s : existsb (Ascii.eqb (ascii_of_nat 10)) (list_ascii_of_string s) = false -> on_one_line s.
Proof.
  intros H HI. assert (existsb (Ascii.eqb (ascii_of_nat 10)) (list_ascii_of_string s) = true); [|congruence].
  apply existsb_exists. eexists. split; [exact HI|apply Ascii.eqb_refl].
Qed.
Ltac const := apply one_line_const; reflexivity.

Lemma digits_one_line u : on_one_line (NilEmpty.string_of_uint u).
Proof.
  unfold on_one_line. induction u as [|u IH|u IH|u IH|u IH|u IH|u IH|u IH|u IH|u IH|u IH]; cbn; [tauto|..];
    (intros [H|H]; [discriminate|now apply IH]).
Qed.
Lemma num_one_line n : on_one_line (num_text n).
Proof.
  unfold num_text, show, NilZero.string_of_uint. destruct (N.to_uint (N.of_nat n)); try apply digits_one_line. const.
Qed.

Lemma boundary_told b parts num tasks sp : boundary_text b parts num tasks sp = boundary_line b parts num tasks sp.
Proof. destruct b; unfold boundary_text, boundary_line; cbn [boundary_name]; rewrite ?app_assoc_s; reflexivity. Qed.
Lemma header_told h p : head_text h p = header h p.
Proof. destruct h; [reflexivity|]. unfold head_text, header, stage_header, format_tasks. rewrite ?app_assoc_s. reflexivity. Qed.

Lemma boundary_one_line b parts num tasks sp : on_one_line (boundary_line b parts num tasks sp).
Proof.
  unfold boundary_line.
  destruct b; cbn [boundary_name]; repeat first [apply one_line_app|const|apply num_one_line].
Qed.

Lemma split_line s r : on_one_line s -> split_lines (s ++ newline ++ r) = s :: split_lines r.
Proof.
  intros H. induction s as [|c s IH].
  - reflexivity.
  - cbn [append split_lines]. rewrite IH by (intros HI; apply H; now right).
    destruct (Ascii.eqb c (ascii_of_nat 10)) eqn:E; [|reflexivity].
    apply Ascii.eqb_eq in E. subst c. exfalso. apply H. now left.
Qed.

(** The strings of lines, each ended by a newline. *)
Definition ended (ls : list string) : string := fold_right (fun l s => l ++ newline ++ s) "" ls.
Lemma ended_app a b : ended (a ++ b)%list = ended a ++ ended b.
Proof.
  induction a as [|x a IH]; [reflexivity|]. change ((x :: a) ++ b)%list with (x :: (a ++ b))%list.
  change (ended (?y :: ?l)) with (y ++ newline ++ ended l). now rewrite IH, !app_assoc_s.
Qed.
Lemma ended_concat (l : list (list string)) : ended (List.concat l) = concat_all (map ended l).
Proof. induction l as [|x l IH]; cbn; [reflexivity|]. now rewrite ended_app, IH. Qed.

Lemma split_ended ls : Forall on_one_line ls -> split_lines (ended ls) = (ls ++ [""])%list.
Proof.
  induction 1 as [|l ls Hl HF IH]; [reflexivity|].
  change (ended (l :: ls)) with (l ++ newline ++ ended ls). rewrite split_line by exact Hl. now rewrite IH.
Qed.
Lemma ended_inj ls ls' : Forall on_one_line ls -> Forall on_one_line ls' -> ended ls = ended ls' -> ls = ls'.
Proof.
  intros H H' E. apply (f_equal split_lines) in E. rewrite !split_ended in E by assumption.
  now apply app_inv_tail in E.
Qed.

Lemma string_of_lines_ended ls : string_of_lines ls = ended (map string_of_line ls).
Proof.
  induction ls as [|l ls IH]; [reflexivity|]. cbn [map]. change (ended (?y :: ?r)) with (y ++ newline ++ ended r).
  now rewrite <- IH.
Qed.
Lemma string_of_lines_app a b : string_of_lines (a ++ b)%list = string_of_lines a ++ string_of_lines b.
Proof. now rewrite !string_of_lines_ended, map_app, ended_app. Qed.

(** ** The operators of a stage *)
Definition inner_line (l : text_line) : string :=
  match l with Body _ k text => times k " " ++ " " ++ text | Head _ t => t | Foot _ => "" end.

Lemma fold_and {A} (P : A -> Prop) l : fold_right (fun c Q => P c /\ Q) True l <-> Forall P l.
Proof.
  induction l as [|x l IH]; cbn; [split; [constructor|tauto]|]. rewrite IH. split.
  - intros [H H']. now constructor.
  - intros H. inversion H. now split.
Qed.

Lemma numbered_lines k vs i d : 
  variant_lines k i vs = ended (map inner_line (map (Body d (k + 2)) (numbered i vs))).
Proof.
  revert i. induction vs as [|[t ms] vs IH]; intros i; [reflexivity|].
  cbn [variant_lines numbered map ended fold_right inner_line]. rewrite IH.
  assert (E : times (k + 2) " " ++ " " = spaces k ++ "   ").
  { clear. unfold spaces. induction k as [|k IH]; [reflexivity|]. cbn [times Nat.add append]. now rewrite IH. }
  change ("   t" ++ num_text i ++ ": " ++ t ++ ms ++ newline ++ ended (map inner_line (map (Body d (k + 2)) (numbered (S i) vs))))
    with ("   " ++ ("t" ++ num_text i ++ ": " ++ t ++ ms ++ newline ++ ended (map inner_line (map (Body d (k + 2)) (numbered (S i) vs))))).
  rewrite <- (app_assoc_s (spaces k)), <- E, !app_assoc_s. reflexivity.
Qed.

Lemma display_inner_lines d v k : display_inner k v = ended (map inner_line (operators d k v)).
Proof.
  revert k. induction v as [i cs IH|i vs|b i num tasks ms p IH] using view_ind'; intros k.
  - cbn [display_inner node_text info_of operators map]. change (ended (?x :: ?l)) with (x ++ newline ++ ended l).
    cbn [inner_line]. rewrite !app_assoc_s. unfold spaces. do 5 f_equal.
    rewrite concat_map, ended_concat. f_equal. rewrite !map_map.
    induction cs as [|c cs IHc]; [reflexivity|]. inversion IH. subst. cbn [map]. f_equal; [apply H1|now apply IHc].
  - cbn [display_inner operators map]. unfold display_leaf. change (ended (?x :: ?l)) with (x ++ newline ++ ended l).
    cbn [inner_line]. rewrite (numbered_lines k vs 0 d), !app_assoc_s. reflexivity.
  - cbn [display_inner node_text info_of operators map]. change (ended (?x :: ?l)) with (x ++ newline ++ ended l).
    cbn [inner_line ended fold_right]. rewrite boundary_told, !app_assoc_s. reflexivity.
Qed.

Definition body_ok (l : text_line) : Prop := match l with Body _ _ t => on_one_line t | _ => False end.
Lemma numbered_one_line i vs :
  Forall (fun '(text, ms) => on_one_line text /\ on_one_line ms) vs -> Forall on_one_line (numbered i vs).
Proof.
  intros H. revert i. induction H as [|[t ms] vs [H1 H2] HF IH]; intros i; cbn [numbered]; constructor; [|apply IH].
  repeat first [apply one_line_app|apply num_one_line|assumption|const].
Qed.
Lemma operators_body d v : single_lines v -> forall k, Forall (fun l => exists k' t, l = Body d k' t /\ on_one_line t) (operators d k v).
Proof.
  induction v as [i cs IH|i vs|b i num tasks ms p IH] using view_ind'; cbn [single_lines operators]; intros HS k.
  - destruct HS as (H1 & H2 & H3). constructor; [do 2 eexists; split; [reflexivity|now apply one_line_app]|].
    apply Forall_concat, Forall_map. apply fold_and in H3. rewrite Forall_forall in IH, H3 |- *. intros c Hc. apply IH; auto.
  - destruct HS as [H1 H2]. constructor; [do 2 eexists; split; [reflexivity|apply one_line_app; [const|exact H1]]|].
    apply Forall_map. eapply Forall_impl; [|exact (numbered_one_line 0 vs H2)]. intros t Ht. do 2 eexists. split; [reflexivity|exact Ht].
  - destruct HS as (H1 & H2 & H3). constructor; [|constructor]. do 2 eexists. split; [reflexivity|].
    apply one_line_app; [apply boundary_one_line|exact H1].
Qed.

Lemma inner_one_line d v k : single_lines v -> Forall on_one_line (map inner_line (operators d k v)).
Proof.
  intros H. apply Forall_map. eapply Forall_impl; [|exact (operators_body d v H k)].
  intros l (k' & t & -> & Ht). cbn [inner_line]. repeat apply one_line_app; [apply one_line_times|..]; [const|const|exact Ht].
Qed.
Lemma inner_nonempty d v k : single_lines v -> filter nonempty (map inner_line (operators d k v)) = map inner_line (operators d k v).
Proof.
  intros H. pose proof (operators_body d v H k) as HF. induction HF as [|l ls (k' & t & -> & Ht) HF IH]; [reflexivity|].
  cbn [map filter inner_line]. rewrite IH. destruct k'; reflexivity.
Qed.

Lemma filter_snoc (ls : list string) : filter nonempty (ls ++ [""])%list = filter nonempty ls.
Proof. rewrite filter_app. cbn. apply app_nil_r. Qed.

Lemma join_lines pad ls : ls <> [] ->
  pad ++ String.concat (newline ++ pad) ls ++ newline = ended (map (fun l => pad ++ l) ls).
Proof.
  destruct ls as [|l ls]; [congruence|]. intros _. revert l. induction ls as [|l' ls IH]; intros l.
  - cbn. now rewrite app_assoc_s.
  - change (String.concat (newline ++ pad) (l :: l' :: ls)) with (l ++ (newline ++ pad) ++ String.concat (newline ++ pad) (l' :: ls)).
    change (ended (map (fun l => pad ++ l) (l :: l' :: ls))) with ((pad ++ l) ++ newline ++ ended (map (fun l => pad ++ l) (l' :: ls))).
    rewrite <- (IH l'). now rewrite !app_assoc_s.
Qed.

Lemma block_lines d h v : single_lines v -> block d h v = string_of_lines (stage_lines (d, h, v)).
Proof.
  intros H. unfold block, stage_lines. rewrite (display_inner_lines d), split_ended, filter_snoc, inner_nonempty
    by (first [exact H|now apply inner_one_line]).
  change (string_of_lines (?x :: ?r)) with (string_of_line x ++ newline ++ string_of_lines r).
  rewrite string_of_lines_app. cbn [string_of_line]. rewrite header_told, !app_assoc_s. unfold LTCORNER.
  change ("┌" ++ rule 5 ++ header h v ++ ?x) with ("┌─────" ++ header h v ++ x).
  do 4 f_equal.
  assert (E : times d "  " ++ VERTICAL ++ String.concat (newline ++ times d "  " ++ VERTICAL) (map inner_line (operators d 0 v)) ++ newline
              = string_of_lines (operators d 0 v)).
  { rewrite string_of_lines_ended, <- (app_assoc_s (times d "  ") VERTICAL). rewrite join_lines.
    - f_equal. pose proof (operators_body d v H 0) as HF. induction HF as [|l ls (k' & t & -> & Ht) HF IH]; [reflexivity|].
      cbn [map]. rewrite IH. f_equal. cbn [string_of_line inner_line]. now rewrite !app_assoc_s.
    - destruct v; discriminate. }
  change (string_of_lines [Foot d]) with ((times d "  " ++ LDCORNER ++ rule 50) ++ newline).
  rewrite <- E, !app_assoc_s. reflexivity.
Qed.

(** ** All the stages *)
Lemma find_stages d v : is_boundary v = false -> no_bare_inputs v ->
  stages d v = List.concat (map (fun s => (d, HStage s, st_plan s) :: stages (S d) (st_plan s)) (find_input_stages v)).
Proof.
  revert d. induction v as [i cs IH|i vs|b i num tasks ms p IH] using view_ind'; intros d HB HN; [|reflexivity|discriminate].
  cbn [stages find_input_stages no_bare_inputs] in *. apply fold_and in HN.
  induction cs as [|c cs IHc]; [reflexivity|]. inversion IH as [|? ? IH1 IH2]. subst. inversion HN as [|? ? HN1 HN2]. subst.
  cbn [map List.concat]. rewrite map_app, concat_app. rewrite <- IHc by assumption. f_equal.
  destruct c as [i' cs'|i' vs'|b' i' num' tasks' ms' p'].
  - now apply IH1.
  - reflexivity.
  - cbn. now rewrite app_nil_r.
Qed.

Lemma find_levels v s : In s (find_input_stages v) -> is_boundary v = false -> levels (st_plan s) < levels v.
Proof.
  induction v as [i cs IH|i vs|b i num tasks ms p IH] using view_ind'; cbn; [|tauto|discriminate].
  intros HI _. apply in_concat in HI as (l & Hl & Hs). apply in_map_iff in Hl as (c & <- & Hc).
  assert (HM : levels c <= list_max (map levels cs)).
  { pose proof (proj1 (list_max_le (map levels cs) _) (le_n _)) as HF. rewrite Forall_forall in HF. now apply HF, in_map. }
  rewrite Forall_forall in IH. specialize (IH c Hc). destruct c as [i' cs'|i' vs'|b' i' num' tasks' ms' p'].
  - specialize (IH Hs eq_refl). lia.
  - contradiction.
  - destruct Hs as [<-|[]]. cbn [st_plan levels] in *. lia.
Qed.

Lemma find_kept (P : view -> Prop) v s :
  (forall b i num tasks ms p, P (VNet b i num tasks ms p) -> P p) -> (forall i cs, P (VNode i cs) -> Forall P cs) ->
  P v -> is_boundary v = false -> In s (find_input_stages v) -> P (st_plan s).
Proof.
  intros HB HN. induction v as [i cs IH|i vs|b i num tasks ms p IH] using view_ind'; cbn; [|tauto|discriminate].
  intros HP _ HI. apply in_concat in HI as (l & Hl & Hs). apply in_map_iff in Hl as (c & <- & Hc).
  apply HN in HP. rewrite Forall_forall in HP, IH. specialize (HP c Hc). specialize (IH c Hc).
  destruct c as [i' cs'|i' vs'|b' i' num' tasks' ms' p'].
  - now apply IH.
  - contradiction.
  - destruct Hs as [<-|[]]. cbn. eapply HB; exact HP.
Qed.
Lemma find_single v s : single_lines v -> is_boundary v = false -> In s (find_input_stages v) -> single_lines (st_plan s).
Proof.
  intros H. apply (find_kept single_lines); [| |exact H].
  - cbn. tauto.
  - cbn. intros i cs (_ & _ & HF). now apply fold_and.
Qed.
Lemma find_bare v s : no_bare_stage v -> In s (find_input_stages v) -> no_bare_stage (st_plan s).
Proof.
  intros [H1 H2] HI.
  assert (HP : match v with VNet _ _ _ _ _ p => True | _ => True end) by now destruct v.
  clear HP. revert H1 H2 HI. induction v as [i cs IH|i vs|b i num tasks ms p IH] using view_ind'; cbn; [|tauto|discriminate].
  intros _ HN HI. apply in_concat in HI as (l & Hl & Hs). apply in_map_iff in Hl as (c & <- & Hc).
  apply fold_and in HN. rewrite Forall_forall in HN, IH. specialize (HN c Hc). specialize (IH c Hc).
  destruct c as [i' cs'|i' vs'|b' i' num' tasks' ms' p'].
  - now apply IH.
  - contradiction.
  - destruct Hs as [<-|[]]. exact HN.
Qed.

Lemma display_lines fuel : forall d h v, no_bare_stage v -> single_lines v -> levels v < fuel ->
  display_ascii fuel d h v = Some (string_of_lines (List.concat (map stage_lines ((d, h, v) :: stages (S d) v)))).
Proof.
  induction fuel as [|fuel IH]; intros d h v HN HS HL; [lia|].
  cbn [display_ascii]. rewrite (find_stages (S d) v) by apply HN.
  assert (G : forall ss acc, (forall s, In s ss -> In s (find_input_stages v)) ->
    fold_left (fun acc s => match acc, display_ascii fuel (S d) (HStage s) (st_plan s) with
                            | Some a, Some b => Some (a ++ b) | _, _ => None end) ss (Some acc)
    = Some (acc ++ string_of_lines (List.concat (map stage_lines
        (List.concat (map (fun s => (S d, HStage s, st_plan s) :: stages (S (S d)) (st_plan s)) ss)))))).
  { induction ss as [|s ss IHs]; intros acc HI; cbn [fold_left map List.concat].
    - cbn. now rewrite app_nil_s.
    - assert (Hs : In s (find_input_stages v)) by (apply HI; now left).
      rewrite IH.
      + rewrite IHs by (intros s' Hs'; apply HI; now right).
        rewrite map_app, concat_app, string_of_lines_app, app_assoc_s. reflexivity.
      + now apply find_bare with v.
      + apply find_single with v; [exact HS|apply HN|exact Hs].
      + pose proof (find_levels v s Hs (proj1 HN)). lia. }
  rewrite G by auto. rewrite block_lines by exact HS.
  cbn [map List.concat]. rewrite string_of_lines_app. reflexivity.
Qed.
